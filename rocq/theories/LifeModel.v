(** Model of a compiled model in use: any sequence of calls of fit, evaluate, train_on_batch and predict (model.hpp:94-262, 345-359) and of
    assignments to learning_phase (config.hpp), over the state of the graph and the optimiser.

    Simplifications: those of EpochModel.v.  The tensors a call is given are new: what the caller keeps of them is not followed.  predict
    runs a copy of the model's expression; a copy shares the operators' states and identifiers (operation.hpp:61-67), and the model lets
    it share the operators' input_data_ and output_data_, too: forward writes them before backward reads them. *)
From Coq Require Import List Arith Bool PeanoNat Reals.
From Verif Require Import ListBase TensorModel GraphModel CalcSpec OptModel FitModel EpochModel EvalModel.
Import ListNotations.
Local Open Scope nat_scope.

Inductive call :=
| Fit (x y : val R) (b n training : nat)
| Evaluate (x y : val R) (b : nat)
| TrainOnBatch (x y : val R)
| Predict (x : val R)
| AssignPhase (learning : bool).

(** what a call returns *)
Inductive reply :=
| Errors (training validation : list (option R))
| MeanError (v : option R)
| Error (v : R)
| Result (v : val R)
| Nothing.

Section Life.
Variables (dbg : bool) (eps : R).

(** model.hpp:246-259: the loss's tensor is read only after the optimiser has run *)
Definition train_on_batch (sess : list (nat * bool)) (e : expr R) (p : nat) (x y : val R) (o : opt) : O (R * opt) :=
  do _ <- on_graph (modify (fun s => set_training s true));
  do yo <- train_batch dbg eps sess e [(0, x); (p, y)] o;
  do v <- scalar dbg (fst yo);
  oret (v, snd yo).

(** model.hpp:260-265, 345-359; session.hpp:58-63.  The tensor returned is read at once. *)
Definition predict (out : expr R) (x : val R) : O (val R) :=
  do _ <- on_graph (modify (fun s => set_training s false));
  do _ <- on_graph (bind_all [(0, x)]);
  do y <- on_graph (run 0%R 1%R Rplus Rmult dbg out);
  do _ <- on_graph (modify (fun s => set_cache s (fun _ => None)));
  do _ <- on_graph (modify (fun s => set_training s true));
  fun w => Ok (val_of (hp (gr w)) y, w).

Definition perform (sess : list (nat * bool)) (e out : expr R) (p : nat) (c : call) (o : opt) : O (reply * opt) :=
  match c with
  | Fit x y b n training => do r <- fit dbg eps sess e p x y b n training o; oret (Errors (fst (fst r)) (snd (fst r)), snd r)
  | Evaluate x y b => do v <- evaluate dbg e p x y b; oret (MeanError v, o)
  | TrainOnBatch x y => do r <- train_on_batch sess e p x y o; oret (Error (fst r), snd r)
  | Predict x => do v <- predict out x; oret (Result v, o)
  | AssignPhase l => do _ <- on_graph (modify (fun s => set_training s l)); oret (Nothing, o)
  end.

Fixpoint perform_all (sess : list (nat * bool)) (e out : expr R) (p : nat) (cs : list call) (o : opt) : O (list reply * opt) :=
  match cs with
  | [] => oret ([], o)
  | c :: cs =>
      do r <- perform sess e out p c o;
      do rs <- perform_all sess e out p cs (snd r);
      oret (fst r :: fst rs, snd rs)
  end.
End Life.
