(** Model of compiled_model::evaluate (model.hpp:94-138) over the state of the graph: like EpochModel.v's fit, but in the prediction phase and
    without the optimiser.

    Simplifications: those of EpochModel.v. *)
From Coq Require Import List Arith Bool PeanoNat Reals.
From Verif Require Import ListBase TensorModel GraphModel CalcSpec OptModel FitModel EpochModel.
Import ListNotations.
Local Open Scope nat_scope.

Section Evaluate.
Variables (dbg : bool).

(** lines 123-132: the batches l, l+1, ... *)
Fixpoint tests (e : expr R) (tx ty : tensor) (x y : list R) (nx ny l todo : nat) (ve : R) : O R :=
  match todo with
  | 0 => oret ve
  | S todo =>
      do _ <- refill tx x (l * nx) nx;
      do _ <- refill ty y (l * ny) ny;
      do v <- run_loss dbg e;
      tests e tx ty x y nx ny (S l) todo (ve + v)%R
  end.

(** lines 94-138; the place holders are numbered as in EpochModel.fit *)
Definition evaluate (e : expr R) (p : nat) (x y : val R) (b : nat) : O (option R) :=
  match fst x, fst y with
  | samples :: s, _ :: t =>
      if b =? 0 then (fun _ => UB)
      else
        do tx <- new_bound 0 (b :: s);
        do ty <- new_bound p (b :: t);
        do _ <- on_graph (modify (fun s => set_training s false));
        do v <- tests e tx ty (snd x) (snd y) (prod (b :: s)) (prod (b :: t)) 0 (samples / b) 0%R;
        do _ <- on_graph (modify (fun s => set_training s true));
        oret (quotient v (samples / b))
  | _, _ => fun _ => UB
  end.
End Evaluate.
