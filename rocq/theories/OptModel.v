(** Model of the optimisers (include/optimizer.hpp) over the graph of GraphModel.v, with real numbers as elements.

    An optimiser's forward() calls backward on its loss with a gradient of one 1, then walks over the session's map of
    variables (session.hpp:36 variables_, an unordered_map from ids to copies of the variables) and updates those whose copy
    is trainable.  The auxiliary tensors (moments) belong to the variables: variable.hpp:31 contexts_.

    Simplifications: elements and hyper-parameters are real numbers (the code's float arithmetic rounds, and 1.0-... is
    computed in double); the order of the unordered_map is that of the given list, which is arbitrary; has_nan (339) is left
    out, there being no NaN; amsgrad_ (256) is never read by the code. *)
From Coq Require Import List Arith Lia Bool PeanoNat Reals.
From Verif Require Import ListBase TensorModel GraphModel CalcSpec.
Import ListNotations.
Local Open Scope nat_scope.

(** the hyper-parameters that do not change *)
Inductive algo :=
| Sgd (momentum decay : R) (nesterov : bool)     (* optimizer.hpp:27-69 *)
| Adagrad (decay : R)                            (* 71-115 *)
| Rmsprop (rho decay : R)                        (* 120-170 *)
| Adadelta (rho : R)                             (* 175-241 *)
| Adam (beta_1 beta_2 : R)                       (* 246-310 *)
| Descent (momentum : R).                        (* 325-363 *)

(** learning_rate_ and iterations_ *)
Record opt := Opt { alg : algo; rate : R; steps : nat }.

(** the constructors: 37-43, 82-87, 133-138, 186-190, 259-264, 331-334 *)
Definition new_sgd (batch : nat) (lr momentum decay : R) (nesterov : bool) : opt :=
  Opt (Sgd (Rmax 0 momentum) (Rmax 0 decay) nesterov) (lr / INR batch) 0.
Definition new_adagrad (batch : nat) (lr decay : R) : opt := Opt (Adagrad (Rmax 0 decay)) (lr / INR batch) 0.
Definition new_rmsprop (batch : nat) (lr rho decay : R) : opt := Opt (Rmsprop rho (Rmax 0 decay)) (lr / INR batch) 0.
Definition new_adadelta (batch : nat) (rho : R) : opt := Opt (Adadelta rho) (1 / INR batch) 0.
Definition new_adam (batch : nat) (lr beta_1 beta_2 : R) : opt := Opt (Adam beta_1 beta_2) (lr / INR batch) 0.
Definition new_descent (batch : nat) (lr momentum : R) : opt := Opt (Descent momentum) (lr / INR batch) 0.

(** the graph's state and the variables' contexts_ *)
Record world := W { gr : st R; ctx : nat -> list tensor }.

Definition O (T : Type) := world -> outcome (T * world).
Definition oret {T} (v : T) : O T := fun w => Ok (v, w).
Definition obnd {S T} (m : O S) (f : S -> O T) : O T :=
  fun w => match m w with Ok (v, w') => f v w' | Abort => Abort | UB => UB end.
Notation "'do' x <- m ; f" := (obnd m (fun x => f)) (at level 200, x name, m at level 100, f at level 200).

(** a graph function, a tensor function *)
Definition on_graph {T} (m : G (A:=R) T) : O T :=
  fun w => match m (gr w) with Ok (v, s) => Ok (v, W s (ctx w)) | Abort => Abort | UB => UB end.
Definition on_heap {T} (m : M (A:=R) T) : O T := on_graph (heaply m).

(** utils/for_each.hpp:45-60: for_each( lead.begin(), lead.end(), ... ) where the body writes element idx of t from elements
    idx of t, u and v; as many rounds as lead has elements *)
Definition each (lead t u v : tensor) (f : R -> R -> R -> R) : M (A:=R) unit :=
  bind (data lead) (fun dl => bind (data t) (fun dt => bind (data u) (fun du => bind (data v) (fun dv =>
    let n := length dl in
    if (n <=? length dt) && (n <=? length du) && (n <=? length dv)
    then store t (tab n (fun i => f (nth i dt 0%R) (nth i du 0%R) (nth i dv 0%R)) ++ skipn n dt)
    else fail_ub)))).

(** contexts[j] *)
Definition context (v j : nat) : O tensor :=
  fun w => match nth_error (ctx w v) j with Some t => Ok (t, w) | None => UB end.

(** if ( contexts.empty() ) n times contexts.push_back( zeros_like( data ) ) *)
Fixpoint push_zeros (v n : nat) : O unit :=
  match n with
  | 0 => oret tt
  | S n' =>
      do vs <- on_graph (get (fun s => vars s v));
      do t <- on_heap (new_zero 0%R (shape (vdata vs)));
      do _ <- (fun w => Ok (tt, W (gr w) (fupd (ctx w) v (ctx w v ++ [t]))));
      push_zeros v n'
  end.
Definition create (v n : nat) : O unit :=
  fun w => match ctx w v with [] => push_zeros v n w | _ => Ok (tt, w) end.

Section Step.
Variable dbg : bool.
Variable eps : R.   (* config.hpp: eps *)

(** the body of the loop over the session's variables, for a trainable variable: 51-66, 98-112, 149-167, 199-238, 273-306,
    336-358 *)
Definition update_var (a : algo) (lr : R) (it : nat) (v : nat) : O unit :=
  do vs <- on_graph (get (fun s => vars s v));
  let d := vdata vs in
  let g := vgrad vs in
  do _ <- match a with
          | Sgd mu _ nesterov =>
              do _ <- create v 1;
              do m <- context v 0;
              do _ <- on_heap (each m m g g (fun m g _ => m * mu - lr * g)%R);
              if negb nesterov then on_heap (each m d m g (fun d m g => d + (mu * m - lr * g))%R)
              else on_heap (zip_inplace dbg Rplus d m)
          | Adagrad _ =>
              do _ <- create v 1;
              do m <- context v 0;
              do _ <- on_heap (each m m g g (fun m g _ => m + g * g)%R);
              on_heap (each d d g m (fun d g m => d - lr * g / (eps + sqrt m))%R)
          | Rmsprop rho _ =>
              do _ <- create v 1;
              do m <- context v 0;
              do _ <- (if it =? 0 then on_heap (each m m g g (fun m g _ => g * g)%R)
                       else on_heap (each m m g g (fun m g _ => m * rho + g * g * (1 - rho))%R));
              on_heap (each d d g m (fun d g m => d - lr * g / (eps + sqrt m))%R)
          | Adadelta rho =>
              do _ <- create v 2;
              do m <- context v 0;
              do delta <- context v 0;
              do _ <- on_heap (each m m g g (fun m g _ => m * rho + g * g * (1 - rho))%R);
              do _ <- on_heap (each g g delta m (fun g d m => g * (lr * sqrt ((d + eps) / (m + eps))))%R);
              do _ <- on_heap (zip_inplace dbg Rminus d g);
              on_heap (each delta delta g g (fun d g _ => d * rho + (1 - rho) * g * g)%R)
          | Adam b1 b2 =>
              do _ <- create v 2;
              do m <- context v 0;
              do s <- context v 1;
              do _ <- on_heap (each m m g g (fun m g _ => m * b1 + g * (1 - b1))%R);
              do _ <- on_heap (each s s g g (fun s g _ => s * b2 + g * g * (1 - b2))%R);
              let lrt := (lr * sqrt (1 - b2 ^ (it + 1)) / (1 - b1 ^ (it + 1)))%R in
              if 1 <? it then on_heap (each d d m s (fun d m s => d - lrt * m / (eps + sqrt s))%R)
              else on_heap (each d d g g (fun d g _ => d - lr * g)%R)
          | Descent _ =>
              do t <- on_heap (scalar_op 0%R (fun x => x * lr)%R g);
              on_heap (zip_inplace dbg Rminus d t)
          end;
  on_heap (reset g 0%R).

(** for ( auto [id, v] : ss.variables_ ) if (v.trainable_) *)
Fixpoint update_all (a : algo) (lr : R) (it : nat) (sess : list (nat * bool)) : O unit :=
  match sess with
  | [] => oret tt
  | (v, tr) :: sess' =>
      do _ <- (if tr : bool then update_var a lr it v else oret tt);
      update_all a lr it sess'
  end.

(** learning_rate_ /= ( 1.0 + decay_ * iterations_ ): 48, 94, 145; the others have no decay *)
Definition next_rate (o : opt) : R :=
  match alg o with
  | Sgd _ decay _ | Adagrad decay | Rmsprop _ decay => rate o / (1 + decay * INR (steps o))
  | _ => rate o
  end.

(** the optimiser's forward(): 45-68, 89-114, 140-169, 192-240, 266-308, 327-360 *)
Definition step (sess : list (nat * bool)) (e : expr R) (o : opt) : O opt :=
  do t <- on_graph (new_tensor ([1], [1%R]));
  do _ <- on_graph (backward 0%R 1%R Rplus Rmult Ropp rleb eps dbg None e t);
  let lr := next_rate o in
  do _ <- update_all (alg o) lr (steps o) sess;
  oret (Opt (alg o) lr (S (steps o))).

(** a batch: tensors are bound to place holders (session.hpp:44-49), the loss is run, then the optimiser (model.hpp:248-259,
    201-213; session.hpp:58-63).  The batches' tensors are new. *)
Fixpoint bind_all (feed : list (nat * val R)) : G (A:=R) unit :=
  match feed with
  | [] => gret tt
  | (p, x) :: feed' =>
      gbind (new_tensor x) (fun t => gbind (modify (fun s => set_holders s (fupd (holders s) p (Some t)))) (fun _ => bind_all feed'))
  end.
Definition train_batch (sess : list (nat * bool)) (e : expr R) (feed : list (nat * val R)) (o : opt) : O (tensor * opt) :=
  do _ <- on_graph (bind_all feed);
  do y <- on_graph (run 0%R 1%R Rplus Rmult dbg e);
  do _ <- on_graph (modify (fun s => set_cache s (fun _ => None)));
  do o' <- step sess e o;
  oret (y, o').

(** batch after batch *)
Fixpoint train (sess : list (nat * bool)) (e : expr R) (feeds : list (list (nat * val R))) (o : opt) : O opt :=
  match feeds with
  | [] => oret o
  | feed :: feeds' => do yo <- train_batch sess e feed o; train sess e feeds' (snd yo)
  end.

End Step.
