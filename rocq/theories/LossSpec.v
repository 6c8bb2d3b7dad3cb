(** What the losses of loss.hpp are meant to be, and what a training step with a loss does. *)
From Coq Require Import List Arith Bool Reals.
From Coquelicot Require Import Rcomplements Hierarchy Derive.
From Verif Require Import ListBase TensorModel GraphModel GraphSpec GradSpec LayerSpec CalcSpec GradProps.
Import ListNotations.
Local Open Scope nat_scope.

(** the sum over all elements of h( target - prediction ) *)
Definition spread (h : R -> R) (target pred : list R) : R := rsum (map2 (fun t y => h (t - y)%R) target pred).
Definition spread_of (h : R -> R) (target : list R) (pred : option (val R)) : R := match pred with Some w => spread h target (snd w) | None => 0%R end.

(** the number of elements, and of samples: a tensor with one dimension is one sample *)
Definition elements (s : list nat) : R := INR (prod s).
Definition samples (s : list nat) : R := match s with b :: _ :: _ => INR b | _ => 1%R end.

(** no tensor of the model is in the target's storage a *)
Definition aside (s : st R) (out : expr R) (a : nat) : Prop :=
  (forall k v, At out k (EVar v) -> ref (vdata (vars s v)) <> a) /\
  (forall k p t, At out k (EHold p) -> holders s p = Some t -> ref t <> a) /\
  (forall k t, At out k (EConst t) -> ref t <> a).

(** A training step with the loss e, which compares the output of the model out with a target in storage a: run returns value;
    backward( 1 ) gives element i of variable v a gradient that is as near to the derivative of the objective (a function of the model's
    output) plus the regularisers' cost as near says; the target's storage is left with rest; no other tensor of the user's has changed;
    and what a further step needs of the storages holds again. *)
Definition trained (dbg : bool) (eps : R) (e out : expr R) (s : st R) (who : nat -> owner) (a : nat) (value : R) (rest : list R)
    (objective : option (val R) -> R) (near : nat -> nat -> R -> R -> Prop) : Prop :=
  exists t s1 s2 who2,
    run 0%R 1%R Rplus Rmult dbg e s = Ok (t, s1) /\ val_of (hp s1) t = ([1], [value]) /\
    backs 0%R 1%R Rplus Rmult Ropp rleb eps dbg e [([1], [1%R])] s1 = Ok (tt, s2) /\
    (forall k v i, At e k (EVar v) -> (forall k', At e k' (EVar v) -> trainable (vobjs s k') = true) -> i < count_of s v ->
       let x0 := nth i (data_of s v) 0%R in
       (x0 <> 0%R \/ forall k', At e k' (EVar v) -> (l1 (vobjs s k') < eps)%R) ->
       exists l, is_derive (fun x => objective (evalR (nudge (env_of s) v i x) out) + cost eps (vobjs s) v (uses None e) x)%R x0 l /\
                 near v i (nth i (grad_of s2 v) 0%R) l) /\
    nth_error (hp s2) a = Some rest /\
    (forall b, b < length (hp s) -> b <> a -> who b = OLeaf -> nth_error (hp s2) b = nth_error (hp s) b) /\
    (forall u, vars s2 u = vars s u) /\ holders s2 = holders s /\ training s2 = training s /\
    (forall k, trainable (vobjs s2 k) = trainable (vobjs s k) /\ l1 (vobjs s2 k) = l1 (vobjs s k) /\ l2 (vobjs s2 k) = l2 (vobjs s k)) /\
    separate out s2 who2 /\ graded out s2 /\
    length (hp s) <= length (hp s2) /\ (forall b, b < length (hp s) -> who2 b = who b).

Definition exactly (_ _ : nat) (g l : R) : Prop := g = l.

(** s.run( e ), k times: the values returned and the state afterwards *)
Fixpoint runs (dbg : bool) (k : nat) (e : expr R) (s : st R) : outcome (list (val R) * st R) :=
  match k with
  | 0 => Ok ([], s)
  | S k => match run 0%R 1%R Rplus Rmult dbg e s with
           | Ok (t, s1) => match runs dbg k e s1 with Ok (vs, s2) => Ok (val_of (hp s1) t :: vs, s2) | Abort => Abort | UB => UB end
           | Abort => Abort
           | UB => UB
           end
  end.
