(** Vocabulary of the properties of the layer operators. *)
From Coq Require Import List Arith Bool PeanoNat ZArith Reals.
From Verif Require Import ListBase TensorModel ArrayModel ArrayProofs.
Import ListNotations.

(** the sum of an array, and the inner product of two *)
Fixpoint rsum (l : list R) : R := match l with [] => 0%R | x :: t => (x + rsum t)%R end.

Definition inner (a b : list R) : R := rsum (map2 Rmult a b).

(** [backward] is the adjoint of [forward] between arrays of shape s and arrays of shape t: whatever input x0 the operator
    was run on, backward( g ) is the one array b with <b, x> = <g, forward( x )> for all x *)
Definition adjoint (s t : list nat) (forward : arr R -> outcome (arr R)) (backward : arr R -> arr R -> outcome (arr R)) : Prop :=
  forall x0 g, wf x0 -> ashape x0 = s -> wf g -> ashape g = t ->
    exists b, backward x0 g = Ok b /\ wf b /\ ashape b = s /\
      forall x, wf x -> ashape x = s ->
        exists y, forward x = Ok y /\ wf y /\ ashape y = t /\ inner (adata b) (adata x) = inner (adata g) (adata y).

(** an ordering test without NaN: a strict weak order *)
Definition strict_weak {A} (ltb : A -> A -> bool) : Prop :=
  (forall x, ltb x x = false) /\ (forall x y z, ltb x y = true -> ltb y z = true -> ltb x z = true) /\
  (forall x y z, ltb x y = false -> ltb y z = false -> ltb x z = false).

(** among the listed cells of d, p holds a largest element, and all cells listed before p hold smaller ones *)
Definition first_max {A} (zero : A) (ltb : A -> A -> bool) (d : list A) (cells : list nat) (p : nat) : Prop :=
  exists l1 l2, cells = l1 ++ p :: l2 /\
    (forall q, In q l1 -> ltb (nth q d zero) (nth p d zero) = true) /\ (forall q, In q l2 -> ltb (nth p d zero) (nth q d zero) = false).

(** (row, col) is a pixel of an R x C image *)
Definition on_image (R C : nat) (row col : Z) : bool := ((0 <=? row) && (row <? Z.of_nat R) && (0 <=? col) && (col <? Z.of_nat C))%Z%bool.
