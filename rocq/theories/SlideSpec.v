(** What sliding an image means. *)
From Coq Require Import List Arith Bool PeanoNat ZArith.
From Verif Require Import ListBase TensorModel ArrayModel ArrayProofs.
Import ListNotations.
Local Open Scope nat_scope.

(** y is x with channel w of every image moved down by dr w rows and right by dc w columns; what leaves the image is lost,
    what enters is zero *)
Definition slid {A} (zero : A) (dr dc : nat -> Z) (x y : arr A) : Prop :=
  exists n r c k, ashape x = [n; r; c; k] /\ ashape y = [n; r; c; k] /\ wf y /\
    forall i v z w, i < n -> v < r -> z < c -> w < k ->
      (forall v' z', v' < r -> z' < c -> Z.of_nat v = (Z.of_nat v' + dr w)%Z -> Z.of_nat z = (Z.of_nat z' + dc w)%Z ->
         at_index y [i; v; z; w] = at_index x [i; v'; z'; w]) /\
      ((~ exists v' z', v' < r /\ z' < c /\ Z.of_nat v = (Z.of_nat v' + dr w)%Z /\ Z.of_nat z = (Z.of_nat z' + dc w)%Z) ->
         at_index y [i; v; z; w] = Some zero).

(** the row and column shifts in a stream of random numbers: two numbers for each channel *)
Definition rows (draws : nat -> Z) (w : nat) : Z := draws (2 * w).
Definition cols (draws : nat -> Z) (w : nat) : Z := draws (2 * w + 1).

(** the generator is asked for numbers between -p and p *)
Definition within (p : nat) (draws : nat -> Z) : Prop := forall j, (- Z.of_nat p <= draws j <= Z.of_nat p)%Z.

(** the random numbers of the last learning pass *)
Fixpoint last_draws {A} (h : list (bool * (nat -> Z) * arr A)) : option (nat -> Z) :=
  match h with
  | [] => None
  | (learning, draws, _) :: t =>
      match last_draws t with Some d => Some d | None => if learning then Some draws else None end
  end.
