(** Textbook statistics of a finite sample, independent of the model. *)
From Coq Require Import List Arith Reals.
From Verif Require Import ListBase TensorModel TensorSpec.
Import ListNotations.

Fixpoint total (l : list R) : R := match l with [] => 0%R | x :: t => (x + total t)%R end.

(** the arithmetic mean *)
Definition average (l : list R) : R := (total l / INR (length l))%R.

(** the sum of the squared deviations from the mean, and its average: the (population) variance *)
Definition squared_deviations (l : list R) : list R := map (fun x => (x - average l) ^ 2)%R l.
Definition population_variance (l : list R) : R := average (squared_deviations l).
Definition population_deviation (l : list R) : R := sqrt (population_variance l).

(** the Euclidean norm *)
Definition euclidean (l : list R) : R := sqrt (total (map (fun x => x ^ 2)%R l)).

(** l is the line of t along the axis of extent n between the leading index ip and the trailing index iq *)
Definition line (h : list (list R)) (t : tensor) (ip iq : list nat) (n : nat) (l : list R) : Prop :=
  length l = n /\ forall k, k < n -> elem h t (ip ++ k :: iq) = nth_error l k.

(** what is left of a shape p ++ n :: q, and of an index, once the axis between p and q has been reduced *)
Definition left_over (keepdims : bool) (p q : list nat) : list nat := if keepdims then p ++ 1 :: q else p ++ q.
Definition left_index (keepdims : bool) (ip iq : list nat) : list nat := if keepdims then ip ++ 0 :: iq else ip ++ iq.

(** the axis argument names dimension k of n: given directly, or as -1 for the last one *)
Definition axis_is (axis : option nat) (n k : nat) : Prop := axis = Some k \/ (axis = None /\ S k = n).
