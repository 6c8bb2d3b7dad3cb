(** What a matrix product promises, on memory. *)
From Coq Require Import List Arith NArith Reals.
From Verif Require Import TensorSpec GemmModel.
Import ListNotations.
Local Open Scope nat_scope.

(** len elements from p on *)
Definition region (M : memory) (p len : nat) : list R := firstn len (skipn p M).

(** M' is M with the product of p in its place *)
Definition multiplied (p : product) (M M' : memory) : Prop :=
  length M' = length M /\
  (forall r c, r < rows p -> c < cols p ->
     nth_error M' (pC p + (r * cols p + c)) =
     Some (dot 0%R Rplus Rmult (common p) (fun i => op_entry 0%R (region M (pA p) (rows p * common p)) (tA p) (rows p) (common p) r i)
                                          (fun i => op_entry 0%R (region M (pB p) (common p * cols p)) (tB p) (common p) (cols p) i c))) /\
  (forall q, q < pC p \/ pC p + rows p * cols p <= q -> nth_error M' q = nth_error M q).

(** one product after the other *)
Inductive computed : list product -> memory -> memory -> Prop :=
| computed_nil M : computed [] M M
| computed_cons p ps M M1 M' : multiplied p M M1 -> computed ps M1 M' -> computed (p :: ps) M M'.

(** the matrices lie in memory, the result apart from the factors; extents are positive and fit an int *)
Definition placed (size : nat) (p : product) : Prop :=
  pA p + rows p * common p <= size /\ pB p + common p * cols p <= size /\ pC p + rows p * cols p <= size /\
  (pC p + rows p * cols p <= pA p \/ pA p + rows p * common p <= pC p) /\ (pC p + rows p * cols p <= pB p \/ pB p + common p * cols p <= pC p).
Definition fits_int (n : nat) : Prop := 1 <= n /\ (N.of_nat n < 2147483648)%N.
Definition sensible (size : nat) (p : product) : Prop := placed size p /\ fits_int (rows p) /\ fits_int (common p) /\ fits_int (cols p).

(** a memory that can exist: less than 2^56 elements *)
Definition real_memory (M : memory) : Prop := (N.of_nat (length M) < 72057594037927936)%N.
(** the buffer's size can be counted *)
Definition countable (g : globals) : Prop := (buffer g < 9223372036854775808)%N.
(** the measurement of the threshold ends before its matrices have 2^24 rows *)
Definition brief (rounds : nat) : Prop := (N.of_nat rounds < 1048576)%N.
