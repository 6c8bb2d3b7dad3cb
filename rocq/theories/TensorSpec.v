(** Specification vocabulary for the tensor properties, readable without the model's functions: elements by multi-index,
    NumPy's broadcasting rule, reshape requests, matrix products. *)
From Coq Require Import List Arith Lia Bool PeanoNat.
From Verif Require Import ListBase TensorModel.
Import ListNotations.

Section Spec.
Context {A : Type}.

(** the element of tensor t at multi-index idx ([offset] is the row-major position) *)
Definition elem (h : list (list A)) (t : tensor) (idx : list nat) : option A :=
  match nth_error h (ref t) with
  | Some d => nth_error d (offset (shape t) idx)
  | None => None
  end.

(** t refers to a live storage with as many elements as its shape says *)
Definition well_formed (h : list (list A)) (t : tensor) : Prop :=
  exists d, nth_error h (ref t) = Some d /\ length d = prod (shape t).

(** all elements of t in row-major order *)
Definition contents (h : list (list A)) (t : tensor) : option (list A) := nth_error h (ref t).

End Spec.

(** the j-th dimension counted from the right; a missing one counts as 1 *)
Definition dimr (s : list nat) (j : nat) : nat := nth j (rev s) 1.

(** NumPy: from the right, the two dimensions are equal or one of them is 1, and the result has the other one *)
Definition Broadcasts (a b r : list nat) : Prop :=
  length r = Nat.max (length a) (length b) /\
  forall j, j < length r ->
    (dimr a j = dimr b j /\ dimr r j = dimr a j) \/
    (dimr a j = 1 /\ dimr r j = dimr b j) \/
    (dimr b j = 1 /\ dimr r j = dimr a j).

(** a tensor of shape s can be stretched to shape S *)
Definition Stretches (s S : list nat) : Prop :=
  length s <= length S /\ forall j, j < length s -> dimr s j = dimr S j \/ dimr s j = 1.

(** the source position of target index idx: leading axes dropped, axes of extent 1 read at 0 *)
Definition source_index (s idx : list nat) : list nat :=
  map2 (fun d i => if d =? 1 then 0 else i) s (skipn (length idx - length s) idx).

(** s with leading ones up to rank n *)
Definition padded (n : nat) (s : list nat) : list nat := repeat 1 (n - length s) ++ s.

Section MatrixSpec.
Context {A : Type} (zero : A) (plus mul : A -> A -> A).

(** x 0 * y 0 + x 1 * y 1 + ..., added from the left starting at zero *)
Definition dot (n : nat) (x y : nat -> A) : A := fold_left (fun acc i => plus acc (mul (x i) (y i))) (seq 0 n) zero.

(** entry (r, c) of a row-major matrix with [cols] columns *)
Definition entry (d : list A) (cols r c : nat) : A := nth (r * cols + c) d zero.

(** entry (r, c) of a matrix with [rows] rows and [cols] columns that is stored as is, or stored transposed *)
Definition op_entry (d : list A) (transposed : bool) (rows cols r c : nat) : A :=
  if transposed then entry d rows c r else entry d cols r c.
End MatrixSpec.

(** the shape u, padded with ones, is ones followed by a tail of U *)
Definition TailOf (u U : list nat) : Prop := exists k, padded (length U) u = repeat 1 k ++ skipn k U.
