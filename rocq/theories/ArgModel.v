(** Model of the operators argmax and argmin (include/operation.hpp:1329-1418).

    Simplifications: extents are unbounded naturals; the elements are any type with a comparison, a conversion from indices
    (matrix_output[_bs][_col] = mx_idx, line 1370: exact for float up to 2^24) and, for argmin, a negation.  The caches are
    left out: forward and backward overwrite every element of theirs. *)
From Coq Require Import List Arith Bool PeanoNat.
From Verif Require Import ListBase Loops TensorModel ArrayModel.
Import ListNotations.
Local Open Scope nat_scope.

Section Arg.
Context {A : Type} (zero : A) (ltb : A -> A -> bool) (of_nat : nat -> A) (opp : A -> A).
Variable dbg : bool.

(** 1359-1370: the loop over the rows of one column, from the first element on *)
Definition arg_loop (get : nat -> A) (row : nat) : nat :=
  fst (fold_left (fun s r => if ltb (snd s) (get r) then (r, get r) else s) (seq 0 row) (0, get 0)).

(** 1346-1348, 1385-1387: the shape without the axis *)
Definition without (axis : nat) (s : list nat) : list nat := firstn axis s ++ skipn (S axis) s.

(** forward (1339-1373); an axis out of range copies outside the shape; a column without rows reads outside the input *)
Definition argmax_fwd (axis : nat) (x : arr A) : outcome (arr A) :=
  let s := ashape x in
  check dbg (axis <? length s)
    (if length s <=? axis then UB
     else
       let bs := prod (firstn axis s) in
       let row := nth axis s 0 in
       let col := prod (skipn (S axis) s) in
       if bs * col =? 0 then Ok (Arr (without axis s) [])
       else if (row =? 0) || (length (adata x) <? bs * row * col) then UB
       else Ok (Arr (without axis s)
              (loop2 bs col (fun b c => of_nat (arg_loop (fun r => nth (b * col * row + c + r * col) (adata x) zero) row))))).

(** backward (1374-1380): zeros *)
Definition argmax_bwd (input grad : arr A) : arr A := Arr (ashape input) (repeat zero (prod (ashape input))).

(** 1382-1388: the shape announced beforehand *)
Definition argmax_shape (axis : nat) (s : list nat) : outcome (list nat) :=
  if length s <=? axis then UB else Ok (without axis s).

(** argmin (1412-1418): argmax of the negated operand *)
Definition argmin_fwd (axis : nat) (x : arr A) : outcome (arr A) := argmax_fwd axis (Arr (ashape x) (map opp (adata x))).

End Arg.
