(** Model of the operator concatenate (include/operation.hpp:2392-2475): the forward action is the concatenate of tensor.tcc (ArrayModel.v),
    the backward action cuts the gradient into two new tensors, and a shape calculator tells the shape of the result beforehand.

    Simplifications: extents are unbounded naturals; an input has as many elements as its shape says (its size() and the size of a tensor
    made with its shape are the same number here). *)
From Coq Require Import List Arith Bool PeanoNat Reals.
From Verif Require Import ListBase TensorModel ArrayModel GraphModel.
Import ListNotations.

Section Concat.
Context {A : Type} (zero : A).
Variable dbg : bool.

(** std::copy of s to position at of d *)
Definition blit (d : list A) (at_ : nat) (s : list A) : list A := firstn at_ d ++ s ++ skipn (at_ + length s) d.

(** operation.hpp:2426-2430: row idx of the gradient; its first lc elements become row idx of v_l, the others row idx of v_r *)
Definition copy_row (g : list A) (g_col lc rc : nat) (d : list A * list A) (idx : nat) : list A * list A :=
  (blit (fst d) (idx * lc) (slice g (idx * g_col) lc), blit (snd d) (idx * rc) (slice g (idx * g_col + lc) (g_col - lc))).

(** operation.hpp:2402-2433.  begin()+ax behind the end of the shape, divisions by zero, a copy from a later to an earlier position and a
    copy behind the end of r_ans are undefined; the rows of v_l always fit. *)
Definition concat_back (axis : option nat) (l r g : arr A) : outcome (arr A * arr A) :=
  let size_l := prod (ashape l) in
  let size_r := prod (ashape r) in
  check dbg (size_l + size_r =? length (adata g))
    (let sg := ashape g in
     let ax := pick_axis axis (length sg) in
     let g_col := prod (skipn ax sg) in
     if (match axis with None => length sg =? 0 | Some _ => length sg <? ax end) || (g_col =? 0) then UB
     else
       let g_row := length (adata g) / g_col in
       if g_row =? 0 then UB
       else
         let lc := size_l / g_row in
         let rc := size_r / g_row in
         check dbg (g_col =? lc + rc)
           (if (g_col <? lc) || (size_r <? (g_row - 1) * rc + (g_col - lc)) then UB
            else
              let d := fold_left (copy_row (adata g) g_col lc rc) (seq 0 g_row) (repeat zero size_l, repeat zero size_r) in
              Ok (Arr (ashape l) (fst d), Arr (ashape r) (snd d)))).

(** operation.hpp:2436-2444: the shape of the result, from the shapes of the operands.  axe > ans.size() selects the last axis, which
    for axe = -1 is meant and for other large axes is not an error here; axe = ans.size() indexes behind the end. *)
Definition concat_shape (axis : option nat) (l r : list nat) : outcome (list nat) :=
  check dbg (length l =? length r)
    (let new_axe := match axis with None => length l - 1 | Some a => if length l <? a then length l - 1 else a end in
     if (new_axe <? length l) && (new_axe <? length r) then Ok (upd l new_axe (nth new_axe l 0 + nth new_axe r 0)) else UB).
End Concat.

Definition arr_of {A} (v : val A) : arr A := Arr (fst v) (snd v).
Definition val_of_arr {A} (a : arr A) : val A := (ashape a, adata a).

(** the operator as a node of the graph of GraphModel.v: a new tensor forward, two new tensors backward *)
Definition op_concat (dbg : bool) (axis : option nat) : bop R :=
  BNew false
    (fun a b => match concatenate 0%R dbg (arr_of a) (arr_of b) axis with Ok y => Some (val_of_arr y) | _ => None end)
    false
    (fun a b _ g => match concat_back 0%R dbg axis (arr_of a) (arr_of b) (arr_of g) with Ok gs => Some (val_of_arr (fst gs), val_of_arr (snd gs)) | _ => None end).
