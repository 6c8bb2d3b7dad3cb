(** Model of the operator broadcast( new_shape ) (include/operation.hpp:464-517).

    Simplifications: extents are unbounded naturals; an operator takes the contents of its forward cache and gives the new
    contents with the result (as in LayerModel); a resized cache of another size is zeros. *)
From Coq Require Import List Arith Bool PeanoNat.
From Verif Require Import ListBase Loops TensorModel ArrayModel LayerModel.
Import ListNotations.
Local Open Scope nat_scope.

Section Bcast.
Context {A : Type} (zero : A) (plus : A -> A -> A).
Variable dbg : bool.

(** forward (473-490): the input copied new_size / old_size times, one copy behind the other *)
Definition bc_fwd (t : list nat) (cache : list A) (x : arr A) : outcome (list A * arr A) :=
  check dbg (negb (length (adata x) =? 0))
    (if list_eqb t (ashape x) then Ok (cache, x)
     else
       let old := prod (ashape x) in
       if old =? 0 then UB                                   (* division by zero *)
       else
         fill (resized zero cache (prod t)) t
           (loop2 (prod t / old) (length (adata x)) (fun i j => (i * old + j, nth j (adata x) zero)))).

(** backward (491-512): the copies' gradients added up *)
Definition bc_bwd (input output grad : arr A) : outcome (arr A) :=
  check dbg (negb (length (adata input) =? 0)) (check dbg (negb (length (adata output) =? 0)) (check dbg (negb (length (adata grad) =? 0))
    (if list_eqb (ashape input) (ashape output) then Ok grad
     else check dbg (list_eqb (ashape output) (ashape grad))
       (let old := prod (ashape input) in
        if old =? 0 then UB
        else
          let f := prod (ashape grad) / old in
          if length (adata grad) <? f * old then UB
          else Ok (Arr (ashape input) (accumulate plus zero (loop2 f old (fun i j => (j, nth (i * old + j) (adata grad) zero))) (repeat zero old))))))).

(** 514: the shape announced beforehand *)
Definition bc_shape (t s : list nat) : list nat := t.

End Bcast.
