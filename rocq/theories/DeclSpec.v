(** When the announced shape of an expression is the shape it gets. *)
From Coq Require Import List Arith NArith Reals.
From Verif Require Import ListBase TensorModel ArrayModel LayerModel DeclModel.
Import ListNotations.
Local Open Scope nat_scope.

Definition limit : N := 9223372036854775808.        (* 2^63: no array is larger than PTRDIFF_MAX bytes *)

(** no extent and no number of elements beyond what an array can have *)
Definition fits (s : list nat) : Prop := Forall (fun n => (N.of_nat n < limit)%N) s /\ (N.of_nat (prod s) < limit)%N.

(** as many elements as the shape says, not too many *)
Definition sound_array (x : arr R) : Prop := length (adata x) = prod (ashape x) /\ fits (ashape x).

(** the cases in which an operator's calculator is right about an operand of shape s *)
Definition right1 (o : op1) (s : list nat) : Prop :=
  match o with
  | Flip _ | Squeeze None => prod s <> 0
  | Reshape t _ => (N.of_nat (prod t) < limit)%N
  | Flatten => (N.of_nat (prod (tl s)) < 2147483648)%N                              (* 2^31 *)
  | Reduce _ None => length s = 1
  | Reduce _ (Some a) => a < length s
  | Repeat _ _ => s <> []
  | Spread rk ck _ _ v => v = true -> rk <> 0 /\ ck <> 0
  | Img2col a => (N.of_nat (nth 1 s 0%nat + 2 * prow a) < word)%N /\ (N.of_nat (nth 2 s 0%nat + 2 * pcol a) < word)%N
  | _ => True
  end.

(** the same for two operands *)
Definition right2 (o : op2) (l r : list nat) : Prop :=
  match o with
  | Product => if prod l <? prod r then length l <= length r else length r < length l \/ l = r
  | CrossEntropy _ => if length r <? length l then l = [1] else r = [1]
  | _ => True
  end.

(** one operand and a value, which becomes an array of the operand's shape s *)
Definition right_value (o : op2) (s : list nat) : Prop :=
  match o with
  | Concat _ => False
  | CrossEntropy _ => s = [1]
  | _ => True
  end.

(** an evaluation in which every operator is in such a case and no array is too large *)
Inductive plainly (dbg : bool) (leaf : nat -> arr R) : ex -> arr R -> Prop :=
| pl_leaf n : sound_array (leaf n) -> plainly dbg leaf (Leaf n) (leaf n)
| pl_un o e x y : plainly dbg leaf e x -> right1 o (ashape x) -> forward1 dbg o x y -> fits (ashape y) -> plainly dbg leaf (Un o e) y
| pl_bin o l r x y z : plainly dbg leaf l x -> plainly dbg leaf r y -> right2 o (ashape x) (ashape y) -> forward2 dbg o x y z -> fits (ashape z) ->
    plainly dbg leaf (Bin o l r) z
| pl_left o c r y z : plainly dbg leaf r y -> right_value o (ashape y) -> forward2 dbg o (value_like c y) y z -> fits (ashape z) ->
    plainly dbg leaf (Bin o (Value c) r) z
| pl_right o c l x z : plainly dbg leaf l x -> right_value o (ashape x) -> forward2 dbg o x (value_like c x) z -> fits (ashape z) ->
    plainly dbg leaf (Bin o l (Value c)) z.
