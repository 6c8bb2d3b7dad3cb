(** Model of the shapes that expressions announce: shape() of unary_operator and binary_operator (include/operation.hpp:98-102,
    211-220), the output shape calculators given to them all over operation.hpp, place_holder::shape (place_holder.hpp:33-49, 78-84),
    value::shape (value.hpp:46-49).  Layers are sized with these announced shapes (layer.hpp:113, 240, 297), before any data are there.

    Announced extents are unsigned long: numbers below 2^64 on which arithmetic wraps around; -1UL stands for an unknown extent.

    Simplifications: an axis of -1 is None; other negative axes (iterators before the begin of a vector) are not considered.  Operators
    are given by what matters for shapes: [Map] stands for all element-wise operators and activations of one operand (OpModel.v), which
    pass no calculator and so get the identity calculator; drop_out and the normalisation, likewise with the identity
    calculator, are left out. *)
From Coq Require Import List Arith Bool PeanoNat NArith ZArith Reals.
From Verif Require Import ListBase TensorModel ArrayModel LayerModel GraphModel OpModel LossModel ArgModel BcastOpModel ConcatModel.
Import ListNotations.
Local Open Scope N_scope.

(** ** unsigned long *)
Definition word : N := 18446744073709551616.                          (* 2^64 *)
Definition wrap (n : N) : N := n mod word.
Definition wsub (a b : N) : N := wrap (a + (word - wrap b)).
Definition unknown : N := word - 1.                                   (* -1UL *)
Definition wprod (s : list N) : N := fold_left (fun a b => wrap (a * b)) s 1.

(** std::accumulate( ..., 1, ... ): the sum type is that of the literal 1, int.  Each product, an unsigned long, is cut to 32 bits on
    assignment, and a negative int becomes a large unsigned long in the next product and in the end. *)
Definition int_word : N := 4294967296.                                (* 2^32 *)
Definition to_int (n : N) : N := let m := n mod int_word in if m <? 2147483648 then m else word - (int_word - m).
Definition iprod (s : list N) : N := fold_left (fun a b => to_int (wrap (a * b))) s 1.

(** ** Operators *)

Inductive reduction := RMin | RMax | RSum.

Inductive op1 :=
| Map (f : R -> R)                                  (* element-wise *)
| Softmax                                           (* activation.hpp:90-117 *)
| Flip (axis : Z)                                   (* operation.hpp:1432-1466 *)
| SumAll | MeanAll                                  (* 922-981 *)
| Reshape (new_shape : list nat) (batch : bool)     (* 1115-1185 *)
| Flatten                                           (* 1195-1219 *)
| ExpandDims (axis : option nat)                    (* 1231-1272 *)
| Squeeze (axis : option nat)                       (* 1274-1318 *)
| Argmax (axis : nat)                               (* 1329-1401 *)
| Transpose                                         (* 1471-1523 *)
| Img2col (a : conv_args)                           (* 1525-1658 *)
| MaxPool (stride : nat) | AvgPool (stride : nat)   (* 2046-2140 *)
| UpSample (stride : nat)                           (* 2210-2235 *)
| Pad (top bottom left right : nat)                 (* 2824-2862 *)
| Crop (top bottom left right : nat)                (* 2949-2992 *)
| Repeat (repeats : nat) (axis : option nat)        (* 3185-3210 *)
| Reduce (r : reduction) (axis : option nat)        (* 3319-3345, 3454-3480, 3571-3596 *)
| Spread (rk ck rs cs : nat) (valid : bool)         (* 1765-1842 *)
| Broadcast (new_shape : list nat).                 (* 464-517 *)

Inductive op2 :=
| Plus                                              (* 561-571 *)
| Product                                           (* 847-871 *)
| Matmul                                            (* 630-657 *)
| Concat (axis : option nat)                        (* 2392-2451 *)
| Maximum | Minimum | Atan2                         (* 2477-2584 *)
| CrossEntropy (smooth : R).                        (* loss.hpp:129-133 *)

(** ** Calculators *)

(** std::copy( begin+axis+1, end, begin+axis ), then one extent less *)
Definition drop_axis (axis : nat) (s : list N) : list N := firstn axis s ++ skipn (S axis) s.

(** the calculator of img2col, 1644-1654, one direction; division by a zero stride is undefined *)
Definition col_extent (n : N) (pad kernel stride dilation : nat) : outcome N :=
  if (stride =? 0)%nat then UB
  else Ok (wrap (wsub (wrap (n + 2 * N.of_nat pad)) (wrap (wrap (N.of_nat dilation * wsub (N.of_nat kernel) 1) + 1)) / N.of_nat stride + 1)).

(** what to do with the four extents; an index outside the vector is undefined, further extents are not looked at *)
Definition four (s : list N) (k : N -> N -> N -> N -> outcome (list N)) : outcome (list N) :=
  match s with a :: b :: c :: d :: _ => k a b c d | _ => UB end.

Definition calc1 (dbg : bool) (o : op1) (s : list N) : outcome (list N) :=
  match o with
  | Map _ | Softmax | Flip _ => Ok s                                               (* 28-33 *)
  | SumAll | MeanAll => Ok [1]                                                     (* 938, 979 *)
  | Reshape new_shape false => Ok (map N.of_nat new_shape)                         (* 1157-1158 *)
  | Reshape new_shape true =>                                                      (* 1160-1169 *)
      let n := wprod (map N.of_nat new_shape) in
      if n =? 0 then UB else Ok (wprod s / n :: map N.of_nat new_shape)
  | Flatten => match s with [] => UB | b :: t => Ok [b; iprod t] end               (* 1213-1217 *)
  | ExpandDims axis =>                                                             (* 1253-1261 *)
      let ax := match axis with Some a => a | None => length s end in
      if (length s <? ax)%nat then UB else Ok (firstn ax s ++ 1 :: skipn ax s)
  | Squeeze None =>                                                                (* 1292-1299 *)
      match filter (fun n => negb (n =? 1)) s with [] => Ok [1] | t => Ok t end
  | Squeeze (Some axis) | Argmax axis =>                                           (* 1301-1304, 1382-1388 *)
      if (length s <=? axis)%nat then UB else Ok (drop_axis axis s)
  | Transpose =>                                                                   (* 1517-1521 *)
      check dbg (length s =? 2)%nat match s with r :: c :: _ => Ok [c; r] | _ => UB end
  | Img2col a =>                                                                   (* 1644-1655 *)
      check dbg (length s =? 4)%nat (four s (fun bs r c ch =>
        obind (col_extent r (prow a) (krow a) (srow a) (drow a)) (fun orow =>
        obind (col_extent c (pcol a) (kcol a) (scol a) (dcol a)) (fun ocol =>
        Ok [wrap (wrap (N.of_nat (krow a) * N.of_nat (kcol a)) * ch); wrap (wrap (bs * orow) * ocol)]))))
  | MaxPool n | AvgPool n =>                                                       (* 2062-2066, 2132-2136 *)
      check dbg (length s =? 4)%nat (four s (fun bs r c ch =>
        if (n =? 0)%nat then UB else Ok [bs; r / N.of_nat n; c / N.of_nat n; ch]))
  | UpSample n =>                                                                  (* 2226-2230 *)
      check dbg (length s =? 4)%nat (four s (fun bs r c ch => Ok [bs; wrap (r * N.of_nat n); wrap (c * N.of_nat n); ch]))
  | Pad t b l r =>                                                                 (* 2858 *)
      four s (fun bs row col ch => Ok [bs; wrap (wrap (row + N.of_nat t) + N.of_nat b); wrap (wrap (col + N.of_nat l) + N.of_nat r); ch])
  | Crop t b l r =>                                                                (* 2983-2986 *)
      four s (fun bs row col ch => Ok [bs; wsub (wsub row (N.of_nat t)) (N.of_nat b); wsub (wsub col (N.of_nat l)) (N.of_nat r); ch])
  | Repeat n axis =>                                                               (* 3199-3205; the last axis of no axes does not exist *)
      match s with
      | [] => UB
      | _ => let ax := match axis with Some a => Nat.min a (length s - 1) | None => (length s - 1)%nat end in
             Ok (upd s ax (wrap (nth ax s 0 * N.of_nat n)))
      end
  | Reduce _ (Some axis) =>                                                        (* 3332-3339, 3467-3474, 3583-3590 *)
      if (length s <=? axis)%nat then UB else Ok (drop_axis axis s)
  | Reduce _ None =>
      (* axis = -1UL: begin()+axis+1 is begin(), so ALL extents are copied to the last position and behind it; with one extent the copy
         stays inside, without any extent resize( -1UL ) throws inside a noexcept function *)
      match s with [] => Abort | [_] => Ok [] | _ => UB end
  | Spread rk ck rs cs valid =>                                                    (* 1775-1786; the other extents stay *)
      match s with
      | a :: r :: c :: t =>
          let r1 := wrap (r * N.of_nat rs) in
          let c1 := wrap (c * N.of_nat cs) in
          Ok (a :: (if valid then wrap (r1 + wsub (wrap (N.of_nat rk * 2)) 2) else r1)
                :: (if valid then wrap (c1 + wsub (wrap (N.of_nat ck * 2)) 2) else c1) :: t)
      | _ => UB
      end
  | Broadcast new_shape => Ok (map N.of_nat new_shape)                             (* 515 *)
  end.

(** tensor.tcc:385-423 broadcast_shape on announced extents: the same loop as TensorModel.broadcast_shape, an unknown extent being
    2^64-1 like any other number *)
Definition dim_from_right (s : list N) (idx : nat) : N := if (idx <? length s)%nat then nth (length s - 1 - idx) s 0 else 1.
Definition join_dim (dbg : bool) (a b : N) : outcome N :=
  if a =? 1 then Ok b else if b =? 1 then Ok a else if a =? b then Ok a else if dbg then Abort else Ok a.
Fixpoint join_dims (dbg : bool) (a b : list N) (idxs : list nat) : outcome (list N) :=
  match idxs with
  | [] => Ok []
  | i :: t => obind (join_dim dbg (dim_from_right a i) (dim_from_right b i)) (fun d => obind (join_dims dbg a b t) (fun r => Ok (d :: r)))
  end.
Fixpoint same_dims (a b : list N) : bool :=
  match a, b with [], [] => true | x :: a, y :: b => (x =? y) && same_dims a b | _, _ => false end.
Definition join_shape (dbg : bool) (a b : list N) : outcome (list N) :=
  if same_dims a b then Ok a
  else obind (join_dims dbg a b (seq 0 (Nat.max (length a) (length b)))) (fun r => Ok (rev r)).

Definition calc2 (dbg : bool) (o : op2) (l r : list N) : outcome (list N) :=
  match o with
  | Plus => join_shape dbg l r                                                     (* 564-567 *)
  | Product | Maximum | Minimum | Atan2 | CrossEntropy _ =>                        (* 35-38 *)
      Ok (if (length r <? length l)%nat then l else r)
  | Matmul =>                                                                      (* 640-646 *)
      check dbg (length l =? 2)%nat (check dbg (length r =? 2)%nat
        match l, r with
        | a :: b :: _, c :: d :: _ => check dbg (b =? c) (Ok [a; d])
        | _, _ => UB
        end)
  | Concat axis =>                                                                 (* 2436-2444 *)
      check dbg (length l =? length r)%nat
        (let ax := match axis with None => (length l - 1)%nat | Some a => if (length l <? a)%nat then (length l - 1)%nat else a end in
         if ((ax <? length l) && (ax <? length r))%nat then Ok (upd l ax (wrap (nth ax l 0 + nth ax r 0))) else UB)
  end.

(** ** Expressions *)

Inductive ex :=
| Leaf (n : nat)              (* a variable, a constant or a place holder *)
| Value (c : R)               (* value.hpp, only as one operand of a binary operator *)
| Un (o : op1) (e : ex)
| Bin (o : op2) (l r : ex).

(** operation.hpp:98-102, 211-220 and value.hpp:46-49; [leaf] gives what the leaves announce *)
Fixpoint announced (dbg : bool) (leaf : nat -> list N) (e : ex) : outcome (list N) :=
  match e with
  | Leaf n => Ok (leaf n)
  | Value _ => Ok [unknown]
  | Un o e => obind (announced dbg leaf e) (calc1 dbg o)
  | Bin o (Value _) r => announced dbg leaf r
  | Bin o l (Value _) => announced dbg leaf l
  | Bin o l r => obind (announced dbg leaf l) (fun a => obind (announced dbg leaf r) (calc2 dbg o a))
  end.

(** a variable and a constant announce the shape of their data (variable.hpp:114-118, constant.hpp:38-41), and so does a place holder
    with data (place_holder.hpp:80-81) *)
Definition extents (x : arr R) : list N := map N.of_nat (ashape x).

(** place_holder.hpp:33-49: a place holder without data announces a hint; the constructor puts a batch of one in front of a hint that does
    not begin with an unknown extent; hint[0] of an empty hint is undefined *)
Definition hint (given : list N) : outcome (list N) :=
  match given with
  | [] => UB
  | d :: _ => Ok (if d =? unknown then given else 1 :: given)
  end.

(** ** Forward *)

(** what the forward action of an operator makes of its operands: the models of the other files.  Buffers from earlier runs may have any
    contents. *)
Definition unew (o : uop R) (x y : arr R) : Prop :=
  match o with UNew _ f _ _ => f (ashape x, adata x) = Some (ashape y, adata y) | UView _ => False end.
Definition bnew (o : bop R) (x y z : arr R) : Prop :=
  match o with BNew _ f _ _ => f (ashape x, adata x) (ashape y, adata y) = Some (ashape z, adata z) | BPlus => False end.

Definition rlt (a b : R) : bool := if Rlt_dec a b then true else false.

Definition forward1 (dbg : bool) (o : op1) (x y : arr R) : Prop :=
  match o with
  | Map f => y = Arr (ashape x) (map f (adata x))
  | Softmax => exists eps, softmax dbg eps x = Ok y
  | Flip axis => exists src, flip 0%R dbg x axis = Ok (src, y)
  | SumAll => unew op_sum_reduce x y
  | MeanAll => unew op_mean_reduce x y
  | Reshape s b => reshape_op 0%R dbg s b x = Ok y
  | Flatten => flatten_op 0%R dbg x = Ok y
  | ExpandDims a => expand_dims_op 0%R a x = Ok y
  | Squeeze a => squeeze_op 0%R dbg a x = Ok y
  | Argmax a => argmax_fwd 0%R rlt INR dbg a x = Ok y
  | Transpose => exists cache cache', transpose_op 0%R dbg cache x = Ok (cache', y)
  | Img2col a => exists t t', img2col_fwd 0%R dbg a t x = Ok (t', y)
  | MaxPool n => exists st st', max_fwd 0%R 1%R dbg rlt n st x = Ok (st', y)
  | AvgPool n => avg_fwd 0%R dbg Rplus Rmult (/ (INR n * INR n))%R n x = Ok y
  | UpSample n => up_fwd 0%R dbg n x = Ok y
  | Pad t b l r => exists cache cache', pad_fwd 0%R dbg t b l r cache x = Ok (cache', y)
  | Crop t b l r => exists cache cache', crop_fwd 0%R dbg t b l r cache x = Ok (cache', y)
  | Repeat n a => exists cache cache', repeat_fwd 0%R n a cache x = Ok (cache', y)
  | Reduce k a =>                                             (* an axis of -1UL is clamped to the last one *)
      let ax := match a with Some a => a | None => length (ashape x) end in
      unew (match k with RSum => op_reduce_sum ax | RMax => op_reduce_max ax | RMin => op_reduce_min ax end) x y
  | Spread rk ck rs cs v => spread_fwd 0%R dbg rk ck rs cs v x = Ok y
  | Broadcast s => exists cache cache', bc_fwd 0%R dbg s cache x = Ok (cache', y)
  end.

Definition forward2 (dbg : bool) (o : op2) (x y z : arr R) : Prop :=
  match o with
  | Plus =>                                                   (* the operands anywhere in a heap *)
      exists h tx ty t h', shape tx = ashape x /\ shape ty = ashape y /\
        nth_error h (ref tx) = Some (adata x) /\ nth_error h (ref ty) = Some (adata y) /\
        zip_broadcast 0%R dbg Rplus tx ty h = Ok (t, h') /\ shape t = ashape z /\ nth_error h' (ref t) = Some (adata z)
  | Product => bnew (op_product dbg) x y z
  | Matmul => bnew op_matmul x y z
  | Concat a => concatenate 0%R dbg x y a = Ok z
  | Maximum => bnew op_maximum x y z
  | Minimum => bnew op_minimum x y z
  | Atan2 => bnew op_atan2 x y z
  | CrossEntropy s => exists eps, bnew (op_cross_entropy dbg eps s) x y z
  end.

(** operation.hpp:75-87, 168-195: the operands first; a value becomes a tensor of the other operand's shape (value.hpp:38-44) *)
Definition value_like (c : R) (x : arr R) : arr R := Arr (ashape x) (repeat c (prod (ashape x))).

Inductive evaluates (dbg : bool) (leaf : nat -> arr R) : ex -> arr R -> Prop :=
| ev_leaf n : evaluates dbg leaf (Leaf n) (leaf n)
| ev_un o e x y : evaluates dbg leaf e x -> forward1 dbg o x y -> evaluates dbg leaf (Un o e) y
| ev_bin o l r x y z : evaluates dbg leaf l x -> evaluates dbg leaf r y -> forward2 dbg o x y z -> evaluates dbg leaf (Bin o l r) z
| ev_left o c r y z : evaluates dbg leaf r y -> forward2 dbg o (value_like c y) y z -> evaluates dbg leaf (Bin o (Value c) r) z
| ev_right o c l x z : evaluates dbg leaf l x -> forward2 dbg o x (value_like c x) z -> evaluates dbg leaf (Bin o l (Value c)) z.
