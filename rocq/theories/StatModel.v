(** Model of the statistics of include/tensor.tcc: mean, variance and standard_deviation along an axis, and mean, var, std and
    norm of a whole tensor, and linspace.  The element type is the real numbers (no rounding), as in the other numeric files;
    std::sqrt is the real square root. *)
From Coq Require Import List Arith Lia Bool PeanoNat Reals.
From Verif Require Import ListBase TensorModel ArrayModel.
Import ListNotations.
Local Open Scope nat_scope.

Section Stat.
Variable dbg : bool.

Notation "'do' x <- m ; f" := (bind m (fun x => f)) (at level 200, x name, m at level 100, f at level 200).

(** tensor.tcc:1108-1140 reduce on the heap: an empty tensor is returned as it is (the copy shares the storage), anything
    else is written into a new tensor *)
Definition reduce_t (t : tensor) (axis : option nat) (init : R) (f : R -> R -> R) (keepdims : bool) : M tensor :=
  do d <- data t;
  match d with
  | [] => ret t
  | _ => do r <- lift (reduce 0%R dbg (Arr (shape t) d) axis init f keepdims); alloc (ashape r) (adata r)
  end.

(** tensor.tcc:1148-1155 mean along an axis: the sum divided by the extent (operator / of tensor.tcc:656-662: deep copy, then
    in place).  Reading _shape[axis] past the end is undefined. *)
Definition mean_t (t : tensor) (axis : option nat) (keepdims : bool) : M tensor :=
  let ax := pick_axis axis (length (shape t)) in
  do r <- reduce_t t axis 0%R Rplus keepdims;
  if length (shape t) <=? ax then fail_ub
  else scalar_op 0%R (fun v => v / INR (nth ax (shape t) 0%nat))%R r.

(** tensor.tcc:1157-1164 variance: x = mean( ts, axis, true ); x = x - ts; squared in place; mean( x, axis, keepdims ) *)
Definition variance (t : tensor) (axis : option nat) (keepdims : bool) : M tensor :=
  do x <- mean_t t axis true;
  do x' <- zip_broadcast 0%R dbg Rminus x t;
  do _ <- map_inplace (fun v => v * v)%R x';
  mean_t x' axis keepdims.

(** tensor.tcc:1166-1172 standard_deviation: the variance, square roots taken in place *)
Definition standard_deviation (t : tensor) (axis : option nat) (keepdims : bool) : M tensor :=
  do x <- variance t axis keepdims;
  do _ <- map_inplace sqrt x;
  ret x.

(** tensor.tcc:1046-1052 mean of all elements, with sum of tensor.tcc:1038-1044 (std::accumulate from the left); an empty
    tensor fails the assertion, and gives 0 in a release build *)
Definition mean_all (t : tensor) : M R :=
  do d <- data t;
  do _ <- better_assert dbg (negb (length d =? 0));
  if length d =? 0 then ret 0%R
  else ret (fold_left Rplus d 0 / INR (length d))%R.

(** tensor.tcc:1174-1179 var: ts - mean( ts ) (deep copy, then in place), then std::inner_product of the copy with itself *)
Definition var (t : tensor) : M R :=
  do m <- mean_all t;
  do x <- scalar_op 0%R (fun v => v - m)%R t;
  do d <- data x;
  ret (fold_left (fun acc v => acc + v * v)%R d 0%R).

(** tensor.tcc:1181-1185 std *)
Definition std (t : tensor) : M R := do v <- var t; ret (sqrt v).

(** tensor.tcc:1054-1060 norm: the root of the sum of squares, divided by the number of elements.  In a release build an empty
    tensor gives 0/0, a NaN; the reals have none, so that case is left out (modelled as undefined). *)
Definition norm (t : tensor) : M R :=
  do d <- data t;
  do _ <- better_assert dbg (negb (length d =? 0));
  if length d =? 0 then fail_ub
  else ret (sqrt (fold_left (fun x y => x + y * y)%R d 0%R) / INR (length d))%R.

(** tensor.tcc:1199-1212 linspace.  num = 1 with the end point divides by zero in a release build (not a real number; modelled
    as undefined); num = 0 wraps around to a huge number of segments and gives an empty tensor. *)
Definition linspace (start stop : R) (num : nat) (endpoint : bool) : M tensor :=
  do _ <- better_assert dbg (1 <? num);
  if num =? 0 then alloc [0] []
  else
    let segs := if endpoint then num - 1 else num in
    if segs =? 0 then fail_ub
    else let distance := ((stop - start) / INR segs)%R in
         alloc [num] (tab num (fun idx => start + distance * INR idx)%R).

End Stat.
