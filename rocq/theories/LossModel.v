(** Model of the losses (include/loss.hpp): expressions built from the operators of OpModel.v.  Like the functions of ComplexModel.v the
    functions below number the operators they build from n upwards.  The wrappers of loss.hpp:158-262 (MeanSquaredError, Hinge, ...) call
    these functions with the ground truth's place holder as first and the model's output as second argument.

    Simplifications: operands are expressions, not values (value.hpp); numbers are real numbers; the assertions on NaN are left out. *)
From Coq Require Import Reals List Arith Bool.
From Verif Require Import ListBase TensorModel ArrayModel GraphModel OpModel ComplexModel.
Import ListNotations.
Local Open Scope R_scope.

(** ones_like: operation.hpp:2632-2640 *)
Definition op_ones_like : uop R :=
  UNew false (fun i => Some (fst i, repeat 1 (prod (fst i)))) IntoNew (fun _ _ g => Some (fst g, repeat 0 (prod (fst g)))).

(** loss.hpp:17-21 *)
Definition squared_loss (n : nat) (l r : expr R) : expr R := EUn (3 + n) op_sum_reduce (EUn (2 + n) op_square (e_minus n l r)).
(** loss.hpp:23-33 *)
Definition mean_squared_error (n : nat) (l r : expr R) : expr R := EUn (3 + n) op_mean_reduce (EUn (2 + n) op_square (e_minus n l r)).
(** loss.hpp:35-39 *)
Definition abs_loss (n : nat) (l r : expr R) : expr R := EUn (3 + n) op_sum_reduce (EUn (2 + n) op_abs (e_minus n l r)).
(** loss.hpp:41-51 *)
Definition mean_absolute_error (n : nat) (l r : expr R) : expr R := EUn (3 + n) op_mean_reduce (EUn (2 + n) op_abs (e_minus n l r)).

(** loss.hpp:11-15; top is std::numeric_limits<Float>::max(), the upper bound clip takes by default (operation.hpp:1080) *)
Definition mean_squared_logarithmic_error (eps top : R) (n : nat) (l r : expr R) : expr R :=
  EUn (9 + n) op_sum_reduce (EUn (8 + n) op_square (e_minus (6 + n)
    (EUn (2 + n) op_log (EBin (1 + n) BPlus (EVal 1) (EUn n (op_clip eps top) l)))
    (EUn (5 + n) op_log (EBin (4 + n) BPlus (EVal 1) (EUn (3 + n) (op_clip eps top) r))))).

Section Loss.
Variable dbg : bool.   (* debug build *)

(** loss.hpp:53-57 *)
Definition cross_entropy (n : nat) (l r : expr R) : expr R :=
  EUn (3 + n) op_negative (EUn (2 + n) op_sum_reduce (EBin (1 + n) (op_product dbg) l (EUn n op_log r))).

(** loss.hpp:119-125: the operator ones occurs twice *)
Definition binary_cross_entropy_loss (n : nat) (ground_truth prediction : expr R) : expr R :=
  let ones := EUn n op_ones_like ground_truth in
  EUn (11 + n) op_mean_reduce (EUn (10 + n) op_negative (EBin (9 + n) BPlus
    (EBin (2 + n) (op_product dbg) ground_truth (EUn (1 + n) op_log prediction))
    (EBin (8 + n) (op_product dbg) (e_minus (3 + n) ones ground_truth) (EUn (7 + n) op_log (e_minus (5 + n) ones prediction))))).

(** loss.hpp:135-139; a value as the left operand of minus takes the second branch of operation.hpp:1001-1011 *)
Definition hinge_loss (n : nat) (l r : expr R) : expr R :=
  EUn (4 + n) op_mean_reduce (EBin (3 + n) op_maximum (EVal 0) (e_minus (1 + n) (EVal 1) (EBin n (op_product dbg) l r))).

(** ** cross_entropy_loss *)
Variable eps : R.      (* config.hpp: 1e-8 *)

(** softmax of a tensor (tensor.tcc:1070-1087) as a value *)
Definition softmax_of (i : val R) : option (val R) :=
  match softmax dbg eps (Arr (fst i) (snd i)) with Ok a => Some (ashape a, adata a) | _ => None end.

(** *shape.rbegin() *)
Definition last_dim (s : list nat) : nat := last s 0%nat.

(** loss.hpp:72-73, 77 and 96-97, 107: the smoothed label of an element; n-1 = 0 divides by zero *)
Definition label (smooth : R) (n : nat) (g : R) : R := if above g eps then 1 - smooth else smooth / INR (n - 1).

(** loss.hpp:66-83; reading past the end of sm, or the first dimension of an empty shape, has no result *)
Definition xent_forward (smooth : R) (gt pred : val R) : option (val R) :=
  match softmax_of pred, fst gt with
  | Some sm, d0 :: _ =>
      if (length (snd sm) <? length (snd gt))%nat then None else
      let n := last_dim (fst gt) in
      let ans := fold_left (fun ans p => ans - label smooth n (fst p) * ln (Rmax eps (snd p))) (combine (snd gt) (snd sm)) 0 in
      Some ([1%nat], [ans / INR d0])
  | _, _ => None
  end.

(** loss.hpp:89-112; elements of sm beyond the ground truth's stay as they are *)
Definition xent_backward (smooth : R) (gt pred _ g : val R) : option (val R * val R) :=
  match softmax_of pred, snd g, fst gt with
  | Some sm, factor :: _, _ :: _ =>
      if (length (snd sm) <? length (snd gt))%nat then None else
      let n := last_dim (fst gt) in
      Some ((fst gt, map (fun x => x * factor) (snd gt)),
            (fst sm, map2 (fun x p => factor * (p - label smooth n x)) (snd gt) (snd sm) ++ skipn (length (snd gt)) (snd sm)))
  | _, _, _ => None
  end.

(** loss.hpp:128-133: an operator without buffers *)
Definition op_cross_entropy (smooth : R) : bop R := BNew false (xent_forward smooth) false (xent_backward smooth).
Definition cross_entropy_loss (smooth : R) (n : nat) (l r : expr R) : expr R := EBin n (op_cross_entropy smooth) l r.

End Loss.
