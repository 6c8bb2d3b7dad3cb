(** Model of the operators' actions over the real numbers: the element-wise operators of include/operation.hpp and
    include/activation.hpp, the two-operand operators and the reductions, as actions for the graph of GraphModel.v.

    Simplifications: numbers are real numbers; std::exp, std::log, ... are the mathematical functions; literals that are
    decimal expansions of ln 2, ln 10, 2/sqrt(pi) stand for those numbers; assertions on NaN and infinity are left out.
    A loop that would run past the end of a tensor has no result. *)
From Coq Require Import List Arith Bool PeanoNat Reals ZArith.
From Coquelicot Require Import Rcomplements Hierarchy RInt.
From Verif Require Import ListBase TensorModel ArrayModel GraphModel.
Import ListNotations.
Local Open Scope R_scope.

(** ** Shapes of actions *)

(** a loop that writes f of every input element *)
Definition ew (f : R -> R) (i : val R) : option (val R) := Some (fst i, map f (snd i)).

(** ans.resize( input.shape() ), then a loop over input and grad *)
Definition back_in (h : R -> R -> R) (i _ g : val R) : option (val R) :=
  if (length (snd i) =? length (snd g))%nat then Some (fst i, map2 h (snd i) (snd g)) else None.

(** the same over output and grad *)
Definition back_out (h : R -> R -> R) (i y g : val R) : option (val R) :=
  if (length (snd i) =? length (snd g))%nat && (length (snd y) =? length (snd g))%nat then Some (fst i, map2 h (snd y) (snd g)) else None.

(** Tsor ans = grad, which shares grad's elements, then a loop over ans and input (or output) *)
Definition back_grad (h : R -> R -> R) (i _ g : val R) : option (val R) :=
  if (length (snd i) =? length (snd g))%nat then Some (fst g, map2 h (snd i) (snd g)) else None.
Definition back_grad_out (h : R -> R -> R) (_ y g : val R) : option (val R) :=
  if (length (snd y) =? length (snd g))%nat then Some (fst g, map2 h (snd y) (snd g)) else None.

(** own buffers for the result and for the gradient; the gradient from input and grad (from output and grad) *)
Definition op_in (f : R -> R) (h : R -> R -> R) : uop R := UNew true (ew f) IntoOwn (back_in h).
Definition op_out (f : R -> R) (h : R -> R -> R) : uop R := UNew true (ew f) IntoOwn (back_out h).
(** own buffer for the result; the gradient overwrites grad *)
Definition op_grad (f : R -> R) (h : R -> R -> R) : uop R := UNew true (ew f) IntoGrad (back_grad h).
(** own buffer for the result; the backward action returns grad *)
Definition op_pass (f : R -> R) : uop R := UNew true (ew f) IntoGrad (fun _ _ g => Some g).

(** ** Functions that the standard library of Coq lacks *)
Definition above (a b : R) : bool := if Rlt_dec b a then true else false.           (* a > b *)
Definition acoshR (x : R) : R := ln (x + sqrt (x * x - 1)).
Definition atanhR (x : R) : R := / 2 * ln ((1 + x) / (1 - x)).
Definition cbrtR (x : R) : R := if above x 0 then Rpower x (/ 3) else if above 0 x then - Rpower (- x) (/ 3) else 0.
Definition erfR (x : R) : R := 2 / sqrt PI * RInt (fun t => exp (- (t * t))) 0 x.
Definition floorR (x : R) : R := IZR (Int_part x).
Definition ceilR (x : R) : R := - floorR (- x).
Definition truncR (x : R) : R := if above 0 x then ceilR x else floorR x.
(** std::round and llround, lround: halves away from zero *)
Definition roundR (x : R) : R := if above 0 x then - floorR (- x + / 2) else floorR (x + / 2).

(** ** Element-wise operators of operation.hpp *)
Definition op_abs := op_in Rabs (fun x g => g * (if above x 0 then 1 else if above 0 x then -1 else 0)).          (* 3610-3632 *)
Definition op_acos := op_in acos (fun x g => - g / sqrt (1 - x * x)).                                             (* 3647-3669 *)
Definition op_acosh := op_in acoshR (fun x g => g / sqrt (x * x - 1)).                                            (* 3684-3706 *)
Definition op_asin := op_in asin (fun x g => g / sqrt (1 - x * x)).                                               (* 3721-3743 *)
Definition op_asinh := op_in arcsinh (fun x g => g / sqrt (1 + x * x)).                                           (* 3758-3780 *)
Definition op_atan := op_in atan (fun x g => g / (1 + x * x)).                                                    (* 3795-3817 *)
Definition op_atanh := op_in atanhR (fun x g => g / (1 - x * x)).                                                 (* 3832-3854 *)
Definition op_cbrt := op_out cbrtR (fun o g => g / (3 * o * o)).                                                  (* 3869-3891 *)
Definition op_ceil := op_pass ceilR.                                                                              (* 3906-3925 *)
Definition op_cos := op_in cos (fun x g => - g * sin x).                                                          (* 3940-3962 *)
Definition op_cosh := op_in cosh (fun x g => g * sinh x).                                                         (* 3977-3999 *)
Definition op_erf := op_in erfR (fun x g => 2 / sqrt PI * g * exp (- x * x)).                                     (* 4014-4036 *)
Definition op_erfc := op_in (fun x => 1 - erfR x) (fun x g => - (2 / sqrt PI) * g * exp (- x * x)).               (* 4051-4074 *)
Definition op_exp := op_out exp (fun o g => g * o).                                                               (* 4089-4111 *)
Definition op_exp2 := op_out (fun x => Rpower 2 x) (fun o g => ln 2 * g * o).                                     (* 4126-4148 *)
Definition op_expm1 := op_out (fun x => exp x - 1) (fun o g => g * (o + 1)).                                      (* 4163-4185 *)
Definition op_floor := op_pass floorR.                                                                            (* 4220-4238 *)
Definition op_llround := op_pass roundR.                                                                          (* 4290-4308, likewise lround 4502, round 4601 *)
Definition op_log := op_in ln (fun x g => g / x).                                                                 (* 4323-4345 *)
Definition op_log10 := op_in (fun x => ln x / ln 10) (fun x g => g / (ln 10 * x)).                                (* 4360-4382 *)
Definition op_log1p := op_in (fun x => ln (1 + x)) (fun x g => g / x).                                            (* 4397-4419 *)
Definition op_log2 := op_in (fun x => ln x / ln 2) (fun x g => g / (ln 2 * x)).                                   (* 4434-4456 *)
Definition op_sin := op_in sin (fun x g => g * cos x).                                                            (* 4634-4656 *)
Definition op_sinh := op_in sinh (fun x g => g * cosh x).                                                         (* 4671-4693 *)
Definition op_sqrt := op_out sqrt (fun o g => g / (o + o)).                                                       (* 4708-4730 *)
Definition op_tan := op_out tan (fun o g => g * (1 + o * o)).                                                     (* 4745-4767 *)
Definition op_tanh := op_out tanh (fun o g => g * (1 - o * o)).                                                   (* 4782-4804 *)
Definition op_trunc := op_pass truncR.                                                                            (* 4815-4833 *)
Definition op_pow (a : R) := op_in (fun x => Rpower x a) (fun x g => a * g * Rpower x (a - 1)).                   (* 4904-4932 *)

(** negative: operation.hpp:673-687, new tensors *)
Definition op_negative : uop R := UNew false (ew Ropp) IntoNew (fun _ _ g => Some (fst g, map Ropp (snd g))).
(** ex + a: operation.hpp:690-722; the backward action returns grad *)
Definition op_shift (a : R) : uop R := op_pass (fun x => x + a).
(** ex * a: operation.hpp:742-777; the gradient gets grad's shape *)
Definition op_scale (a : R) : uop R := UNew true (ew (fun x => x * a)) IntoOwn (fun _ _ g => Some (fst g, map (fun x => x * a) (snd g))).
(** inverse: operation.hpp:812-834 *)
Definition op_inverse (eps : R) : uop R :=
  op_in (fun x => if above x 0 then 1 / Rmax eps x else 1 / Rmin (- eps) x) (fun x g => - g / Rmax (x * x) eps).
(** square: operation.hpp:1036-1054, new tensors *)
Definition op_square : uop R := UNew false (ew (fun x => x * x)) IntoNew (back_in (fun x g => x * g * 2)).
(** clip: operation.hpp:1079-1108, tensor.tcc:781-786 *)
Definition op_clip (lower upper : R) : uop R :=
  UNew false (ew (fun x => Rmax lower (Rmin upper x))) IntoGrad
       (back_grad (fun x g => if above lower x then 0 else if above x upper then 0 else g)).
(** sign: operation.hpp:2716-2741 *)
Definition op_sign : uop R :=
  UNew true (ew (fun x => (if above x 0 then 1 else 0) - (if above 0 x then 1 else 0))) IntoOwn
       (fun i _ _ => Some (fst i, repeat 0 (length (snd i)))).

(** ** Activations: activation.hpp *)
Definition op_selu (lambda alpha : R) : uop R :=                                                                  (* 131-160 *)
  op_in (fun x => if above 0 x then lambda * alpha * (exp x - 1) else lambda * x)
        (fun x g => if above 0 x then g * lambda * alpha * exp x else g * lambda).
Definition op_softplus : uop R := op_in (fun x => ln (1 + exp x)) (fun x g => g / (1 - exp (- x))).               (* 177-200 *)
Definition op_softsign : uop R := op_in (fun x => x / (1 + Rabs x)) (fun x g => g / ((1 + Rabs x) * (1 + Rabs x))).  (* 214-237 *)
(** sigmoid: 250-273; its gradient buffer takes the output's shape *)
Definition op_sigmoid : uop R := op_out (fun x => 1 / (1 + exp (- x))) (fun o g => g * o * (1 - o)).
Definition op_relu : uop R := op_grad (fun x => Rmax x 0) (fun x g => g * (if above x 0 then 1 else 0)).          (* 278-332 *)
Definition op_relu6 : uop R :=                                                                                    (* 337-385 *)
  op_grad (fun x => Rmin 6 (Rmax x 0)) (fun x g => if above x 0 then if above 6 x then g else 0 else 0).
Definition op_leaky_relu (a : R) : uop R :=                                                                       (* 400-425 *)
  op_grad (fun x => Rmax x (a * x)) (fun x g => if above x 0 then g else a * g).
Definition op_elu (a : R) : uop R :=                                                                              (* 455-482 *)
  op_grad (fun x => if above x 0 then x else a * (exp x - 1)) (fun x g => if above 0 x then a * exp g else g).
Definition op_exponential : uop R :=                                                                              (* 493-516 *)
  UNew true (ew exp) IntoGrad (back_grad_out (fun o g => g * o)).
Definition op_hard_sigmoid : uop R :=                                                                             (* 529-553 *)
  op_grad (fun x => if above x 1 then 1 else if above (-1) x then 0 else (x + 1) / 2)
          (fun x g => if above x 1 || above (-1) x then 0 else g / 2).
(** gelu: 570-610; the loop of the backward action applies the derivative's formula to the elements of grad *)
Definition gelu_c : R := 79788456080286535588 / 100000000000000000000.
Definition gelu_f (x : R) : R := / 2 * x * (1 + tanh (gelu_c * x * (1 + 44715 / 1000000 * x * x))).
Definition sech2 (x : R) : R := 1 - tanh x * tanh x.
Definition gelu_d (x : R) : R :=
  / 2 * (1 + tanh (gelu_c * x * (1 + 44715 / 1000000 * (x * x)))) +
  gelu_c * x * sech2 (gelu_c * x * (1 + 44715 / 1000000 * (x * x)) * (1 + 134145 / 1000000 * (x * x))).
Definition op_gelu : uop R := UNew true (ew gelu_f) IntoGrad (fun _ _ g => Some (fst g, map gelu_d (snd g))).

(** softmax: activation.hpp:89-118; rows along the last axis, each shifted by its largest element; the loop of the backward
    action runs over a copy of grad that shares its elements *)
Definition softmax_val (i : val R) : option (val R) :=
  match rev (fst i) with
  | [] => None
  | n :: _ => if (length (snd i) =? 0)%nat then None
              else Some (fst i, flat_map (fun k => softmax_row 0 (slice (snd i) (k * n) n)) (seq 0 (length (snd i) / n)))
  end.
Definition op_softmax : uop R := UNew false softmax_val IntoGrad (back_grad_out (fun o g => g * (o * (1 - o)))).

(** ** Two operands *)

(** a loop over two tensors of one shape *)
Definition ew2 (f : R -> R -> R) (a b : val R) : option (val R) :=
  if list_eqb (fst a) (fst b) then Some (fst a, map2 f (snd a) (snd b)) else None.

Definition map3 (h : R -> R -> R -> R) (a b c : list R) : list R := map2 (fun p z => h (fst p) (snd p) z) (combine a b) c.

Definition back2 (hl hr : R -> R -> R -> R) (a b _ g : val R) : option (val R * val R) :=
  if (length (snd a) =? length (snd g))%nat && (length (snd b) =? length (snd g))%nat
  then Some ((fst a, map3 hl (snd a) (snd b) (snd g)), (fst b, map3 hr (snd a) (snd b) (snd g))) else None.

Definition op2 (f : R -> R -> R) (hl hr : R -> R -> R -> R) : bop R := BNew true (ew2 f) true (back2 hl hr).

(** maximum: operation.hpp:2477-2513; the mask recorded by the forward pass is 1 where l > r *)
Definition op_maximum : bop R :=
  op2 (fun l r => if above l r then l else r)
      (fun l r g => if above l r then g else 0) (fun l r g => if above l r then 0 else g).
(** minimum: operation.hpp:2516-2552; the mask is 0 where l > r, and a mask below 0.5 sends the gradient to l *)
Definition op_minimum : bop R :=
  op2 (fun l r => if above l r then r else l)
      (fun l r g => if above l r then g else 0) (fun l r g => if above l r then 0 else g).
(** std::atan2( l, r ): the angle of the point with ordinate l and abscissa r *)
Definition atan2R (l r : R) : R :=
  if above r 0 then atan (l / r)
  else if above 0 r then (if above 0 l then atan (l / r) - PI else atan (l / r) + PI)
  else if above l 0 then PI / 2 else if above 0 l then - (PI / 2) else 0.
(** atan2: operation.hpp:2558-2584; x is the left input, y the right one *)
Definition op_atan2 : bop R :=
  op2 atan2R (fun x y g => - g * y / (x * x + y * y)) (fun x y g => g * x / (x * x + y * y)).

(** a tensor function on two values, each in a storage of its own *)
Definition pure2 (m : tensor -> tensor -> M (A:=R) tensor) (a b : val R) : option (val R) :=
  match m (mkT (fst a) 0) (mkT (fst b) 1) [snd a; snd b] with
  | Ok (t, h) => Some (val_of h t)
  | _ => None
  end.

Section WithDebug.
Variable dbg : bool.

Definition product_val : val R -> val R -> option (val R) := pure2 (elementwise_product 0 dbg Rmult).

(** elementwise_product: operation.hpp:847-871, new tensors; each gradient is grad times the other input, summed over the
    axes along which the input was repeated *)
Definition op_product : bop R :=
  BNew false product_val false
    (fun a b _ g =>
       match product_val g b, product_val g a with
       | Some ga, Some gb =>
           match unbroadcast 0 Rplus dbg (fst a) ga, unbroadcast 0 Rplus dbg (fst b) gb with
           | Some ga, Some gb => Some (ga, gb)
           | _, _ => None
           end
       | _, _ => None
       end).

(** gemm into a buffer of m*k elements (lines 610-623): the buffer is resized first, its old elements are overwritten *)
Definition gemm_val (a : list R) (ta : bool) (b : list R) (tb : bool) (m n k : nat) : option (list R) :=
  gemm_cpu 0 Rplus Rmult a ta b tb m n k (repeat 0 (m * k)%nat).

(** operator * on two expressions: operation.hpp:586-657; only two-dimensional operands (the assertions of 591-595) *)
Definition op_matmul : bop R :=
  BNew true
    (fun a b => match fst a, fst b with [_; _], [_; _] => pure2 (multiply 0 true Rplus Rmult) a b | _, _ => None end)
    true
    (fun a b _ g =>
       match fst g, fst a with
       | m :: n :: _, [_; k] =>
           match gemm_val (snd g) false (snd b) true m n k, gemm_val (snd a) true (snd g) false k m n with
           | Some ga, Some gb => Some ((fst a, ga), (fst b, gb))
           | _, _ => None
           end
       | _, _ => None
       end).

(** ** Layer operators *)

(** an operator of LayerModel.v, whose actions are functions on arrays, as a node of the graph: the backward
    action gets input and grad *)
Definition op_layer (own : bool) (m : bmode) (fwd : arr R -> outcome (arr R)) (bwd : arr R -> arr R -> outcome (arr R)) : uop R :=
  UNew own
    (fun i => match fwd (Arr (fst i) (snd i)) with Ok y => Some (ashape y, adata y) | _ => None end) m
    (fun i _ g => match bwd (Arr (fst i) (snd i)) (Arr (fst g) (snd g)) with Ok b => Some (ashape b, adata b) | _ => None end).

(** ** Reductions *)

(** sum_reduce: operation.hpp:921-943, tensor.tcc:766-771.  std::reduce adds in an unspecified order; over real numbers the
    order does not matter.  The backward action reads grad[0]. *)
Definition fill_back (c : val R -> R) (i _ g : val R) : option (val R) :=
  match snd g with g0 :: _ => Some (fst i, repeat (1 * g0 * c i) (prod (fst i))) | [] => None end.
Definition sum_all (l : list R) : R := fold_left Rplus l 0.
Definition op_sum_reduce : uop R :=
  UNew false (fun i => Some ([1%nat], [sum_all (snd i)])) IntoNew (fill_back (fun _ => 1)).
(** mean_reduce: operation.hpp:961-981, tensor.tcc:773-779; division by the batch size, which is 1 for a 1-D input *)
Definition batch_size (s : list nat) : nat := if (length s =? 1)%nat then 1%nat else hd 1%nat s.
Definition op_mean_reduce : uop R :=
  UNew false (fun i => Some ([1%nat], [sum_all (snd i) / INR (length (snd i))])) IntoNew
       (fill_back (fun i => / INR (batch_size (fst i)))).

(** reduce_sum( axis ): operation.hpp:3483-3596.  v3[it][k][st] is element (it*scales+k)*stride+st. *)
Definition pick_axis (axis : nat) (s : list nat) : nat := Nat.min axis (length s - 1).
Definition strided3 (d : list R) (scales stride it k st : nat) : R := nth ((it * scales + k) * stride + st) d 0.
Definition axis_parts (axis : nat) (s : list nat) : list nat * nat * list nat :=
  let ax := pick_axis axis s in (firstn ax s, nth ax s 0%nat, skipn (S ax) s).
Definition op_reduce_sum (axis : nat) : uop R :=
  UNew true
    (fun i => match fst i with [] => None | _ =>
       let '(p, n, q) := axis_parts axis (fst i) in
       Some (p ++ q, tab2 (prod p) (prod q) (fun it st => fold_left (fun a k => a + strided3 (snd i) n (prod q) it k st) (seq 0 n) 0)) end)
    IntoOwn
    (fun i _ g => match fst i with [] => None | _ =>
       let '(p, n, q) := axis_parts axis (fst i) in
       if (length (snd g) =? prod p * prod q)%nat then
         Some (fst i, tab2 (prod p) (n * prod q) (fun it j => nth (it * prod q + j mod prod q) (snd g) 0))
       else None end).

(** the first position of the largest (smallest) element of a column: std::max_element, std::min_element *)
Definition best (better : R -> R -> bool) (f : nat -> R) (n : nat) : nat :=
  fold_left (fun b k => if better (f k) (f b) then k else b) (seq 1 (n - 1)) 0%nat.
(** reduce_max and reduce_min: operation.hpp:3213-3345, 3348-3480; the recorded position receives the gradient *)
Definition op_reduce_by (better : R -> R -> bool) (axis : nat) : uop R :=
  UNew true
    (fun i => match fst i with [] => None | _ =>
       let '(p, n, q) := axis_parts axis (fst i) in
       if (n =? 0)%nat then None else
       Some (p ++ q, tab2 (prod p) (prod q) (fun it st => let f := fun k => strided3 (snd i) n (prod q) it k st in f (best better f n))) end)
    IntoOwn
    (fun i _ g => match fst i with [] => None | _ =>
       let '(p, n, q) := axis_parts axis (fst i) in
       if (length (snd g) =? prod p * prod q)%nat then
         Some (fst i, tab2 (prod p) (n * prod q) (fun it j =>
           let k := (j / prod q)%nat in let st := (j mod prod q)%nat in
           if (best better (fun k => strided3 (snd i) n (prod q) it k st) n =? k)%nat then nth (it * prod q + st) (snd g) 0 else 0))
       else None end).
Definition op_reduce_max := op_reduce_by (fun x b => above x b).
Definition op_reduce_min := op_reduce_by (fun x b => above b x).

End WithDebug.
