(** Properties C30-C32: the local rules of the operators. *)
From Coq Require Import List Arith Lia Bool PeanoNat Reals Lra.
From Coquelicot Require Import Rcomplements Hierarchy Derive.
From Verif Require Import ListBase TensorModel TensorSpec ArrayModel GraphModel GraphSpec GradSpec LayerSpec CalcSpec CalcProofs OpModel OpSpec OpProofs OpRules OpRules2 OpProofs2 OpProofs3 OpProofs4 OpProofs5 OpProofs6.
Import ListNotations.
Local Open Scope R_scope.

(** ** C30: operators with one operand, element by element *)

(** These rules are right at every input. *)
Theorem C30_right_everywhere : forall i a, sized i ->
  Forall (fun o => right1 o i)
    [op_asinh; op_atan; op_cos; op_cosh; op_erf; op_erfc; op_exp; op_exp2; op_expm1; op_sin; op_sinh; op_tanh;
     op_negative; op_shift a; op_scale a; op_square; op_softsign; op_sigmoid; op_exponential].
Proof.
  intros i a Hi. repeat (constructor; [|]); try constructor.
  all: match goal with
       | |- right1 (op_pass _) _ => apply op_pass_iff
       | |- right1 op_negative _ => apply (op_map_iff i Hi)
       | |- right1 (op_shift _) _ => apply op_pass_iff
       | |- right1 (op_scale _) _ => apply (op_map_iff i Hi)
       | |- right1 op_square _ => apply op_in_new_iff
       | |- right1 op_exponential _ => apply op_grad_out_iff
       | |- right1 ?o _ => unfold o; first [apply op_in_iff; [assumption|]|apply op_out_iff; [assumption|]]
       end; try assumption; apply Forall_all; intros x.
  - apply s_asinh.
  - apply s_atan.
  - apply s_cos.
  - apply s_cosh.
  - apply s_erf.
  - apply s_erfc.
  - apply s_exp.
  - apply s_exp2.
  - apply s_expm1.
  - apply s_sin.
  - apply s_sinh.
  - apply s_tanh.
  - apply s_neg.
  - apply s_shift.
  - apply s_scale.
  - apply s_square.
  - apply s_softsign.
  - apply s_sigmoid.
  - apply s_exp.
Qed.
Print Assumptions C30_right_everywhere.

(** These are right inside the function's domain. *)
Theorem C30_right_on_domain : forall i a, sized i ->
  (Forall (fun x => 0 < x) (snd i) -> Forall (fun o => right1 o i) [op_log; op_log2; op_log10; op_sqrt; op_pow a]) /\
  (Forall (fun x => -1 < x < 1) (snd i) -> Forall (fun o => right1 o i) [op_asin; op_acos; op_atanh]) /\
  (Forall (fun x => 1 < x) (snd i) -> right1 op_acosh i) /\
  (Forall (fun x => cos x <> 0) (snd i) -> right1 op_tan i) /\
  (Forall (fun x => x <> 0) (snd i) -> Forall (fun o => right1 o i) [op_cbrt; op_sign]).
Proof.
  intros i a Hi.
  assert (IN : forall f h (P : R -> Prop), (forall x, P x -> sound_at f (h x) x) -> Forall P (snd i) -> right1 (op_in f h) i).
  { intros f h P H F. apply op_in_iff; [assumption|]. revert F. now apply Forall_impl. }
  assert (OUT : forall f h (P : R -> Prop), (forall x, P x -> sound_at f (h (f x)) x) -> Forall P (snd i) -> right1 (op_out f h) i).
  { intros f h P H F. apply op_out_iff; [assumption|]. revert F. now apply Forall_impl. }
  split; [|split; [|split; [|split]]]; intros F.
  - repeat (constructor; [|]); try constructor.
    + apply (IN _ _ (fun x => 0 < x)); [exact s_log|assumption].
    + apply (IN _ _ (fun x => 0 < x)); [exact s_log2|assumption].
    + apply (IN _ _ (fun x => 0 < x)); [exact s_log10|assumption].
    + apply (OUT _ _ (fun x => 0 < x)); [exact s_sqrt|assumption].
    + apply (IN _ _ (fun x => 0 < x)); [exact (s_pow a)|assumption].
  - repeat (constructor; [|]); try constructor.
    + apply (IN _ _ (fun x => -1 < x < 1)); [exact s_asin|assumption].
    + apply (IN _ _ (fun x => -1 < x < 1)); [exact s_acos|assumption].
    + apply (IN _ _ (fun x => -1 < x < 1)); [exact s_atanh|assumption].
  - apply (IN _ _ (fun x => 1 < x)); [exact s_acosh|assumption].
  - apply (OUT _ _ (fun x => cos x <> 0)); [exact s_tan|assumption].
  - repeat (constructor; [|]); try constructor.
    + apply (OUT _ _ (fun x => x <> 0)); [exact s_cbrt|assumption].
    + apply op_sign_iff; [assumption|]. revert F. apply Forall_impl. exact s_sign.
Qed.
Print Assumptions C30_right_on_domain.

(** Functions with corners, and rules that hold only in part: right exactly at the inputs all of whose elements lie where
    the claim says. *)
Theorem C30_exactly : forall i, sized i ->
  (right1 op_abs i <-> Forall (fun x => x <> 0) (snd i)) /\
  (right1 op_relu i <-> Forall (fun x => x <> 0) (snd i)) /\
  (right1 op_relu6 i <-> Forall (fun x => x <> 0 /\ x <> 6) (snd i)) /\
  (forall a, 0 < a < 1 -> (right1 (op_leaky_relu a) i <-> Forall (fun x => x <> 0) (snd i))) /\
  (forall lo up, lo < up -> (right1 (op_clip lo up) i <-> Forall (fun x => x <> lo /\ x <> up) (snd i))) /\
  (right1 op_hard_sigmoid i <-> Forall (fun x => x <> 1 /\ x <> -1) (snd i)) /\
  (forall la al, la <> 0 -> (right1 (op_selu la al) i <-> Forall (fun x => x <> 0 \/ al = 1) (snd i))) /\
  (* the backward action of elu raises e to the gradient instead of the input *)
  (forall a, a <> 0 -> (right1 (op_elu a) i <-> Forall (fun x => 0 < x \/ (x = 0 /\ a = 1)) (snd i))) /\
  (* the backward action of inverse bounds the square below by eps, the forward action the number itself *)
  (forall eps, 0 < eps < 1 -> (right1 (op_inverse eps) i <-> Forall (fun x => eps <= x * x) (snd i))).
Proof.
  intros i Hi.
  assert (K : forall f (h : R -> R -> R) (P : R -> Prop), (forall x, P x -> sound_at f (h x) x) -> (forall x, ~ P x -> forall l, ~ is_derive f x l) ->
    (forall x, P x \/ ~ P x) -> (Forall (fun x => sound_at f (h x) x) (snd i) <-> Forall P (snd i))).
  { intros f h P S N D. apply Forall_iff. intros x. split; [|apply S]. intros (d & Dx & _). destruct (D x) as [|Nx]; [assumption|]. now destruct (N x Nx d). }
  split; [|split; [|split; [|split; [|split; [|split; [|split; [|split]]]]]]].
  - unfold op_abs. rewrite op_in_iff by assumption. apply (K _ (fun x g => _)); [exact s_abs| |].
    + intros x Hx. replace x with 0 by lra. exact n_abs.
    + intros x. destruct (Req_dec x 0); lra.
  - unfold op_relu, op_grad. rewrite op_grad_iff by assumption. apply (K _ (fun x g => _)); [exact s_relu| |].
    + intros x Hx. replace x with 0 by lra. exact n_relu.
    + intros x. destruct (Req_dec x 0); lra.
  - unfold op_relu6, op_grad. rewrite op_grad_iff by assumption. apply (K _ (fun x g => _)); [intros x [H H']; now apply s_relu6| |].
    + intros x Hx. intros l. apply n_relu6. destruct (Req_dec x 0), (Req_dec x 6); lra.
    + intros x. destruct (Req_dec x 0), (Req_dec x 6); lra.
  - intros a Ha. unfold op_leaky_relu, op_grad. rewrite op_grad_iff by assumption. apply (K _ (fun x g => _)); [intros x; now apply s_leaky| |].
    + intros x Hx l. replace x with 0 by lra. now apply n_leaky.
    + intros x. destruct (Req_dec x 0); lra.
  - intros lo up L. unfold op_clip. rewrite op_grad_iff by assumption. apply (K _ (fun x g => _)); [intros x [H H']; now apply s_clip| |].
    + intros x Hx l. apply n_clip; [assumption|]. destruct (Req_dec x lo), (Req_dec x up); lra.
    + intros x. destruct (Req_dec x lo), (Req_dec x up); lra.
  - unfold op_hard_sigmoid, op_grad. rewrite op_grad_iff by assumption. apply (K _ (fun x g => _)); [intros x [H H']; now apply s_hard| |].
    + intros x Hx l. apply n_hard. destruct (Req_dec x 1), (Req_dec x (-1)); lra.
    + intros x. destruct (Req_dec x 1), (Req_dec x (-1)); lra.
  - intros la al L. unfold op_selu. rewrite op_in_iff by assumption. apply (K _ (fun x g => _)); [intros x; now apply s_selu| |].
    + intros x Hx l. replace x with 0 by (destruct (Req_dec x 0), (Req_dec al 1); lra). apply n_selu; [assumption|]. destruct (Req_dec x 0), (Req_dec al 1); lra.
    + intros x. destruct (Req_dec x 0), (Req_dec al 1); lra.
  - intros a Ha. unfold op_elu, op_grad. rewrite op_grad_iff by assumption. apply Forall_iff. intros x. now apply (w_elu a).
  - intros eps He. unfold op_inverse. rewrite op_in_iff by assumption. apply Forall_iff. intros x. now apply (w_inverse eps).
Qed.
Print Assumptions C30_exactly.

(** These rules are wrong wherever there is an element at all: gelu differentiates at the gradient instead of the input, and
    the step functions pass the gradient on although they are flat. *)
Theorem C30_always_wrong : forall i, sized i -> snd i <> [] ->
  ~ right1 op_gelu i /\ ~ right1 op_floor i /\ ~ right1 op_ceil i /\ ~ right1 op_llround i /\ ~ right1 op_trunc i.
Proof.
  intros i Hi Hne. destruct (snd i) as [|x rest] eqn:E; [easy|].
  split; [|split; [|split; [|split]]].
  - unfold op_gelu. rewrite (op_map_iff i Hi). rewrite E. intros F. inversion F. now apply (w_gelu x).
  - unfold op_floor. rewrite (op_pass_iff i Hi). rewrite E. intros F. inversion F. now apply (w_floor x).
  - unfold op_ceil. rewrite (op_pass_iff i Hi). rewrite E. intros F. inversion F. now apply (w_ceil x).
  - unfold op_llround. rewrite (op_pass_iff i Hi). rewrite E. intros F. inversion F. now apply (w_round x).
  - unfold op_trunc. rewrite (op_pass_iff i Hi). rewrite E. intros F. inversion F. now apply (w_trunc x).
Qed.
Print Assumptions C30_always_wrong.

(** log1p divides by x instead of 1+x; softplus divides by 1 - exp(-x) instead of 1 + exp(-x) *)
Theorem C30_log1p_softplus_refuted : forall i, sized i ->
  (Exists (fun x => -1 < x /\ x <> 0) (snd i) -> ~ right1 op_log1p i) /\
  (Exists (fun x => x <> 0) (snd i) -> ~ right1 op_softplus i).
Proof.
  intros i Hi. split; intros E.
  - unfold op_log1p. rewrite op_in_iff by assumption. intros F. apply Exists_exists in E. destruct E as (x & Ix & H & N). rewrite Forall_forall in F.
    now apply (w_log1p x H N), F.
  - unfold op_softplus. rewrite op_in_iff by assumption. intros F. apply Exists_exists in E. destruct E as (x & Ix & H). rewrite Forall_forall in F.
    now apply (w_softplus x H), F.
Qed.
Print Assumptions C30_log1p_softplus_refuted.

(** softmax keeps only the diagonal of its Jacobian: right exactly when rows have a single element *)
Theorem C30_softmax : forall p n (i : val R), fst i = p ++ [n] -> sized i -> prod (fst i) <> 0%nat -> (right1 op_softmax i <-> n = 1%nat).
Proof. exact softmax_right_iff. Qed.
Print Assumptions C30_softmax.

Example C30_cases :
  right1 op_tanh ([2%nat], [1; -3]) /\ right1 op_sqrt ([2%nat], [1; 3]) /\
  right1 op_relu ([2%nat], [1; -3]) /\ ~ right1 op_relu ([2%nat], [1; 0]) /\
  right1 (op_elu 1) ([2%nat], [1; 3]) /\ ~ right1 (op_elu 1) ([2%nat], [1; -3]) /\
  local1 op_log1p ([1%nat], [2]) ([1%nat], [1]) = Some ([1%nat], [1 / 2]) /\ ~ right1 op_log1p ([1%nat], [2]) /\
  ~ right1 op_softmax ([1%nat; 2%nat], [0; 0]).
Proof.
  assert (S : forall x y : R, sized ([2%nat], [x; y])) by reflexivity.
  split; [|split; [|split; [|split; [|split; [|split; [|split; [|split]]]]]]].
  - pose proof (C30_right_everywhere ([2%nat], [1; -3]) 0 (S _ _)) as H. rewrite Forall_forall in H. apply H. cbn; tauto.
  - destruct (C30_right_on_domain ([2%nat], [1; 3]) 0 (S _ _)) as (H & _). assert (F : Forall (fun x => 0 < x) (snd ([2%nat], [1; 3]))) by (repeat constructor; lra).
    specialize (H F). rewrite Forall_forall in H. apply H. cbn; tauto.
  - apply (C30_exactly ([2%nat], [1; -3]) (S _ _)). repeat constructor; lra.
  - intros H. apply (C30_exactly ([2%nat], [1; 0]) (S _ _)) in H. inversion H as [|? ? _ H']. inversion H'. lra.
  - destruct (C30_exactly ([2%nat], [1; 3]) (S _ _)) as (_ & _ & _ & _ & _ & _ & _ & H & _). apply H; [lra|]. repeat constructor; lra.
  - intros H. destruct (C30_exactly ([2%nat], [1; -3]) (S _ _)) as (_ & _ & _ & _ & _ & _ & _ & H' & _). apply H' in H; [|lra].
    inversion H as [|? ? _ H'']. inversion H''. lra.
  - reflexivity.
  - apply C30_log1p_softplus_refuted; [reflexivity|]. constructor. cbn. lra.
  - intros H. apply (C30_softmax [1%nat] 2%nat) in H; [discriminate|reflexivity|reflexivity|discriminate].
Qed.

(** ** C31: operators with two operands *)
Local Open Scope nat_scope.

(** A sum is right at operands of any broadcastable shapes; a matrix product at any two matrices that can be multiplied; an
    element-wise product whenever one operand repeats along the leading axes of the other. *)
Theorem C31_right : forall dbg a b, sized a -> sized b ->
  (forall r, fst a <> [] -> fst b <> [] -> prod (fst a) <> 0 -> prod (fst b) <> 0 -> Broadcasts (fst a) (fst b) r -> right2 dbg BPlus a b) /\
  (forall m n k, fst a = [m; n] -> fst b = [n; k] -> right2 dbg op_matmul a b) /\
  (fst a <> [] -> fst b <> [] -> prod (fst a) <> 0 -> prod (fst b) <> 0 ->
     (Stretches (fst b) (fst a) /\ TailOf (fst b) (fst a)) \/ (prod (fst a) < prod (fst b) /\ Stretches (fst a) (fst b) /\ TailOf (fst a) (fst b)) ->
     right2 dbg (op_product dbg) a b).
Proof.
  intros dbg a b Ha Hb. split; [|split].
  - intros r Na Nb Pa Pb B. now apply (plus_right dbg a b r).
  - intros m n k Ea Eb. now apply (matmul_right dbg a b m n k).
  - intros Na Nb Pa Pb [[St T]|(L & St & T)].
    + now apply product_right_big.
    + now apply product_right_small.
Qed.
Print Assumptions C31_right.

(** maximum is right exactly where no two elements tie *)
Theorem C31_maximum : forall dbg a b, sized a -> sized b -> fst a = fst b ->
  (right2 dbg op_maximum a b <-> forall p, p < prod (fst a) -> nth p (snd a) 0%R <> nth p (snd b) 0%R).
Proof. exact maximum_right_iff. Qed.
Print Assumptions C31_maximum.

(** minimum sends the gradient to the larger operand: it is right nowhere *)
Theorem C31_minimum_refuted : forall dbg a b, sized a -> sized b -> fst a = fst b -> prod (fst a) <> 0 -> ~ right2 dbg op_minimum a b.
Proof. exact minimum_wrong. Qed.
Print Assumptions C31_minimum_refuted.

(** atan2 has the opposite signs: wrong as soon as an abscissa is positive *)
Theorem C31_atan2_refuted : forall dbg a b p, sized a -> sized b -> fst a = fst b -> p < prod (fst a) -> (0 < nth p (snd b) 0)%R -> ~ right2 dbg op_atan2 a b.
Proof. exact atan2_wrong. Qed.
Print Assumptions C31_atan2_refuted.

Example C31_cases :
  right2 true op_maximum ([2], [1; 5]%R) ([2], [4; 3]%R) /\ ~ right2 true op_maximum ([2], [1; 3]%R) ([2], [4; 3]%R) /\
  ~ right2 true op_minimum ([1], [1]%R) ([1], [4]%R) /\ ~ right2 true op_atan2 ([1], [1]%R) ([1], [4]%R) /\
  right2 true op_matmul ([1; 2], [1; 5]%R) ([2; 1], [4; 3]%R) /\
  right2 true (op_product true) ([2; 2], [1; 5; 2; 7]%R) ([2], [4; 3]%R) /\
  right2 true BPlus ([2; 1], [1; 5]%R) ([3], [4; 3; 2]%R).
Proof.
  split; [|split; [|split; [|split; [|split; [|split]]]]].
  - apply C31_maximum; try reflexivity. intros p Hp. cbn in Hp. destruct p as [|[|p]]; cbn; lra || lia.
  - intros H. pose proof (proj1 (C31_maximum true ([2], [1; 3]%R) ([2], [4; 3]%R) eq_refl eq_refl eq_refl) H 1) as H'. cbn in H'. apply H'; [lia|reflexivity].
  - now apply C31_minimum_refuted.
  - apply (C31_atan2_refuted true _ _ 0); try reflexivity; cbn; [lia|lra].
  - now apply (C31_right true ([1; 2], [1; 5]%R) ([2; 1], [4; 3]%R) eq_refl eq_refl) with (m := 1) (n := 2) (k := 1).
  - apply (C31_right true ([2; 2], [1; 5; 2; 7]%R) ([2], [4; 3]%R) eq_refl eq_refl); try discriminate. left. cbn [fst]. split.
    + split; [cbn; lia|]. intros j Hj. left. cbn in Hj. now destruct j; [|lia].
    + exists 1. reflexivity.
  - apply (proj1 (C31_right true ([2; 1], [1; 5]%R) ([3], [4; 3; 2]%R) eq_refl eq_refl) [2; 3]); try discriminate.
    cbn [fst]. split; [reflexivity|]. intros j Hj. cbn in Hj. destruct j as [|[|j]]; [right; left|right; right|lia]; split; reflexivity.
Qed.

(** ** C32: reductions *)

(** sum_reduce, and reduce_sum along any axis (the last one if the number given is too large), at every input *)
Theorem C32_sums : forall i, sized i ->
  right1 op_sum_reduce i /\
  forall axis p n q, fst i = p ++ n :: q -> axis = length p \/ (q = [] /\ length p <= axis) -> right1 (op_reduce_sum axis) i.
Proof. intros i Hi. split; [now apply sum_reduce_right|]. intros axis p n q E H. now apply (reduce_sum_right axis p n q). Qed.
Print Assumptions C32_sums.

(** reduce_max and reduce_min, where every line along the axis has a single extreme element *)
Theorem C32_extremes : forall i axis p n q, sized i -> fst i = p ++ n :: q -> axis = length p \/ (q = [] /\ length p <= axis) -> n <> 0 ->
  let elt a k c := nth ((a * n + k) * prod q + c) (snd i) 0%R in
  ((forall a c, a < prod p -> c < prod q -> exists m, m < n /\ forall k, k < n -> k <> m -> (elt a k c < elt a m c)%R) -> right1 (op_reduce_max axis) i) /\
  ((forall a c, a < prod p -> c < prod q -> exists m, m < n /\ forall k, k < n -> k <> m -> (elt a m c < elt a k c)%R) -> right1 (op_reduce_min axis) i).
Proof.
  intros i axis p n q Hi E H N elt. split; intros U.
  - now apply (reduce_max_right axis p n q).
  - now apply (reduce_min_right axis p n q).
Qed.
Print Assumptions C32_extremes.

(** mean_reduce divides the gradient by the first extent, or by one for an input of one axis, instead of the number of
    elements: right exactly when the two agree *)
Theorem C32_mean : forall i, sized i -> prod (fst i) <> 0 ->
  (right1 op_mean_reduce i <-> match fst i with [_] => 1 | [] => 1 | m :: _ => m end = prod (fst i)).
Proof.
  intros i Hi Hn. rewrite (mean_reduce_right_iff i Hi Hn). unfold batch_size. destruct (fst i) as [|a [|b l]]; reflexivity.
Qed.
Print Assumptions C32_mean.

(** The views (reshape, flatten and identity pass the elements on) are right wherever the number of elements is kept. *)
Theorem C32_views : forall f i s, sized i -> f (fst i) = Some s -> prod s = prod (fst i) -> right1 (UView f) i.
Proof. exact view_right. Qed.
Print Assumptions C32_views.

(** An operator whose backward action is the adjoint of its forward action (see C34-C36, C38, C50, C51) is right. *)
Theorem C32_adjoint_right : forall own m fwd bwd s t i, adjoint s t fwd bwd -> fst i = s -> sized i -> right1 (op_layer own m fwd bwd) i.
Proof. exact adjoint_right. Qed.
Print Assumptions C32_adjoint_right.

Example C32_cases :
  right1 (op_reduce_sum 1) ([2; 3], [1; 2; 3; 4; 5; 6]%R) /\ right1 (op_reduce_max 0) ([2; 2], [1; 5; 3; 2]%R) /\
  right1 op_mean_reduce ([3; 1], [1; 2; 3]%R) /\ ~ right1 op_mean_reduce ([3], [1; 2; 3]%R) /\ ~ right1 op_mean_reduce ([2; 2], [1; 2; 3; 4]%R).
Proof.
  split; [|split; [|split; [|split]]].
  - apply (proj2 (C32_sums ([2; 3], [1; 2; 3; 4; 5; 6]%R) eq_refl) 1 [2] 3 []); auto.
  - apply (proj1 (C32_extremes ([2; 2], [1; 5; 3; 2]%R) 0 [] 2 [2] eq_refl eq_refl (or_introl eq_refl) ltac:(discriminate))). intros a c Ha Hc. cbn in Ha, Hc.
    assert (a = 0) by lia. subst a. destruct c as [|[|c]]; [exists 1|exists 0|lia]; (split; [lia|]); intros k Hk N; destruct k as [|[|k]]; try lia; cbn; lra.
  - apply C32_mean; [reflexivity|discriminate|reflexivity].
  - intros H. apply (proj1 (C32_mean ([3], [1; 2; 3]%R) eq_refl ltac:(discriminate))) in H. discriminate H.
  - intros H. apply (proj1 (C32_mean ([2; 2], [1; 2; 3; 4]%R) eq_refl ltac:(discriminate))) in H. discriminate H.
Qed.
