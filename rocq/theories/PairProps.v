(** Properties of training with cross_entropy, hinge_loss and mean_squared_logarithmic_error. *)
From Coq Require Import List Arith Lia Bool PeanoNat Reals Lra.
From Coquelicot Require Import Rcomplements Hierarchy Derive.
From Verif Require Import ListBase TensorModel TensorSpec GraphModel GraphSpec GradSpec LayerSpec CalcSpec GraphProps OpModel OpSpec GradProps ComplexModel LossModel LossSpec PairSpec PairProofs.
From Verif Require LossProps.
Import ListNotations.
Local Open Scope nat_scope.

(** The three losses: function, what it sums up, the factor of the sum in the value, the factor of the sum whose derivative backward
    computes, and the targets and predictions for which it does. *)
Definition pair_losses (dbg : bool) (lo up : R) : list ((nat -> expr R -> expr R -> expr R) * (R -> R -> R) * (list nat -> R) * (list nat -> R) * (R -> R -> Prop)) :=
  [(cross_entropy dbg, log_score, fun _ => 1, fun _ => 1, fun _ y => 0 < y);
   (hinge_loss dbg, hinge, fun s => / elements s, fun s => / samples s, fun t y => t * y <> 1);
   (mean_squared_logarithmic_error lo up, log_distance lo up, fun _ => 1, fun _ => 1, fun t y => (t <> lo /\ t <> up) /\ (y <> lo /\ y <> up))]%R.

(** C61.  A model out, compared with a target in place holder p: run returns the loss, backward( 1 ) gives every element of every variable
    the derivative of c times the sum of h target output plus the regularisers' cost.  The target and every other tensor of the user's
    are left as they are, and what the theorem needs of the storages holds again. *)
Theorem C61_training dbg eps lo up loss h wgt c dom n p tgt out s who target pred : (0 < lo < up)%R -> In (loss, h, wgt, c, dom) (pair_losses dbg lo up) ->
  trainable_tree out s -> separate out s who -> graded out s -> right_everywhere dbg (env_of s) out -> training s = true ->
  NoDup (ids (loss n (EHold p) out)) -> holders s p = Some tgt -> who (ref tgt) = OLeaf ->
  nth_error (hp s) (ref tgt) = Some target -> length target = prod (shape tgt) -> shape tgt <> [] ->
  evalR (env_of s) out = Some (shape tgt, pred) ->
  (forall i, i < length target -> dom (nth i target 0%R) (nth i pred 0%R)) ->
  trained dbg eps (loss n (EHold p) out) out s who (ref tgt) (wgt (shape tgt) * summed h target pred)%R target
    (fun y => c (shape tgt) * summed_of h target y)%R exactly.
Proof.
  intros Hlo Hin Tt So Go Ro Tr Hids Hh Hw Ht Lt Nsh Ep Hd.
  assert (HS : setting dbg out s who p tgt target pred) by (constructor; assumption).
  destruct (pred_len dbg _ _ _ _ _ _ _ HS) as [Lp _].
  assert (One : forall f, trained dbg eps (loss n (EHold p) out) out s who (ref tgt) (summed h target pred) target f exactly ->
                          (forall y, f y = summed_of h target y) ->
                          trained dbg eps (loss n (EHold p) out) out s who (ref tgt) (1 * summed h target pred)%R target (fun y => 1 * summed_of h target y)%R exactly).
  { intros f T E. rewrite Rmult_1_l. revert T. apply XentProps.trained_ext. intros y. rewrite E. ring. }
  cbn [pair_losses In] in Hin. destruct Hin as [E|[E|[E|[]]]]; injection E as <- <- <- <- <-.
  - apply (One (summed_of log_score target)); [|reflexivity]. apply (cross_entropy_train dbg eps _ _ _ _ _ _ _ HS); [exact Hids|].
    apply Forall_nth_all. intros i Hi. apply Hd. lia.
  - apply (hinge_train dbg eps _ _ _ _ _ _ _ HS); assumption.
  - apply (One (summed_of (log_distance lo up) target)); [|reflexivity]. apply (log_error_train dbg eps _ _ _ _ _ _ _ HS); try assumption.
    + apply Forall_nth_all. intros i Hi. apply Hd. exact Hi.
    + apply Forall_nth_all. intros i Hi. apply Hd. lia.
Qed.
Print Assumptions C61_training.

(** the affine layer of LossProps.v, whose output is 4, 4, with the target 10, 20 *)
Module Case.
Import LossProps.Case.
Lemma affine_graded : graded affine s.
Proof. intros j v Hk. at_cases Hk; injection Hk as <- <-; split; reflexivity. Qed.

Example C61_case loss h wgt c dom : In (loss, h, wgt, c, dom) (pair_losses true 1 9) ->
  trained true 1 (loss 2 (EHold 1) affine) affine s who 5
    (wgt [1; 2]%nat * summed h [10; 20] [0 + 1 * 3 + 2 * 0 + 1; 0 + 1 * 5 + 2 * -1 + 1])%R [10; 20]%R (fun y => c [1; 2]%nat * summed_of h [10; 20] y)%R exactly.
Proof.
  intros Hin. apply (C61_training true 1 1 9 loss h wgt c dom 2 1 (mkT [1; 2] 5) affine s who [10; 20]%R [0 + 1 * 3 + 2 * 0 + 1; 0 + 1 * 5 + 2 * -1 + 1]%R); try reflexivity; try discriminate; try lra; try exact Hin.
  - exact affine_trainable.
  - exact affine_separate.
  - exact affine_graded.
  - exact affine_right.
  - cbn [pair_losses In] in Hin. destruct Hin as [E|[E|[E|[]]]]; injection E as <- _ _ _ _; cbn; repeat constructor; cbn; intuition discriminate.
  - cbn [pair_losses In] in Hin. destruct Hin as [E|[E|[E|[]]]]; injection E as _ _ _ _ <-; intros [|[|i]] Hi; cbn [length] in Hi; try (exfalso; lia); cbn [nth]; lra.
Qed.
End Case.

(** mean_squared_logarithmic_error is not a mean: two elements with the same error double it. *)
Theorem C61_log_error_mean_refuted : exists out s who tgt target pred t s1,
  evalR (env_of s) out = Some (shape tgt, pred) /\ holders s 1 = Some tgt /\ nth_error (hp s) (ref tgt) = Some target /\ separate out s who /\
  run 0%R 1%R Rplus Rmult true (mean_squared_logarithmic_error 1 9 2 (EHold 1) out) s = Ok (t, s1) /\
  (summed (log_distance 1 9) target pred <> 0)%R /\
  val_of (hp s1) t = ([1], [(elements (shape tgt) * (/ elements (shape tgt) * summed (log_distance 1 9) target pred))%R]) /\ elements (shape tgt) = 2%R.
Proof.
  destruct (Case.C61_case (mean_squared_logarithmic_error 1 9) (log_distance 1 9) (fun _ => 1%R) (fun _ => 1%R) (fun t y => (t <> 1 /\ t <> 9) /\ (y <> 1 /\ y <> 9))%R) as (t & s1 & _ & _ & R1 & V1 & _).
  { cbn; tauto. }
  exists LossProps.Case.affine, LossProps.Case.s, LossProps.Case.who, (mkT [1; 2] 5), [10; 20]%R, [0 + 1 * 3 + 2 * 0 + 1; 0 + 1 * 5 + 2 * -1 + 1]%R, t, s1.
  split; [exact LossProps.Case.affine_value|]. split; [reflexivity|]. split; [reflexivity|]. split; [exact LossProps.Case.affine_separate|]. split; [exact R1|].
  assert (E2 : elements (shape (mkT [1; 2] 5)) = 2%R) by (unfold elements; cbn; ring).
  assert (K : (0 < ln (1 + 9) - ln (1 + 4))%R) by (pose proof (ln_increasing (1 + 4) (1 + 9) ltac:(lra) ltac:(lra)); lra).
  assert (K4 : kept 1 9 (0 + 1 * 3 + 2 * 0 + 1) = 4%R) by (unfold kept; rewrite Rmin_right by lra; rewrite Rmax_right by lra; lra).
  assert (K4' : kept 1 9 (0 + 1 * 5 + 2 * -1 + 1) = 4%R) by (unfold kept; rewrite Rmin_right by lra; rewrite Rmax_right by lra; lra).
  assert (K10 : kept 1 9 10 = 9%R) by (unfold kept; rewrite Rmin_left by lra; rewrite Rmax_right by lra; lra).
  assert (K20 : kept 1 9 20 = 9%R) by (unfold kept; rewrite Rmin_left by lra; rewrite Rmax_right by lra; lra).
  split; [|split; [|exact E2]].
  - unfold summed. cbn [map2 rsum]. unfold log_distance. rewrite K10, K20, K4, K4'. nra.
  - rewrite V1, E2. do 2 f_equal. field.
Qed.
Print Assumptions C61_log_error_mean_refuted.
