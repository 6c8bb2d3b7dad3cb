(** Properties of training with cross_entropy_loss. *)
From Coq Require Import List Arith Lia Bool PeanoNat Reals Lra.
From Coquelicot Require Import Rcomplements Rbar Hierarchy Derive.
From Coquelicot Require AutoDerive.
From Verif Require Import ListBase TensorModel TensorSpec TensorProofs TensorProofs2 ArrayModel GraphModel GraphSpec GraphProofs GraphProofs2
  GraphProofs3 GraphProofs4 GradSpec GradProofs GradProofs2 GradProofs3 LayerSpec LayerProofs BcastAdjoint CalcSpec CalcProofs CalcProofs2 CalcProofs3 GraphProps OpModel OpSpec OpProofs Scalar
  OpRules OpProofs2 OpProofs4 OpProofs5 OpProps GradProps ComplexModel LossModel LossSpec LossProofs LossProofs2 LossProofs3 LossProofs4 XentSpec XentProofs XentProofs2.
From Verif Require LossProps.
Import ListNotations.
Local Open Scope nat_scope.

Lemma labels_sum eps smooth rows n target r : 2 <= n -> one_hot eps rows n target -> r < rows ->
  rsum (tab n (fun j => given eps smooth n (target (r * n + j)))) = 1%R.
Proof.
  intros Hn H Hr. destruct (H r Hr) as (j & Hj & P & N).
  rewrite (rsum_tab_ext n _ (fun i => if i =? j then (1 - smooth)%R else (smooth / INR (n - 1))%R)).
  - rewrite (row_sum_split n j (fun _ => smooth / INR (n - 1))%R (1 - smooth)%R Hj).
    assert (E : rsum (tab n (fun i => if i =? j then 0%R else (smooth / INR (n - 1))%R)) = smooth).
    { pose proof (row_sum_split n j (fun _ => smooth / INR (n - 1))%R (smooth / INR (n - 1))%R Hj) as E.
      rewrite (rsum_tab_ext n _ (fun _ => smooth / INR (n - 1))%R) in E by (intros i _; now destruct (i =? j)). rewrite rsum_tab_const in E.
      assert (Q : INR n = (INR (n - 1) + 1)%R) by (replace n with (S (n - 1)) at 1 by lia; apply S_INR). rewrite Q in E.
      assert (0 < INR (n - 1))%R by (apply lt_0_INR; lia).
      apply (Rplus_eq_reg_l (smooth / INR (n - 1))). rewrite <- E. field. lra. }
    rewrite E. ring.
  - intros i Hi. unfold given. destruct (Nat.eqb_spec i j) as [->|Ni].
    + destruct (Rlt_dec eps (target (r * n + j))); [reflexivity|lra].
    + specialize (N i Hi Ni). destruct (Rlt_dec eps (target (r * n + i))); [lra|reflexivity].
Qed.

(** With exactly one label per row, logits is the cross entropy of the labels and the softmax of the scores. *)
Theorem C60_entropy eps smooth rows n target y : 2 <= n -> one_hot eps rows n target ->
  logits rows n (fun i => given eps smooth n (target i)) y = entropy rows n (fun i => given eps smooth n (target i)) y.
Proof.
  intros Hn H. unfold logits, entropy. rewrite tab_mul, rsum_tab2.
  assert (Ng : forall z, (- z = -1 * z)%R) by (intros; ring). rewrite Ng, rsum_scal. apply rsum_tab_ext. intros r Hr.
  rewrite rsum_scal. pose proof (labels_sum eps smooth rows n target r Hn H Hr) as L. pose proof (row_exp_pos n y r ltac:(lia)) as P.
  rewrite <- (Rmult_1_r (ln (row_exp n y r))). rewrite <- L at 1. rewrite rsum_scal. unfold Rminus. rewrite Ng, rsum_scal, <- rsum_tab_plus.
  apply rsum_tab_ext. intros j Hj. unfold share. rewrite div_row by assumption. rewrite ln_div by (try assumption; apply exp_pos). rewrite ln_exp. ring.
Qed.
Print Assumptions C60_entropy.

Lemma trained_ext dbg eps e out s who a value rest f g near : (forall y, f y = g y) -> trained dbg eps e out s who a value rest f near -> trained dbg eps e out s who a value rest g near.
Proof.
  intros Efg (t & s1 & s2 & who2 & R1 & V1 & R2 & HG & Rest). exists t, s1, s2, who2. split; [exact R1|]. split; [exact V1|]. split; [exact R2|]. split; [|exact Rest].
  intros k v i Hk Ht Hi x0 Hx. destruct (HG k v i Hk Ht Hi Hx) as (l & D & N). exists l. split; [|exact N]. revert D. apply is_derive_ext. intros x. now rewrite Efg.
Qed.

(** C60.  A model out, whose output has rows of m elements, compared by cross_entropy_loss with a target in place holder p: run returns
    the value called reported; backward( 1 ) gives every element of every variable, up to eps times the derivatives of the output, the
    derivative of logits plus the regularisers' cost.  The target and every other tensor of the user's are left as they are. *)
Theorem C60_training dbg eps smooth n p rows m batch tgt out s who target pred : (0 < eps)%R ->
  let loss := cross_entropy_loss dbg eps smooth n (EHold p) out in
  let lab := fun i => given eps smooth m (nth i target 0%R) in
  trainable_tree out s -> separate out s who -> graded out s -> right_everywhere dbg (env_of s) out -> training s = true ->
  NoDup (ids loss) -> holders s p = Some tgt -> who (ref tgt) = OLeaf ->
  nth_error (hp s) (ref tgt) = Some target -> length target = prod (shape tgt) ->
  (exists P l, shape tgt = P ++ [m] /\ prod P = rows /\ shape tgt = batch :: l) -> 2 <= m ->
  evalR (env_of s) out = Some (shape tgt, pred) ->
  trained dbg eps loss out s who (ref tgt) (reported eps batch rows m lab (fun i => nth i pred 0%R)) target
    (fun y => logits rows m lab (entry y)) (within eps s out (prod (shape tgt))).
Proof.
  intros He loss lab Tt So Go Ro Tr Hids Hh Hw Ht Lt (P & l & Esh & <- & E0) _ Ep.
  exact (xent_train dbg eps He smooth n p P m batch tgt out s who target pred Tt So Go Ro Tr Hids Hh Hw Ht Lt Esh (ex_intro _ l E0) Ep).
Qed.
Print Assumptions C60_training.

(** So with one label per row the gradient is that of the cross entropy, summed over the batch. *)
Theorem C60_one_hot dbg eps smooth n p rows m batch tgt out s who target pred : (0 < eps)%R ->
  let loss := cross_entropy_loss dbg eps smooth n (EHold p) out in
  let lab := fun i => given eps smooth m (nth i target 0%R) in
  trainable_tree out s -> separate out s who -> graded out s -> right_everywhere dbg (env_of s) out -> training s = true ->
  NoDup (ids loss) -> holders s p = Some tgt -> who (ref tgt) = OLeaf ->
  nth_error (hp s) (ref tgt) = Some target -> length target = prod (shape tgt) ->
  (exists P l, shape tgt = P ++ [m] /\ prod P = rows /\ shape tgt = batch :: l) -> 2 <= m ->
  one_hot eps rows m (fun i => nth i target 0%R) ->
  evalR (env_of s) out = Some (shape tgt, pred) ->
  trained dbg eps loss out s who (ref tgt) (reported eps batch rows m lab (fun i => nth i pred 0%R)) target
    (fun y => entropy rows m lab (entry y)) (within eps s out (prod (shape tgt))).
Proof.
  intros He loss lab Tt So Go Ro Tr Hids Hh Hw Ht Lt Sh Hm Oh Ep.
  apply (trained_ext dbg eps loss out s who (ref tgt) _ target (fun y => logits rows m lab (entry y))).
  - intros y. exact (C60_entropy eps smooth rows m (fun i => nth i target 0%R) (entry y) Hm Oh).
  - now apply (C60_training dbg eps smooth n p rows m batch tgt out s who target pred).
Qed.
Print Assumptions C60_one_hot.

(** The value is the cross entropy divided by the first dimension, up to eps per row, unless the softmax of a labelled element is tiny.
    Its derivative is therefore not the gradient, which is that of the undivided sum. *)
Theorem C60_value eps smooth batch rows n target y : (0 < eps <= 1)%R -> (0 <= smooth <= 1)%R -> 2 <= n -> 1 <= batch -> one_hot eps rows n target ->
  let lab := fun i => given eps smooth n (target i) in
  (forall i, i < rows * n -> lab i <> 0%R -> (2 * eps <= share n y i)%R) ->
  (entropy rows n lab y / INR batch <= reported eps batch rows n lab y <= (entropy rows n lab y + eps * INR rows) / INR batch)%R.
Proof.
  intros He Hs Hn Hb H lab Hl. assert (Bp : (0 < INR batch)%R) by (apply lt_0_INR; lia).
  assert (Key : forall i, i < rows * n -> (lab i * ln (Rmax eps (damped eps n y i)) <= lab i * ln (share n y i) <= lab i * ln (Rmax eps (damped eps n y i)) + eps * lab i)%R).
  { intros i Hi. assert (L0 : (0 <= lab i)%R).
    { unfold lab, given. destruct (Rlt_dec eps (target i)); [lra|]. apply Rmult_le_pos; [lra|]. left. apply Rinv_0_lt_compat. apply lt_0_INR. lia. }
    destruct (Req_dec (lab i) 0%R) as [Z|NZ]; [rewrite Z; lra|]. specialize (Hl i Hi NZ).
    destruct (damped_share eps n y i (proj1 He) ltac:(lia)) as (_ & Dp & Ge & Le & Sp).
    assert (De : (eps <= damped eps n y i)%R) by nra. rewrite Rmax_right by exact De.
    assert (ln (damped eps n y i) <= ln (share n y i))%R by (destruct Le as [Le|Le]; [left; now apply ln_increasing|right; now rewrite Le]).
    assert (ln (share n y i) <= ln (damped eps n y i) + eps)%R.
    { apply Rle_trans with (ln (damped eps n y i * (1 + eps))).
      - destruct Ge as [Ge|Ge]; [left; now apply ln_increasing|right; now rewrite Ge].
      - rewrite ln_mult by lra. apply Rplus_le_compat_l. apply Rle_trans with (ln (exp eps)); [|rewrite ln_exp; lra].
        destruct (Rle_lt_or_eq_dec _ _ (exp_ineq1_le eps)) as [L|E]; [left; apply ln_increasing; lra|right; now rewrite E]. }
    split; nra. }
  assert (Le : forall m f g, (forall i, i < m -> (f i <= g i)%R) -> (rsum (tab m f) <= rsum (tab m g))%R).
  { intros m f g Hfg. induction m as [|m IH]; [cbn; lra|]. rewrite !tab_snoc, !rsum_app. cbn [rsum]. specialize (IH ltac:(intros; apply Hfg; lia)). specialize (Hfg m ltac:(lia)). lra. }
  assert (Sum : rsum (tab (rows * n) (fun i => eps * lab i)%R) = (eps * INR rows)%R).
  { rewrite <- rsum_scal. f_equal. rewrite tab_mul, rsum_tab2. rewrite (rsum_tab_ext rows _ (fun _ => 1%R)); [rewrite rsum_tab_const; ring|].
    intros r Hr. exact (labels_sum eps smooth rows n target r Hn H Hr). }
  pose proof (Le (rows * n) _ _ (fun i Hi => proj1 (Key i Hi))) as A1. pose proof (Le (rows * n) _ _ (fun i Hi => proj2 (Key i Hi))) as A2.
  rewrite rsum_tab_plus, Sum in A2. unfold reported, entropy. unfold Rdiv.
  split; apply Rmult_le_compat_r; try (left; now apply Rinv_0_lt_compat); lra.
Qed.
Print Assumptions C60_value.

(** One sample with two scores a, b, which are a variable, and targets c, d. *)
Module Pair.
Definition out : expr R := EVar 0.
Definition s (a b c d : R) : st R :=
  St [[a; b]; [7; 7]; [c; d]]%R (fun _ => None) (fun _ => Obj None None None) (fun _ => VObj true true 0%R 0%R)
     (fun _ => VState (mkT [1; 2] 0) (mkT [1; 2] 1)) (fun _ => Some (mkT [1; 2] 2)) (fun _ => None) (fun _ _ => None) true [].
Definition who (r : nat) : owner := match r with 1 => OGrad 0 | _ => OLeaf end.
Lemma only k x : At out k x -> x = EVar 0 /\ k = None.
Proof. intros H. apply At_all in H. cbn in H. destruct H as [H|[]]. injection H as <- <-. auto. Qed.

Lemma step dbg eps smooth a b c d : (0 < eps)%R -> 
  trained dbg eps (cross_entropy_loss dbg eps smooth 0 (EHold 0) out) out (s a b c d) who 2
    (reported eps 1 1 2 (fun i => given eps smooth 2 (nth i [c; d]%R 0%R)) (fun i => nth i [a; b]%R 0%R)) [c; d]%R
    (fun y => logits 1 2 (fun i => given eps smooth 2 (nth i [c; d]%R 0%R)) (entry y)) (within eps (s a b c d) out 2).
Proof.
  intros He. apply (C60_training dbg eps smooth 0 0 1 2 1 (mkT [1; 2] 2) out (s a b c d) who [c; d]%R [a; b]%R); try reflexivity.
  - exact He.
  - split; [discriminate|]. split; [constructor|]. split; [|split].
    + intros k x H _. destruct (only k x H) as [-> _]. eexists. split; [reflexivity|]. split; [reflexivity|discriminate].
    + intros k n l r H. destruct (only _ _ H) as [E _]. discriminate E.
    + intros k n l r H. destruct (only _ _ H) as [E _]. discriminate E.
  - split; [|split; [|split; [|split]]]; try discriminate.
    + intros k v H. destruct (only _ _ H) as [E _]. injection E as ->. cbn. repeat split. lia.
    + intros k q t H. destruct (only _ _ H) as [E _]. discriminate E.
    + intros k t H. destruct (only _ _ H) as [E _]. discriminate E.
  - intros k v H. split; reflexivity.
  - split; intros *; intros H; destruct (only _ _ H) as [E _]; discriminate E.
  - cbn. repeat constructor; cbn; intuition discriminate.
  - exists [1], [2]. repeat split.
Qed.

Lemma nudged a b c d x : evalR (nudge (env_of (s a b c d)) 0 0 x) out = Some ([1; 2], [x; b]%R).
Proof. reflexivity. Qed.

Lemma gradient dbg eps smooth a b c d : (0 < eps)%R -> exists t s1 s2,
  let loss := cross_entropy_loss dbg eps smooth 0 (EHold 0) out in
  run 0%R 1%R Rplus Rmult dbg loss (s a b c d) = Ok (t, s1) /\ backs 0%R 1%R Rplus Rmult Ropp rleb eps dbg loss [([1], [1%R])] s1 = Ok (tt, s2) /\
  (forall x, cost eps (vobjs (s a b c d)) 0 (uses None loss) x = 0%R) /\
  (Rabs (nth 0 (grad_of s2 0) 0 - (exp a / (exp a + exp b) - given eps smooth 2 c)) <= eps)%R.
Proof.
  intros He. destruct (step dbg eps smooth a b c d He) as (t & s1 & s2 & who2 & R1 & _ & R2 & G & _).
  exists t, s1, s2. cbv zeta. split; [exact R1|]. split; [exact R2|].
  assert (C : forall x, cost eps (vobjs (s a b c d)) 0 (uses None (cross_entropy_loss dbg eps smooth 0 (EHold 0) out)) x = 0%R).
  { intros x. unfold cost. cbn [uses cross_entropy_loss out app map snd fst Nat.eqb rsum]. unfold cost1. cbn [s vobjs l1 l2]. unfold rleb.
    destruct (Rle_dec eps 0); [lra|]. ring. }
  split; [exact C|].
  destruct (G (Some (0, true)) 0 0) as (l & D & (dy & Dy & E)).
  { eapply At_right. apply At_root. } { reflexivity. } { cbn. lia. } { right. intros k' _. cbn. exact He. }
  cbn [data_of s vars vdata ref hp nth] in D, Dy.
  assert (D0 : dy 0 = 1%R).
  { refine (eq_trans (eq_sym (is_derive_unique _ _ _ (Dy 0 ltac:(lia)))) _). apply is_derive_unique.
    apply (is_derive_ext (fun x : R => x)); [reflexivity|]. exact (is_derive_id a). }
  assert (D1 : dy 1 = 0%R).
  { refine (eq_trans (eq_sym (is_derive_unique _ _ _ (Dy 1 ltac:(lia)))) _). apply is_derive_unique.
    apply (is_derive_ext (fun x : R => b)); [reflexivity|]. exact (is_derive_const b a). }
  assert (El : l = (exp a / (exp a + exp b) - given eps smooth 2 c)%R).
  { refine (eq_trans (eq_sym (is_derive_unique _ _ _ D)) _). apply is_derive_unique.
    assert (Pa := exp_pos a). assert (Pb := exp_pos b).
    apply (is_derive_ext (fun x : R => (ln (exp x + exp b) - (given eps smooth 2 c * x + given eps smooth 2 d * b))%R)).
    - intros x. rewrite C, nudged. unfold logits, row_exp, tab. cbn [seq map rsum entry snd Nat.mul Nat.add nth].
      match goal with |- ?a = ?b => change (@eq R a b) end. rewrite !Rplus_0_r. ring.
    - AutoDerive.auto_derive; [lra|]. field. lra. }
  rewrite El in E. eapply Rle_trans; [exact E|]. unfold tab. cbn [seq map rsum]. rewrite D0, D1, Rabs_R1, Rabs_R0. lra.
Qed.
End Pair.

(** Targets that are probabilities rather than labels are not supported: with targets 1/2, 1/2 and equal scores the cross entropy of the
    targets is at its minimum, and yet the gradient is about -1/2 (both targets count as 1). *)
Theorem C60_soft_labels_refuted : exists out s n p t s1 s2,
  let loss := cross_entropy_loss true (1 / 100) 0 n (EHold p) out in
  run 0%R 1%R Rplus Rmult true loss s = Ok (t, s1) /\ backs 0%R 1%R Rplus Rmult Ropp rleb (1 / 100)%R true loss [([1], [1%R])] s1 = Ok (tt, s2) /\
  (forall x, cost (1 / 100)%R (vobjs s) 0 (uses None loss) x = 0%R) /\
  e_hold (env_of s) p = Some ([1; 2], [1 / 2; 1 / 2]%R) /\
  is_derive (fun x => entropy 1 2 (fun _ => 1 / 2)%R (entry (evalR (nudge (env_of s) 0 0 x) out))) (nth 0 (data_of s 0) 0%R) 0%R /\
  (nth 0 (grad_of s2 0) 0 <= - 1 / 4)%R.
Proof.
  destruct (Pair.gradient true (1 / 100) 0 0 0 (1 / 2) (1 / 2) ltac:(lra)) as (t & s1 & s2 & R1 & R2 & C & E).
  exists Pair.out, (Pair.s 0 0 (1 / 2) (1 / 2)), 0, 0, t, s1, s2. cbv zeta. split; [exact R1|]. split; [exact R2|]. split; [exact C|]. split; [reflexivity|]. split.
  - cbn [data_of Pair.s vars vdata ref hp nth].
    apply (is_derive_ext (fun x : R => (- (1 / 2 * ln (exp x / (exp x + exp 0)) + 1 / 2 * ln (exp 0 / (exp x + exp 0))))%R)).
    + intros x. rewrite Pair.nudged. unfold entropy, share, row_exp, tab. cbn [seq map rsum entry snd Nat.mul Nat.add nth].
      change (0 / 2) with 0. change (1 / 2) with 0. cbn [Nat.mul Nat.add nth].
      match goal with |- ?a = ?b => change (@eq R a b) end. rewrite !Rplus_0_r. reflexivity.
    + assert (P0 := exp_pos 0). AutoDerive.auto_derive.
      * assert (forall u v, 0 < u -> 0 < v -> 0 < u * / v)%R by (intros u v Hu Hv; apply Rdiv_lt_0_compat; assumption). repeat split; try lra; apply H; lra.
      * rewrite exp_0. field.
  - unfold given in E. destruct (Rlt_dec (1 / 100) (1 / 2)); [|lra]. rewrite exp_0 in E. apply Rabs_le_between in E. lra.
Qed.
Print Assumptions C60_soft_labels_refuted.

(** Where the softmax of the labelled element is below eps the value does not move with the scores any more, but the gradient is as if it
    did. *)
Theorem C60_cut_off_refuted : exists out s n p t s1 s2,
  let loss := cross_entropy_loss true (1 / 100) 0 n (EHold p) out in
  run 0%R 1%R Rplus Rmult true loss s = Ok (t, s1) /\ backs 0%R 1%R Rplus Rmult Ropp rleb (1 / 100)%R true loss [([1], [1%R])] s1 = Ok (tt, s2) /\
  (forall x, cost (1 / 100)%R (vobjs s) 0 (uses None loss) x = 0%R) /\
  is_derive (fun x => paired [1%R] (evalR (nudge (env_of s) 0 0 x) loss)) (nth 0 (data_of s 0) 0%R) 0%R /\
  (nth 0 (grad_of s2 0) 0 <= - 1 / 2)%R.
Proof.
  destruct (Pair.gradient true (1 / 100) 0 0 10 1 0 ltac:(lra)) as (t & s1 & s2 & R1 & R2 & C & E).
  exists Pair.out, (Pair.s 0 10 1 0), 0, 0, t, s1, s2. cbv zeta. split; [exact R1|]. split; [exact R2|]. split; [exact C|].
  assert (E9 : (100 < exp 9)%R).
  { replace 9%R with (1 + 1 + 1 + 1 + 1 + 1 + 1 + 1 + 1)%R by ring. rewrite !exp_plus. pose proof (exp_ineq1 1 ltac:(lra)) as H. set (z := exp 1) in *.
    assert (4 < z * z)%R by nra. assert (16 < z * z * z * z)%R by nra. assert (256 < z * z * z * z * z * z * z * z)%R by nra. nra. }
  split.
  - cbn [data_of Pair.s vars vdata ref hp nth].
    apply (is_derive_ext_loc (fun x : R => (- ln (1 / 100))%R)); [|exact (is_derive_const (V := R_NormedModule) _ 0%R)].
    apply (locally_interval _ 0%R m_infty 1%R); [exact I|cbn; lra|]. intros x _ Hx. cbn in Hx.
    assert (Ev : evalR (nudge (env_of (Pair.s 0 10 1 0)) 0 0 x) (cross_entropy_loss true (1 / 100) 0 0 (EHold 0) Pair.out) =
      xent_forward true (1 / 100) 0 ([1; 2], [1; 0]%R) ([1; 2], [x; 10]%R)) by reflexivity.
    rewrite Ev, (xent_forward_at true (1 / 100) ltac:(lra) 0 [1; 2] 1 [1] 2 [1; 0]%R [x; 10]%R eq_refl (ex_intro _ [2] eq_refl) eq_refl eq_refl ltac:(discriminate)).
    cbn [paired snd]. unfold inner. cbn [map2 rsum]. unfold reported, tab. cbn [prod fold_right Nat.mul Nat.add seq map rsum nth].
    assert (G1 : given (1 / 100) 0 2 1 = 1%R) by (unfold given; destruct (Rlt_dec (1 / 100) 1); lra).
    assert (G0 : given (1 / 100) 0 2 0 = 0%R) by (unfold given; destruct (Rlt_dec (1 / 100) 0); [lra|cbn; field]).
    rewrite G1, G0. rewrite Rmax_left; [cbn [INR]; match goal with |- ?a = ?b => change (@eq R a b) end; field|].
    unfold damped, row_exp, tab. change (0 / 2) with 0. cbn [Nat.mul Nat.add seq map rsum nth]. set (M := exp (largest _ _ _)).
    assert (Mp : (0 < M)%R) by apply exp_pos. assert (Px := exp_pos x).
    assert (E10 : (exp x * 100 < exp 10)%R).
    { apply Rlt_trans with (exp 1 * 100)%R; [apply Rmult_lt_compat_r; [lra|now apply exp_increasing]|]. replace 10%R with (1 + 9)%R by ring. rewrite exp_plus.
      apply Rmult_lt_compat_l; [apply exp_pos|exact E9]. }
    apply (Rmult_le_reg_r (exp x + (exp 10 + 0) + 1 / 100 * M)); [lra|]. unfold Rdiv at 1. rewrite Rmult_assoc, Rinv_l by lra. lra.
  - unfold given in E. destruct (Rlt_dec (1 / 100) 1); [|lra]. rewrite exp_0 in E. apply Rabs_le_between in E.
    assert (E10 : (100 < exp 10)%R) by (apply Rlt_trans with (exp 9); [exact E9|apply exp_increasing; lra]).
    assert (1 / (1 + exp 10) < 1 / 100)%R. { unfold Rdiv. rewrite !Rmult_1_l. apply Rinv_lt_contravar; nra. }
    lra.
Qed.
Print Assumptions C60_cut_off_refuted.

(** The layer of LossProps.Case, compared with the label 0 1; and label smoothing for two rows of three. *)
Module Case.
Import LossProps.Case.
Definition s1 : st R := set_hp s [[1; 2]; [3; 5; 0; -1]; [1; 1]; [0; 0; 0; 0]; [7; 7]; [0; 1]]%R.

Example C60_case dbg eps : dbg = true -> (0 < eps < 1)%R ->
  trained dbg eps (cross_entropy_loss dbg eps 0 2 (EHold 1) affine) affine s1 who 5
    (reported eps 1 1 2 (fun i => given eps 0 2 (nth i [0; 1]%R 0%R)) (fun i => nth i [0 + 1 * 3 + 2 * 0 + 1; 0 + 1 * 5 + 2 * -1 + 1]%R 0%R)) [0; 1]%R
    (fun y => entropy 1 2 (fun i => given eps 0 2 (nth i [0; 1]%R 0%R)) (entry y)) (within eps s1 affine 2).
Proof.
  intros -> He.
  assert (SL : same_leaves 0%R 1%R Rplus Rmult (env_of s) (env_of s1) affine).
  { intros k x H L. at_cases H; injection H as <- <-; try discriminate L; reflexivity. }
  apply (C60_one_hot true eps 0 2 1 1 2 1 (mkT [1; 2] 5) affine s1 who [0; 1]%R); try reflexivity.
  - lra.
  - split; [discriminate|]. split; [repeat constructor; cbn; intuition discriminate|].
    destruct affine_trainable as (_ & _ & Z & D & L). split; [exact (sizes_same _ _ _ _ _ _ _ SL Z)|]. split; [exact (disciplined_same _ _ _ _ _ _ _ SL D)|exact (legible_same _ _ _ _ _ _ _ SL L)].
  - exact affine_separate.
  - intros k v Hk. at_cases Hk; injection Hk as <- <-; split; reflexivity.
  - exact (right_same _ _ _ _ SL affine_right).
  - cbn. repeat constructor; cbn; intuition discriminate.
  - exists [1], [2]. repeat split.
  - intros r Hr. exists 1. assert (r = 0) by lia. subst r. cbn. split; [lia|]. split; [lra|]. intros i Hi Ni. assert (i = 0) by lia. subst i. cbn. lra.
Qed.

Example C60_value_case y eps : (forall i, (0 <= y i <= 1)%R) -> (0 < eps <= 1 / 100)%R ->
  let lab := fun i => given eps (1 / 10) 3 (nth i [0; 1; 0; 1; 0; 0]%R 0%R) in
  (entropy 2 3 lab y / INR 2 <= reported eps 2 2 3 lab y <= (entropy 2 3 lab y + eps * INR 2) / INR 2)%R.
Proof.
  intros Hy He. apply (C60_value eps (1 / 10) 2 2 3 (fun i => nth i [0; 1; 0; 1; 0; 0]%R 0%R)); try lra; try lia.
  - intros r Hr. destruct r as [|[|r]]; [exists 1|exists 0|lia]; (split; [lia|]; split; [cbn; lra|]); intros i Hi Ni; destruct i as [|[|[|i]]]; try lia; cbn; lra.
  - intros i _ _. unfold share, row_exp, tab. cbn [seq map rsum]. set (r := i / 3).
    assert (B : forall j, (1 <= exp (y j) <= 3)%R).
    { intros j. specialize (Hy j). split.
      - rewrite <- exp_0. destruct (proj1 Hy) as [L|E]; [left; now apply exp_increasing|right; now rewrite E].
      - apply Rle_trans with (exp 1); [|exact exp_le_3]. destruct (proj2 Hy) as [L|E]; [left; now apply exp_increasing|right; now rewrite E]. }
    pose proof (B i). pose proof (B (r * 3 + 0)). pose proof (B (r * 3 + 1)). pose proof (B (r * 3 + 2)).
    set (z := (exp (y (r * 3 + 0)%nat) + (exp (y (r * 3 + 1)%nat) + (exp (y (r * 3 + 2)%nat) + 0)))%R) in *.
    apply (Rmult_le_reg_r z); [unfold z; lra|]. replace (exp (y i) / z * z)%R with (exp (y i)) by (field; unfold z; lra). assert (z <= 9)%R by (unfold z; lra). nra.
Qed.
End Case.
