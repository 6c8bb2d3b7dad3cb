(** Property C63: batch normalisation. *)
From Coq Require Import List Arith Lia Bool PeanoNat Reals Lra.
From Coquelicot Require Import Rcomplements Hierarchy Derive.
From Verif Require Import ListBase TensorModel ArrayModel LayerSpec LayerProofs NormModel NormSpec NormProofs.
Import ListNotations.
Local Open Scope nat_scope.

(** the batches of the training runs among some uses *)
Fixpoint trained_on (us : list use) : list (arr R) := match us with [] => [] | Train x :: us => x :: trained_on us | _ :: us => trained_on us end.
(** the first forward pass is a training run *)
Fixpoint trained_first (us : list use) : bool := match us with [] => false | Train _ :: _ => true | Predict _ :: _ => false | Back _ _ :: us => trained_first us end.
(** all forward passes get batches with ch channels *)
Definition batches (ch : nat) (us : list use) : Prop := Forall (fun u => match u with Train x | Predict x => batch ch x | Back _ _ => True end) us.
Definition forward_only (us : list use) : Prop := Forall (fun u => match u with Back _ _ => False | _ => True end) us.

Lemma affine_sum n m q (h : nat -> R) : rsum (tab n (fun j => m + h j * q)%R) = (INR n * m + rsum (tab n h) * q)%R.
Proof. induction n as [|n IH]; [cbn; ring|]. rewrite !tab_snoc, !rsum_app, IH, S_INR. cbn [rsum]. ring. Qed.

Section Norm.
Variables (dbg : bool) (eps p : R) (ch : nat).
Notation uses := (uses dbg eps p).

Lemma uses_knows us : batches ch us -> forall xs s rs s', knows p ch xs s -> uses us s = Ok (rs, s') -> knows p ch (xs ++ trained_on us) s'.
Proof.
  induction 1 as [|u us Hu Hus IH]; intros xs s rs s' K E; cbn [NormModel.uses] in E; [injection E as _ <-; cbn; now rewrite app_nil_r|].
  unfold obind in E. destruct (use1 dbg eps p u s) as [[y s1]| |] eqn:E1; try discriminate E. cbn [fst snd] in E.
  destruct (uses us s1) as [[rs2 s2]| |] eqn:E2; try discriminate E. injection E as _ <-. destruct u as [x|x|x g]; cbn [use1 trained_on] in *.
  - destruct (train_next dbg eps p ch xs x s Hu K) as (y' & s1' & T & _ & K' & _). rewrite T in E1. injection E1 as _ <-.
    replace (xs ++ x :: trained_on us) with ((xs ++ [x]) ++ trained_on us) by (rewrite <- app_assoc; reflexivity). exact (IH _ _ _ _ K' E2).
  - destruct (predict_knows dbg eps p ch xs x s Hu K) as (y' & P & _). rewrite P in E1. injection E1 as _ <-. exact (IH _ _ _ _ K E2).
  - destruct (back_keeps _ _ _ _ _ _ E1) as (Ka & Kv & _). refine (IH _ _ _ _ _ E2). destruct K as (ga & gv & K1 & K2 & K3). exists ga, gv. rewrite Ka, Kv. auto.
Qed.
Lemma uses_stuck us : batches ch us -> forall s rs s', global_average s = Some [] -> uses us s = Ok (rs, s') -> global_average s' = Some [].
Proof.
  induction 1 as [|u us Hu Hus IH]; intros s rs s' K E; cbn [NormModel.uses] in E; [injection E as _ <-; exact K|].
  unfold obind in E. destruct (use1 dbg eps p u s) as [[y s1]| |] eqn:E1; try discriminate E. cbn [fst snd] in E.
  destruct (uses us s1) as [[rs2 s2]| |] eqn:E2; try discriminate E. injection E as _ <-. refine (IH _ _ _ _ E2). destruct u as [x|x|x g]; cbn [use1] in *.
  - destruct (train_stuck dbg eps p ch x s Hu K) as (y' & s1' & T & _ & K' & _). rewrite T in E1. injection E1 as _ <-. exact K'.
  - destruct (predict_empty dbg eps ch x s Hu (or_intror K)) as (s1' & P & K' & _). rewrite P in E1. injection E1 as _ <-. exact K'.
  - destruct (back_keeps _ _ _ _ _ _ E1) as (Ka & _). congruence.
Qed.
(** all the states a program can reach *)
Lemma uses_states us : batches ch us -> forall s rs s', global_average s = None -> global_variance s = None -> uses us s = Ok (rs, s') ->
  (trained_first us = true /\ knows p ch (trained_on us) s') \/ (trained_first us = false /\ ((global_average s' = None /\ global_variance s' = None) \/ global_average s' = Some [])).
Proof.
  induction 1 as [|u us Hu Hus IH]; intros s rs s' K1 K2 E; cbn [NormModel.uses] in E; [injection E as _ <-; auto|].
  unfold obind in E. destruct (use1 dbg eps p u s) as [[y s1]| |] eqn:E1; try discriminate E. cbn [fst snd] in E.
  destruct (uses us s1) as [[rs2 s2]| |] eqn:E2; try discriminate E. injection E as _ <-. destruct u as [x|x|x g]; cbn [use1 trained_first trained_on] in *.
  - left. split; [reflexivity|]. destruct (train_first dbg eps p ch x s Hu K1 K2) as (y' & s1' & T & _ & K' & _). rewrite T in E1. injection E1 as _ <-. exact (uses_knows us Hus [x] _ _ _ K' E2).
  - right. split; [reflexivity|]. right. destruct (predict_empty dbg eps ch x s Hu (or_introl K1)) as (s1' & P & K' & _). rewrite P in E1. injection E1 as _ <-. exact (uses_stuck us Hus _ _ _ K' E2).
  - destruct (back_keeps _ _ _ _ _ _ E1) as (Ka & Kv & _). apply (IH s1 rs2); congruence.
Qed.
End Norm.

(** C63.  A training run, whatever the operator has been used for before, standardises every channel of its batch: mean 0, mean of squares
    v / (v + eps) for the variance v of the channel. *)
Theorem C63_training dbg eps p ch us rs s x : (0 < eps)%R -> batches ch us -> uses dbg eps p us fresh_norm = Ok (rs, s) -> batch ch x ->
  exists y s', train dbg eps p x s = Ok (y, s') /\ ashape y = ashape x /\ length (adata y) = length (adata x) /\
    forall c, c < ch -> let l := channel ch c x in let z := channel ch c y in
      z = map (fun v => (v - mean l) / sqrt (var l + eps))%R l /\ mean z = 0%R /\ mean (map (fun v => v * v)%R z) = (var l / (var l + eps))%R.
Proof.
  intros He Hb E B.
  assert (H : exists y s', train dbg eps p x s = Ok (y, s') /\ own_output eps ch x y).
  { destruct (uses_states dbg eps p ch us Hb fresh_norm rs s eq_refl eq_refl E) as [[_ K]|[_ [[K1 K2]|K]]].
    - destruct (train_next dbg eps p ch _ x s B K) as (y & s' & T & O & _). eauto.
    - destruct (train_first dbg eps p ch x s B K1 K2) as (y & s' & T & O & _). eauto.
    - destruct (train_stuck dbg eps p ch x s B K) as (y & s' & T & O & _). eauto. }
  destruct H as (y & s' & T & O1 & O2 & O3). exists y, s'. split; [exact T|]. split; [exact O1|]. split; [exact O2|]. intros c Hc l z.
  assert (Nl : l <> []). { intros El. apply (f_equal (@length R)) in El. unfold l in El. rewrite channel_length in El. cbn in El. apply (batch_facts ch x B). exact El. }
  assert (Ez : z = scaled eps (mean l) (var l) l) by (now apply O3). rewrite Ez. split; [reflexivity|]. split; [now apply scaled_mean|now apply scaled_spread].
Qed.
Print Assumptions C63_training.

(** C63.  A prediction standardises by moving averages of the training batches' means and variances, which start at 0, if the first
    forward pass ever was a training run; otherwise it returns its input, however much training there was afterwards. *)
Theorem C63_prediction dbg eps p ch us rs s x : batches ch us -> uses dbg eps p us fresh_norm = Ok (rs, s) -> batch ch x ->
  exists y s', predict dbg eps x s = Ok (y, s') /\ ashape y = ashape x /\ length (adata y) = length (adata x) /\
    if trained_first us
    then forall c, c < ch -> channel ch c y =
           map (fun v => (v - moving p (fun b => mean (channel ch c b)) (trained_on us)) / sqrt (moving p (fun b => var (channel ch c b)) (trained_on us) + eps))%R (channel ch c x)
    else y = x.
Proof.
  intros Hb E B. destruct (uses_states dbg eps p ch us Hb fresh_norm rs s eq_refl eq_refl E) as [[-> K]|[-> K]].
  - destruct (predict_knows dbg eps p ch _ x s B K) as (y & P & P1 & P2 & P3). exists y, s. auto.
  - destruct (predict_empty dbg eps ch x s B) as (s' & P & _); [tauto|]. exists x, s'. auto.
Qed.
Print Assumptions C63_prediction.

(** No sequence of forward passes fails. *)
Theorem C63_never_fails dbg eps p ch us : batches ch us -> forward_only us -> exists rs s, uses dbg eps p us fresh_norm = Ok (rs, s).
Proof.
  assert (G : forall us, batches ch us -> forward_only us -> forall s, (global_average s = None /\ global_variance s = None) \/ global_average s = Some [] \/ (exists xs, knows p ch xs s) ->
              exists rs s', uses dbg eps p us s = Ok (rs, s')).
  { clear us. induction 1 as [|u us Hu Hus IH]; intros F s Hs; [now eexists _, _|]. inversion F as [|? ? Fu Fus]; subst. cbn [NormModel.uses]. unfold obind.
    destruct u as [x|x|x g]; [| |easy]; cbn [use1].
    - assert (H : exists y s', train dbg eps p x s = Ok (y, s') /\ ((global_average s' = None /\ global_variance s' = None) \/ global_average s' = Some [] \/ exists xs, knows p ch xs s')).
      { destruct Hs as [[K1 K2]|[K|[xs K]]].
        - destruct (train_first dbg eps p ch x s Hu K1 K2) as (y & s' & T & _ & K' & _). eauto 7.
        - destruct (train_stuck dbg eps p ch x s Hu K) as (y & s' & T & _ & K' & _). eauto 7.
        - destruct (train_next dbg eps p ch xs x s Hu K) as (y & s' & T & _ & K' & _). eauto 7. }
      destruct H as (y & s' & -> & H). cbn [fst snd]. destruct (IH Fus s' H) as (rs & s2 & ->). now eexists _, _.
    - assert (H : exists y s', predict dbg eps x s = Ok (y, s') /\ ((global_average s' = None /\ global_variance s' = None) \/ global_average s' = Some [] \/ exists xs, knows p ch xs s')).
      { destruct Hs as [[K1 _]|[K|[xs K]]].
        - destruct (predict_empty dbg eps ch x s Hu (or_introl K1)) as (s' & P & K' & _). eauto 7.
        - destruct (predict_empty dbg eps ch x s Hu (or_intror K)) as (s' & P & K' & _). eauto 7.
        - destruct (predict_knows dbg eps p ch xs x s Hu K) as (y & P & _). eauto 7. }
      destruct H as (y & s' & -> & H). cbn [fst snd]. destruct (IH Fus s' H) as (rs & s2 & ->). now eexists _, _. }
  intros Hb F. apply G; auto.
Qed.
Print Assumptions C63_never_fails.

(** Training k times on one batch: the moving averages are 1 - p^k times its statistics. *)
Lemma moving_same {X} p (f : X -> R) x k : moving p f (repeat x k) = ((1 - p ^ k) * f x)%R.
Proof. induction k as [|k IH]; [unfold moving; cbn; ring|]. cbn [repeat]. rewrite repeat_cons, moving_snoc, IH. cbn [pow]. ring. Qed.

Theorem C63_same_batch dbg eps p ch x k : batch ch x -> 0 < k ->
  exists rs s y s', uses dbg eps p (repeat (Train x) k) fresh_norm = Ok (rs, s) /\ predict dbg eps x s = Ok (y, s') /\
    forall c, c < ch -> let l := channel ch c x in
      channel ch c y = map (fun v => (v - (1 - p ^ k) * mean l) / sqrt ((1 - p ^ k) * var l + eps))%R l.
Proof.
  intros B Hk.
  assert (Hb : batches ch (repeat (Train x) k)) by (apply Forall_forall; intros u Hu; apply repeat_spec in Hu; now subst u).
  assert (Hf : forward_only (repeat (Train x) k)) by (apply Forall_forall; intros u Hu; apply repeat_spec in Hu; now subst u).
  destruct (C63_never_fails dbg eps p ch _ Hb Hf) as (rs & s & E). destruct (C63_prediction dbg eps p ch _ rs s x Hb E B) as (y & s' & P & _ & _ & H).
  exists rs, s, y, s'. split; [exact E|]. split; [exact P|]. destruct k as [|k]; [lia|]. change (trained_first (repeat (Train x) (S k))) with true in H. intros c Hc l. rewrite (H c Hc).
  assert (T : trained_on (repeat (Train x) (S k)) = repeat x (S k)) by (generalize (S k); intros m; induction m as [|m IH]; [reflexivity|cbn; now rewrite IH]).
  rewrite T, !moving_same. reflexivity.
Qed.
Print Assumptions C63_same_batch.

(** C63, backward.  After a training run on x, backward divides the gradient of channel c by sqrt(v + eps), as if mean and variance did not
    depend on x.  The derivative of sum g_i y_i is another one, and the two agree exactly when the gradient of the channel has sum 0 and is
    orthogonal to the channel's output. *)
Definition channel_loss (eps : R) (g l : list R) : R := inner g (map (fun v => (v - mean l) / sqrt (var l + eps))%R l).

Theorem C63_gradient dbg eps p ch us rs s x g y s1 : (0 < eps)%R -> batches ch us -> uses dbg eps p us fresh_norm = Ok (rs, s) -> batch ch x ->
  train dbg eps p x s = Ok (y, s1) -> ashape g = ashape x -> length (adata g) = length (adata x) ->
  (backward_cache s = None \/ exists a, backward_cache s = Some a /\ ashape a = ashape x /\ length (adata a) = length (adata x)) ->
  exists a s2, back eps x g s1 = Ok (a, s2) /\ ashape a = ashape x /\ length (adata a) = length (adata x) /\
    forall c, c < ch -> let l := channel ch c x in let gl := channel ch c g in let yl := channel ch c y in let w := sqrt (var l + eps) in
      channel ch c a = map (fun v => v / w)%R gl /\
      (forall j, j < length l -> is_derive (fun t => channel_loss eps gl (upd l j t)) (nth j l 0%R) ((nth j gl 0 - mean gl - nth j yl 0 * (inner gl yl / INR (length l))) / w)%R) /\
      ((forall j, j < length l -> is_derive (fun t => channel_loss eps gl (upd l j t)) (nth j l 0%R) (nth j (channel ch c a) 0%R)) <-> rsum gl = 0%R /\ inner gl yl = 0%R).
Proof.
  intros He Hb E B T Sg Lg Hc0.
  assert (H : own_output eps ch x y /\ keeps_variance ch x s1 /\ backward_cache s1 = backward_cache s).
  { destruct (uses_states dbg eps p ch us Hb fresh_norm rs s eq_refl eq_refl E) as [[_ K]|[_ [[K1 K2]|K]]].
    - destruct (train_next dbg eps p ch _ x s B K) as (y' & s' & T' & O & _ & V & C). rewrite T in T'. injection T' as <- <-. auto.
    - destruct (train_first dbg eps p ch x s B K1 K2) as (y' & s' & T' & O & _ & V & C). rewrite T in T'. injection T' as <- <-. auto.
    - destruct (train_stuck dbg eps p ch x s B K) as (y' & s' & T' & O & _ & V & C). rewrite T in T'. injection T' as <- <-. auto. }
  destruct H as ((_ & Ly & Oy) & (v & Ev & Lv & Hv) & Cb). destruct (batch_facts ch x B) as (_ & _ & _ & Nc & Lx & Nr & Lp).
  set (n := rows ch x) in *.
  unfold back. rewrite Ev, (with_channels_batch ch x B). fold n. set (a0 := match backward_cache s1 with Some a => a | None => _ end).
  assert (A0 : ashape a0 = ashape x /\ length (adata a0) = length (adata x)).
  { unfold a0. rewrite Cb. destruct Hc0 as [->|(a & -> & H1 & H2)]; [|auto]. cbn. now rewrite repeat_length, Lp. }
  destruct A0 as [A1 A2]. rewrite A2, Lg, Lv, <- Lx, !Nat.ltb_irrefl. cbn [orb]. rewrite skipn_all2 by lia. rewrite app_nil_r.
  eexists _, _. split; [reflexivity|]. split; [exact A1|]. split; [cbn [adata]; rewrite tab2_length; lia|]. intros c Hc. set (l := channel ch c x) in *. set (gl := channel ch c g) in *. set (yl := channel ch c y) in *. set (w := sqrt (var l + eps)) in *.
  assert (Eg : length gl = n) by (unfold gl, channel; rewrite tab_length, Lg; reflexivity).
  assert (El : length l = n) by apply channel_length.
  assert (Ey : yl = scaled eps (mean l) (var l) l) by (now apply Oy).
  assert (Ea : channel ch c (Arr (ashape a0) (tab2 n ch (fun r c => cell (adata g) ch r c / sqrt (nth c v 0 + eps))%R)) = map (fun v => v / w)%R gl).
  { unfold gl, channel. cbn [adata]. rewrite tab2_length, Lg, <- Lx, map_tab. fold (rows ch x). fold n. apply tab_ext. intros r Hr. rewrite nth_tab2 by assumption. rewrite Hv by exact Hc. reflexivity. }
  assert (Nl : l <> []) by (intros E0; rewrite E0 in El; cbn in El; lia). pose proof (INR_len l Nl) as N0. pose proof (var_nonneg l Nl) as V0.
  assert (W0 : (0 < w)%R) by (apply sqrt_lt_R0; lra).
  assert (D : forall j, j < length l -> is_derive (fun t => channel_loss eps gl (upd l j t)) (nth j l 0%R) ((nth j gl 0 - mean gl - nth j yl 0 * (inner gl yl / INR (length l))) / w)%R).
  { intros j Hj. rewrite Ey. apply channel_derivative; [exact He|lia|exact Hj]. }
  split; [exact Ea|]. split; [exact D|]. rewrite Ea.
  assert (Na : forall j, j < length l -> nth j (map (fun v => v / w)%R gl) 0%R = (nth j gl 0 / w)%R).
  { intros j Hj. rewrite (nth_indep _ 0%R ((fun v => v / w)%R 0%R)) by (rewrite map_length; lia). now rewrite (map_nth (fun v => v / w)%R). }
  assert (Mg : mean gl = (rsum gl / INR (length l))%R) by (unfold mean; now rewrite Eg, El).
  split.
  - intros H. assert (Q : forall j, j < length l -> (mean gl + nth j yl 0 * (inner gl yl / INR (length l)) = 0)%R).
    { intros j Hj. pose proof (is_derive_unique _ _ _ (H j Hj)) as U1. pose proof (is_derive_unique _ _ _ (D j Hj)) as U2. rewrite U1, Na in U2 by exact Hj.
      apply (f_equal (Rmult w)) in U2. unfold Rdiv in U2. rewrite <- !(Rmult_comm (/ w)), <- !Rmult_assoc, Rinv_r, !Rmult_1_l in U2 by lra. unfold Rdiv. lra. }
    assert (My : rsum yl = 0%R).
    { pose proof (scaled_mean eps l Nl) as M0. rewrite <- Ey in M0. unfold mean in M0. assert (Lyl : length yl = length l) by (rewrite Ey; apply map_length). rewrite Lyl in M0. unfold Rdiv in M0.
      apply Rmult_integral in M0. destruct M0 as [M0|M0]; [exact M0|]. exfalso. apply (Rinv_neq_0_compat (INR (length l))); [lra|exact M0]. }
    assert (Lyl : length yl = n) by (rewrite Ey; unfold scaled; now rewrite map_length).
    assert (Sum0 : rsum (tab n (fun j => mean gl + nth j yl 0 * (inner gl yl / INR (length l))))%R = 0%R).
    { clear - Q El. rewrite <- El. replace (tab (length l) (fun j => mean gl + nth j yl 0 * (inner gl yl / INR (length l))))%R with (map (fun _ => 0)%R (seq 0 (length l)));
        [apply rsum_zero; auto|]. unfold tab. apply map_ext_in. intros j Hj. apply in_seq in Hj. symmetry. apply Q. lia. }
    assert (Split : rsum (tab n (fun j => mean gl + nth j yl 0 * (inner gl yl / INR (length l))))%R = (INR n * mean gl + rsum yl * (inner gl yl / INR (length l)))%R).
    { rewrite (affine_sum n (mean gl) (inner gl yl / INR (length l))%R (fun j => nth j yl 0%R)). do 2 f_equal. rewrite <- Lyl. now rewrite tab_nth. }
    assert (M0 : mean gl = 0%R).
    { rewrite Split, My, Rmult_0_l, Rplus_0_r in Sum0. apply Rmult_integral in Sum0. destruct Sum0 as [F|F]; [exfalso; rewrite <- El in F; lra|exact F]. }
    assert (R0 : rsum gl = 0%R). { rewrite Mg in M0. unfold Rdiv in M0. apply Rmult_integral in M0. destruct M0 as [M0|M0]; [exact M0|]. exfalso. apply (Rinv_neq_0_compat (INR (length l))); [lra|exact M0]. }
    split; [exact R0|].
    (* every output is 0 or the inner product is *)
    destruct (Req_dec (inner gl yl) 0) as [Z|Z]; [exact Z|]. exfalso. apply Z. rewrite (inner_tab gl yl n Eg Lyl). apply rsum_zero. intros j Hj. apply in_seq in Hj.
    specialize (Q j ltac:(lia)). rewrite M0, Rplus_0_l in Q. apply Rmult_integral in Q. destruct Q as [Q|Q]; [rewrite Q; ring|].
    exfalso. unfold Rdiv in Q. apply Rmult_integral in Q. destruct Q as [Q|Q]; [now apply Z|]. apply (Rinv_neq_0_compat (INR (length l))); [lra|exact Q].
  - intros [R0 I0] j Hj. specialize (D j Hj). rewrite Na by exact Hj. rewrite Mg, R0, I0 in D. replace (nth j gl 0 / w)%R with ((nth j gl 0 - 0 / INR (length l) - nth j yl 0 * (0 / INR (length l))) / w)%R; [exact D|].
    unfold Rdiv. ring.
Qed.
Print Assumptions C63_gradient.

Definition buffer (x : arr R) (s : norm) : arr R := match backward_cache s with Some a => a | None => Arr (ashape x) (repeat 0%R (prod (ashape x))) end.
Lemma back_run eps ch x g s v : batch ch x -> variance s = Some v -> length v = ch -> length (adata g) = length (adata x) ->
  (length (adata (buffer x s)) < length (adata x) -> back eps x g s = UB) /\
  (length (adata x) <= length (adata (buffer x s)) -> exists a s', back eps x g s = Ok (a, s') /\ ashape a = ashape (buffer x s) /\ length (adata a) = length (adata (buffer x s)) /\
     backward_cache s' = Some a /\ global_average s' = global_average s /\ global_variance s' = global_variance s).
Proof.
  intros B V Lv Lg. destruct (batch_facts ch x B) as (_ & _ & _ & Nc & Lx & _). unfold back. rewrite V, (with_channels_batch ch x B). fold (buffer x s). rewrite <- Lx, Lg, Lv, !Nat.ltb_irrefl, !orb_false_r. split; intros H.
  - now rewrite (proj2 (Nat.ltb_lt _ _) H).
  - rewrite (proj2 (Nat.ltb_ge _ _) H). eexists _, _. split; [reflexivity|]. cbn [ashape adata backward_cache global_average global_variance]. rewrite app_length, tab2_length, skipn_length. split; [reflexivity|]. split; [lia|auto].
Qed.

(** C63, the gradient's buffer.  It is made by the first backward pass: a later one on a larger batch writes outside it, one on a smaller
    batch returns a tensor of the first batch's shape. *)
Theorem C63_gradient_buffer dbg eps p ch x1 g1 x2 g2 : batch ch x1 -> batch ch x2 -> length (adata g1) = length (adata x1) -> length (adata g2) = length (adata x2) ->
  let r := uses dbg eps p [Train x1; Back x1 g1; Train x2; Back x2 g2] fresh_norm in
  (length (adata x1) < length (adata x2) -> r = UB) /\
  (length (adata x2) <= length (adata x1) -> exists y1 a1 y2 a2 s, r = Ok ([y1; a1; y2; a2], s) /\ ashape a2 = ashape x1 /\ length (adata a2) = length (adata x1)).
Proof.
  intros B1 B2 L1 L2. cbv zeta. destruct (batch_facts ch x1 B1) as (_ & _ & _ & _ & _ & _ & Lp1).
  destruct (train_first dbg eps p ch x1 fresh_norm B1 eq_refl eq_refl) as (y1 & s1 & T1 & _ & K1 & (v1 & V1 & Lv1 & _) & C1).
  destruct (back_run eps ch x1 g1 s1 v1 B1 V1 Lv1 L1) as [_ H1]. unfold buffer in H1. rewrite C1 in H1. cbn [fresh_norm backward_cache adata ashape] in H1. rewrite repeat_length in H1.
  destruct (H1 ltac:(lia)) as (a1 & s2 & E1 & Sa1 & La1 & C2 & Ga & Gv).
  assert (K2 : knows p ch [x1] s2) by (destruct K1 as (ga & gv & K1 & K2 & K3); exists ga, gv; rewrite Ga, Gv; auto).
  destruct (train_next dbg eps p ch [x1] x2 s2 B2 K2) as (y2 & s3 & T2 & _ & _ & (v2 & V2 & Lv2 & _) & C3).
  destruct (back_run eps ch x2 g2 s3 v2 B2 V2 Lv2 L2) as [H2 H3]. unfold buffer in H2, H3. rewrite C3, C2, La1, <- Lp1 in H2, H3.
  cbn [NormModel.uses use1]. rewrite T1. cbn [obind fst snd]. rewrite E1. cbn [obind fst snd]. rewrite T2. cbn [obind fst snd]. split; intros H.
  - now rewrite (H2 H).
  - destruct (H3 H) as (a2 & s4 & E2 & Sa2 & La2 & _). rewrite E2. cbn [obind fst snd]. eexists _, _, _, _, _. split; [reflexivity|]. split; [congruence|exact La2].
Qed.
Print Assumptions C63_gradient_buffer.

(** A batch of four rows and two channels, one of them constant. *)
Module Case.
Definition x : arr R := Arr [4; 2] [1; 5; 3; 5; 1; 5; 3; 5]%R.
Lemma x_batch : batch 2 x. Proof. exists 4, []. cbn. repeat split; lia. Qed.
Lemma x_mean : mean (channel 2 0 x) = 2%R. Proof. unfold mean, channel. cbn. lra. Qed.
Lemma x_var : var (channel 2 0 x) = 1%R. Proof. unfold var. rewrite x_mean. unfold mean, channel. cbn. lra. Qed.
Lemma x_constant : mean (channel 2 1 x) = 5%R /\ var (channel 2 1 x) = 0%R.
Proof. assert (M : mean (channel 2 1 x) = 5%R) by (unfold mean, channel; cbn; lra). split; [exact M|]. unfold var. rewrite M. unfold mean, channel. cbn. lra. Qed.

(** after one training run with momentum 0.98 and eps 0: the mean is taken to be 0.04 and the variance 0.02; the prediction for the batch
    it was trained on has the mean 1.96 / sqrt 0.02 and not 0 *)
Example prediction : exists rs s y s', uses true 0 (98 / 100) [Train x] fresh_norm = Ok (rs, s) /\ predict true 0 x s = Ok (y, s') /\
  channel 2 0 y = map (fun v => (v - 4 / 100) / sqrt (2 / 100))%R [1; 3; 1; 3]%R.
Proof.
  destruct (C63_same_batch true 0 (98 / 100) 2 x 1 x_batch ltac:(lia)) as (rs & s & y & s' & E & P & H). exists rs, s, y, s'. split; [exact E|]. split; [exact P|].
  rewrite (H 0 ltac:(lia)), x_mean, x_var. change (channel 2 0 x) with [1; 3; 1; 3]%R. replace ((1 - (98 / 100) ^ 1) * 2)%R with (4 / 100)%R by (cbn; lra). replace ((1 - (98 / 100) ^ 1) * 1 + 0)%R with (2 / 100)%R by (cbn; lra). reflexivity.
Qed.
(** predicting before training: training has no effect on any later prediction *)
Example early_prediction : exists rs s s', uses true 0 (98 / 100) [Predict x; Train x; Train x; Train x] fresh_norm = Ok (rs, s) /\ predict true 0 x s = Ok (x, s').
Proof.
  assert (Hb : batches 2 [Predict x; Train x; Train x; Train x]) by (repeat constructor; apply x_batch). assert (Hf : forward_only [Predict x; Train x; Train x; Train x]) by (repeat constructor).
  destruct (C63_never_fails true 0 (98 / 100) 2 _ Hb Hf) as (rs & s & E). destruct (C63_prediction true 0 (98 / 100) 2 _ rs s x Hb E x_batch) as (y & s' & P & _ & _ & H). cbn [trained_first] in H. subst y. eauto.
Qed.
End Case.

(** "backward returns the gradient" is false: the sum of a standardised channel is 0 whatever the input, so the gradient of the sum is 0;
    backward returns 1 / sqrt(v + eps) everywhere. *)
Theorem C63_gradient_refuted : ~ (forall dbg eps p x g y s1 a s2, (0 < eps)%R -> batch 2 x -> train dbg eps p x fresh_norm = Ok (y, s1) -> ashape g = ashape x -> length (adata g) = length (adata x) ->
  back eps x g s1 = Ok (a, s2) -> forall c j, c < 2 -> j < length (channel 2 c x) ->
  is_derive (fun t => channel_loss eps (channel 2 c g) (upd (channel 2 c x) j t)) (nth j (channel 2 c x) 0%R) (nth j (channel 2 c a) 0%R)).
Proof.
  intros H. pose (g := Arr [4; 2] (repeat 1 8)%R).
  destruct (C63_training true 1 0 2 [] [] fresh_norm Case.x Rlt_0_1 (Forall_nil _) eq_refl Case.x_batch) as (y & s1 & T & _).
  destruct (C63_gradient true 1 0 2 [] [] fresh_norm Case.x g y s1 Rlt_0_1 (Forall_nil _) eq_refl Case.x_batch T eq_refl eq_refl (or_introl eq_refl)) as (a & s2 & E & _ & _ & G).
  destruct (G 0 ltac:(lia)) as (_ & _ & G3). destruct (proj1 G3) as [R0 _].
  - intros j Hj. refine (H true 1%R 0%R Case.x g y s1 a s2 Rlt_0_1 Case.x_batch T eq_refl eq_refl E 0 j _ Hj). lia.
  - change (channel 2 0 g) with [1; 1; 1; 1]%R in R0. cbn in R0. lra.
Qed.
Print Assumptions C63_gradient_refuted.
