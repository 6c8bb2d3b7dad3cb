(** Lemmas about normalization_batch. *)
From Coq Require Import List Arith Lia Bool PeanoNat Reals Lra.
From Coquelicot Require Import Rcomplements Hierarchy Derive.
From Coquelicot Require AutoDerive.
From Verif Require Import ListBase TensorModel ArrayModel LayerSpec LayerProofs LayerProofs2 LayerProofs4 CalcProofs NormModel NormSpec.
Import ListNotations.
Local Open Scope nat_scope.

Lemma acc_loop ch n (F : nat -> nat -> R) :
  fold_left (fun acc i => tab ch (fun j => nth j acc 0 + F i j)%R) (seq 0 n) (repeat 0%R ch) = tab ch (fun j => rsum (tab n (fun i => F i j))).
Proof.
  induction n as [|n IH].
  - cbn. symmetry. apply (list_eq_nth_d 0%R); [now rewrite tab_length, repeat_length|]. intros i Hi. rewrite tab_length in Hi. rewrite nth_tab by exact Hi. now rewrite nth_repeat.
  - rewrite seq_S, fold_left_app, IH. cbn [fold_left]. apply tab_ext. intros j Hj. rewrite nth_tab by exact Hj. rewrite tab_snoc, rsum_app. cbn. ring.
Qed.

Section Batch.
Variables (ch : nat) (x : arr R).
Hypothesis B : batch ch x.
Definition rows : nat := length (adata x) / ch.

Lemma batch_facts : ashape x <> [] /\ 1 < length (ashape x) /\ last (ashape x) 0 = ch /\ ch <> 0 /\ length (adata x) = rows * ch /\ rows <> 0 /\ length (adata x) = prod (ashape x).
Proof.
  destruct B as (d & s & E & L & N). unfold rows. rewrite E. split; [discriminate|]. split; [rewrite app_length; cbn; lia|]. split; [apply last_last|].
  rewrite E, prod_app in L, N. cbn [prod fold_right] in L, N. rewrite Nat.mul_1_r in L, N. rewrite L, Nat.div_mul by nia. rewrite prod_app. cbn [prod fold_right]. split; [|split; [|split]]; nia.
Qed.
Lemma with_channels_batch {T} (k : nat -> nat -> outcome T) : with_channels x k = k ch rows.
Proof.
  destruct batch_facts as (N & _ & L & Nc & _). unfold with_channels. rewrite L. destruct (ashape x); [easy|]. destruct (Nat.eqb_spec ch 0); [easy|]. reflexivity.
Qed.
Lemma channel_length c : length (channel ch c x) = rows. Proof. unfold channel. now rewrite tab_length. Qed.
Lemma average_channel c : c < ch -> nth c (average_of (adata x) rows ch) 0%R = mean (channel ch c x).
Proof.
  intros Hc. unfold average_of. rewrite acc_loop, map_tab, nth_tab by exact Hc. unfold mean. rewrite channel_length. reflexivity.
Qed.
Lemma average_length : length (average_of (adata x) rows ch) = ch.
Proof. unfold average_of. now rewrite acc_loop, map_length, tab_length. Qed.
Lemma variance_channel c : c < ch -> nth c (variance_of (adata x) (average_of (adata x) rows ch) rows ch) 0%R = var (channel ch c x).
Proof.
  intros Hc. unfold variance_of. rewrite acc_loop, map_tab, nth_tab by exact Hc. unfold var, mean at 1. rewrite map_length, channel_length. unfold Rdiv. f_equal.
  rewrite average_channel by exact Hc. set (mu := mean (channel ch c x)). unfold channel. rewrite map_tab. f_equal. apply tab_ext. intros r Hr. unfold cell. ring.
Qed.
Lemma variance_length a : length (variance_of (adata x) a rows ch) = ch.
Proof. unfold variance_of. now rewrite acc_loop, map_length, tab_length. Qed.
Lemma normalized_length eps a v : length (normalized eps (adata x) a v rows ch) = length (adata x).
Proof. unfold normalized. rewrite tab2_length. symmetry. apply batch_facts. Qed.
Lemma normalized_channel eps a v c s : c < ch -> channel ch c (Arr s (normalized eps (adata x) a v rows ch)) = scaled eps (nth c a 0%R) (nth c v 0%R) (channel ch c x).
Proof.
  intros Hc. unfold channel at 1. cbn [adata]. rewrite normalized_length. unfold scaled, channel. rewrite map_tab. fold rows. apply tab_ext. intros r Hr.
  unfold normalized. rewrite nth_tab2 by assumption. reflexivity.
Qed.
End Batch.

Lemma mean_tab n f : n <> 0 -> mean (tab n f) = (rsum (tab n f) / INR n)%R.
Proof. intros _. unfold mean. now rewrite tab_length. Qed.

Lemma rsum_const_sub m l : rsum (map (fun x => x - m)%R l) = (rsum l - INR (length l) * m)%R.
Proof. induction l as [|a l IH]; cbn [map rsum length]; [cbn; ring|]. rewrite IH, S_INR. ring. Qed.
Lemma rsum_sq m l : rsum (map (fun x => (x - m) * (x - m))%R l) = (rsum (map (fun x => x * x)%R l) - 2 * m * rsum l + INR (length l) * (m * m))%R.
Proof. induction l as [|a l IH]; cbn [map rsum length]; [cbn; ring|]. rewrite IH, S_INR. ring. Qed.
Lemma INR_len {A} (l : list A) : l <> [] -> (0 < INR (length l))%R.
Proof. intros N. apply lt_0_INR. destruct l; [easy|cbn; lia]. Qed.
(** the variance is the mean of the squares minus the square of the mean *)
Lemma var_sq l : l <> [] -> var l = (rsum (map (fun x => x * x)%R l) / INR (length l) - mean l * mean l)%R.
Proof. intros N. pose proof (INR_len l N). unfold var, mean at 1. rewrite map_length, rsum_sq. unfold mean. field. lra. Qed.
Lemma var_nonneg l : l <> [] -> (0 <= var l)%R.
Proof.
  intros N. pose proof (INR_len l N). unfold var, mean at 1. rewrite map_length. apply Rmult_le_pos; [|left; now apply Rinv_0_lt_compat].
  generalize (mean l). clear. intros m. induction l as [|a l IH]; cbn [map rsum]; [lra|]. pose proof (Rle_0_sqr (a - m)). unfold Rsqr in *. lra.
Qed.
Lemma scaled_sum eps m v l : rsum (scaled eps m v l) = ((rsum l - INR (length l) * m) / sqrt (v + eps))%R.
Proof. unfold scaled. induction l as [|a l IH]; [cbn; unfold Rdiv; ring|]. cbn [map rsum length]. rewrite IH, S_INR. unfold Rdiv. ring. Qed.
Lemma scaled_squares eps m v l : rsum (map (fun x => x * x)%R (scaled eps m v l)) = (rsum (map (fun x => (x - m) * (x - m)) l) * (/ sqrt (v + eps) * / sqrt (v + eps)))%R.
Proof. unfold scaled. induction l as [|a l IH]; [cbn; ring|]. cbn [map rsum]. rewrite IH. unfold Rdiv. ring. Qed.
(** standardised by their own statistics *)
Lemma scaled_mean eps l : l <> [] -> mean (scaled eps (mean l) (var l) l) = 0%R.
Proof. intros N. pose proof (INR_len l N). unfold mean at 1. rewrite scaled_sum. unfold mean at 1. unfold Rdiv at 2 3. rewrite (Rmult_comm (INR _)), Rmult_assoc, Rinv_l by lra. unfold Rdiv. ring. Qed.
Lemma scaled_spread eps l : l <> [] -> (0 < eps)%R -> mean (map (fun x => x * x)%R (scaled eps (mean l) (var l) l)) = (var l / (var l + eps))%R.
Proof.
  intros N He. pose proof (INR_len l N). pose proof (var_nonneg l N). assert (Sq : (sqrt (var l + eps) * sqrt (var l + eps) = var l + eps)%R) by (apply sqrt_sqrt; lra).
  assert (S0 : (0 < sqrt (var l + eps))%R) by (apply sqrt_lt_R0; lra).
  unfold mean at 1. rewrite scaled_squares, !map_length. unfold scaled. rewrite map_length. rewrite <- Rinv_mult, Sq.
  change (var l) with (mean (map (fun x => (x - mean l) * (x - mean l)) l))%R at 2. unfold mean at 3. rewrite map_length. field. lra.
Qed.

(** ** histories *)
Lemma moving_snoc {X} p (f : X -> R) xs x : moving p f (xs ++ [x]) = (moving p f xs * p + f x * (1 - p))%R.
Proof.
  unfold moving. rewrite app_length. cbn [length]. rewrite Nat.add_1_r, tab_snoc, rsum_app. cbn [rsum]. rewrite map_app, app_nth2 by (rewrite map_length; lia).
  rewrite map_length, Nat.sub_diag. replace (S (length xs) - 1 - length xs) with 0 by lia. cbn [map nth pow]. rewrite Rplus_0_r. f_equal; [|ring].
  rewrite <- rsum_scale_list, map_tab. f_equal. apply tab_ext. intros i Hi. rewrite app_nth1 by (rewrite map_length; lia).
  replace (S (length xs) - 1 - i) with (S (length xs - 1 - i)) by lia. cbn [pow]. ring.
Qed.

Lemma moved_all p old new n : length old = n -> moved p old new n = tab n (fun i => nth i old 0 * p + nth i new 0 * (1 - p))%R.
Proof. intros <-. unfold moved. now rewrite skipn_all, app_nil_r. Qed.

Section Uses.
Variables (dbg : bool) (eps p : R) (ch : nat).

(** after training on the batches xs *)
Definition knows (xs : list (arr R)) (s : norm) : Prop :=
  exists ga gv, global_average s = Some ga /\ global_variance s = Some gv /\ length ga = ch /\ length gv = ch /\
    (forall c, c < ch -> nth c ga 0%R = moving p (fun b => mean (channel ch c b)) xs) /\ (forall c, c < ch -> nth c gv 0%R = moving p (fun b => var (channel ch c b)) xs).

Definition own_output (x y : arr R) : Prop := ashape y = ashape x /\ length (adata y) = length (adata x) /\
  forall c, c < ch -> channel ch c y = scaled eps (mean (channel ch c x)) (var (channel ch c x)) (channel ch c x).

Definition keeps_variance (x : arr R) (s : norm) : Prop := exists v, variance s = Some v /\ length v = ch /\ forall c, c < ch -> nth c v 0%R = var (channel ch c x).

Lemma train_first x s : batch ch x -> global_average s = None -> global_variance s = None ->
  exists y s', train dbg eps p x s = Ok (y, s') /\ own_output x y /\ knows [x] s' /\ keeps_variance x s' /\ backward_cache s' = backward_cache s.
Proof.
  intros B Ga Gv. destruct (batch_facts ch x B) as (_ & L1 & _ & _ & _ & _ & _). unfold train, check. rewrite (proj2 (Nat.ltb_lt _ _) L1). rewrite (with_channels_batch ch x B), Ga, Gv.
  rewrite repeat_length. rewrite Nat.ltb_irrefl. cbn [orb]. eexists _, _. split; [reflexivity|]. split; [|split; [|split; [|reflexivity]]].
  - split; [reflexivity|]. split; [cbn [adata]; now apply normalized_length|]. intros c Hc. rewrite (normalized_channel ch x B) by exact Hc.
    now rewrite (average_channel ch x) by exact Hc; rewrite (variance_channel ch x) by exact Hc.
  - eexists _, _. split; [reflexivity|]. split; [reflexivity|]. rewrite !moved_all by apply repeat_length. split; [apply tab_length|]. split; [apply tab_length|].
    assert (M1 : forall f : arr R -> R, moving p f [x] = (0 * p + f x * (1 - p))%R) by (intros f; exact (moving_snoc p f [] x)).
    split; intros c Hc; rewrite M1, nth_tab by exact Hc; rewrite nth_repeat; [now rewrite (average_channel ch x) by exact Hc|now rewrite (variance_channel ch x) by exact Hc].
  - eexists. split; [reflexivity|]. split; [apply variance_length|]. intros c Hc. now apply variance_channel.
Qed.

Lemma train_next xs x s : batch ch x -> knows xs s ->
  exists y s', train dbg eps p x s = Ok (y, s') /\ own_output x y /\ knows (xs ++ [x]) s' /\ keeps_variance x s' /\ backward_cache s' = backward_cache s.
Proof.
  intros B (ga & gv & Ga & Gv & La & Lv & Ha & Hv). destruct (batch_facts ch x B) as (_ & L1 & _ & _ & _ & _ & _).
  unfold train, check. rewrite (proj2 (Nat.ltb_lt _ _) L1). rewrite (with_channels_batch ch x B), Ga, Gv.
  rewrite La, Lv, Nat.ltb_irrefl. cbn [orb]. eexists _, _. split; [reflexivity|]. split; [|split; [|split; [|reflexivity]]].
  - split; [reflexivity|]. split; [cbn [adata]; now apply normalized_length|]. intros c Hc. rewrite (normalized_channel ch x B) by exact Hc.
    now rewrite (average_channel ch x) by exact Hc; rewrite (variance_channel ch x) by exact Hc.
  - eexists _, _. split; [reflexivity|]. split; [reflexivity|]. rewrite !moved_all by assumption. split; [apply tab_length|]. split; [apply tab_length|].
    split; intros c Hc; rewrite moving_snoc, nth_tab by exact Hc; [rewrite Ha, (average_channel ch x) by exact Hc|rewrite Hv, (variance_channel ch x) by exact Hc]; reflexivity.
  - eexists. split; [reflexivity|]. split; [apply variance_length|]. intros c Hc. now apply variance_channel.
Qed.

(** once the global average is an empty tensor it stays one *)
Lemma train_stuck x s : batch ch x -> global_average s = Some [] ->
  exists y s', train dbg eps p x s = Ok (y, s') /\ own_output x y /\ global_average s' = Some [] /\ keeps_variance x s' /\ backward_cache s' = backward_cache s.
Proof.
  intros B Ga. destruct (batch_facts ch x B) as (_ & L1 & _ & _ & _ & _ & _). unfold train, check. rewrite (proj2 (Nat.ltb_lt _ _) L1). rewrite (with_channels_batch ch x B), Ga.
  cbn [length]. assert (Z : forall k, (k <? 0) = false) by (intros k; apply Nat.ltb_ge; lia). rewrite !Z. cbn [orb].
  eexists _, _. split; [reflexivity|]. split; [|split; [reflexivity|split; [|reflexivity]]].
  - split; [reflexivity|]. split; [cbn [adata]; now apply normalized_length|]. intros c Hc. rewrite (normalized_channel ch x B) by exact Hc.
    now rewrite (average_channel ch x) by exact Hc; rewrite (variance_channel ch x) by exact Hc.
  - eexists. split; [reflexivity|]. split; [apply variance_length|]. intros c Hc. now apply variance_channel.
Qed.

Lemma predict_knows xs x s : batch ch x -> knows xs s ->
  exists y, predict dbg eps x s = Ok (y, s) /\ ashape y = ashape x /\ length (adata y) = length (adata x) /\
    forall c, c < ch -> channel ch c y = scaled eps (moving p (fun b => mean (channel ch c b)) xs) (moving p (fun b => var (channel ch c b)) xs) (channel ch c x).
Proof.
  intros B (ga & gv & Ga & Gv & La & Lv & Ha & Hv). destruct (batch_facts ch x B) as (_ & L1 & _ & Nc & _).
  unfold predict, check. rewrite (proj2 (Nat.ltb_lt _ _) L1). rewrite (with_channels_batch ch x B), Ga, Gv.
  destruct ga as [|a ga]; [cbn in La; lia|]. rewrite La, Lv, Nat.ltb_irrefl. cbn [orb]. eexists. split; [f_equal; f_equal; destruct s; cbn in *; congruence|].
  split; [reflexivity|]. split; [now apply normalized_length|]. intros c Hc. rewrite (normalized_channel ch x B) by exact Hc. now rewrite Ha, Hv by exact Hc.
Qed.

Lemma predict_empty x s : batch ch x -> global_average s = None \/ global_average s = Some [] ->
  exists s', predict dbg eps x s = Ok (x, s') /\ global_average s' = Some [] /\ variance s' = variance s /\ backward_cache s' = backward_cache s.
Proof.
  intros B Ga. destruct (batch_facts ch x B) as (_ & L1 & _ & Nc & _).
  unfold predict, check. rewrite (proj2 (Nat.ltb_lt _ _) L1). rewrite (with_channels_batch ch x B). destruct Ga as [->| ->]; eexists; (split; [reflexivity|split; [reflexivity|split; reflexivity]]).
Qed.

Lemma back_keeps x g s y s' : back eps x g s = Ok (y, s') -> global_average s' = global_average s /\ global_variance s' = global_variance s /\ variance s' = variance s.
Proof.
  unfold back. destruct (variance s) as [v|] eqn:E; [|discriminate]. unfold with_channels. destruct (ashape x); [discriminate|]. destruct (_ =? 0); [discriminate|].
  destruct (_ || _); [discriminate|]. intros [= <- <-]. cbn. auto.
Qed.
End Uses.

(** ** the derivative of the outputs of a channel *)
Lemma inner_scaled eps m v g x : length g = length x -> inner g (scaled eps m v x) = ((inner g x - rsum g * m) / sqrt (v + eps))%R.
Proof.
  revert x. induction g as [|a g IH]; intros [|b x] L; try discriminate L; [unfold inner; cbn; unfold Rdiv; ring|]. injection L as L. specialize (IH x L).
  unfold inner, scaled in *. cbn [map map2 rsum]. rewrite IH. unfold Rdiv. ring.
Qed.
Lemma map_upd {A B} (f : A -> B) l i v : map f (upd l i v) = upd (map f l) i (f v).
Proof. revert i. induction l as [|a l IH]; intros [|i]; try reflexivity. cbn [upd map]. now rewrite IH. Qed.
Lemma inner_upd g x j t : length g = length x -> j < length x -> inner g (upd x j t) = (inner g x + nth j g 0 * (t - nth j x 0))%R.
Proof.
  revert x j. induction g as [|a g IH]; intros [|b x] [|j] L Hj; cbn [length] in *; try lia; unfold inner in *; cbn [upd map2 rsum nth]; [ring|]. rewrite IH by lia. ring.
Qed.

Lemma channel_derivative eps g x j : (0 < eps)%R -> length g = length x -> j < length x ->
  let y := scaled eps (mean x) (var x) x in
  is_derive (fun t => inner g (scaled eps (mean (upd x j t)) (var (upd x j t)) (upd x j t))) (nth j x 0%R)
    ((nth j g 0 - mean g - nth j y 0 * (inner g y / INR (length x))) / sqrt (var x + eps))%R.
Proof.
  intros He L Hj y. assert (Nx : x <> []) by (intros ->; cbn in Hj; lia). pose proof (INR_len x Nx) as N0. pose proof (var_nonneg x Nx) as V0.
  set (a := nth j x 0%R). set (N := INR (length x)) in *. set (m := mean x). set (G := inner g x). set (Sg := rsum g). set (Q := rsum (map (fun x => x * x)%R x)). set (gj := nth j g 0%R).
  assert (Vx : (var x = Q / N - m * m)%R) by (unfold m; rewrite (var_sq x Nx); reflexivity).
  assert (Yj : nth j y 0%R = ((a - m) / sqrt (var x + eps))%R).
  { unfold y, scaled. rewrite (nth_indep _ 0%R ((fun v => (v - mean x) / sqrt (var x + eps))%R 0%R)) by (rewrite map_length; exact Hj).
    rewrite (map_nth (fun v => (v - mean x) / sqrt (var x + eps))%R). reflexivity. }
  assert (Gy : inner g y = ((G - Sg * m) / sqrt (var x + eps))%R) by (apply inner_scaled; exact L).
  assert (Mg : mean g = (Sg / N)%R) by (unfold mean, N; now rewrite L).
  apply (is_derive_ext (fun t => (G + gj * (t - a) - Sg * (m + (t - a) / N)) / sqrt ((Q + (t * t - a * a)) / N - (m + (t - a) / N) * (m + (t - a) / N) + eps))%R).
  { intros t. rewrite inner_scaled by (rewrite upd_length; exact L). rewrite inner_upd by assumption. rewrite (var_sq (upd x j t)) by (intros E; apply (f_equal (@length R)) in E; rewrite upd_length in E; cbn in E; lia).
    assert (Mt : mean (upd x j t) = (m + (t - a) / N)%R) by (unfold mean, m, mean; rewrite rsum_upd, upd_length by exact Hj; unfold a, N; unfold Rdiv; ring).
    rewrite Mt, upd_length. fold N. rewrite map_upd, rsum_upd by (rewrite map_length; exact Hj).
    rewrite (nth_indep (map (fun x => x * x)%R x) 0%R ((fun v => v * v)%R 0%R)) by (rewrite map_length; exact Hj). rewrite (map_nth (fun v => v * v)%R). reflexivity. }
  rewrite Yj, Gy, Mg. fold gj.
  assert (Pos : (0 < Q / N - m * m + eps)%R) by lra.
  assert (P2 : ((Q + (a * a - a * a)) / N - (m + (a - a) / N) * (m + (a - a) / N) + eps = Q / N - m * m + eps)%R) by (field; lra).
  rewrite Vx. set (w := (Q / N - m * m + eps)%R) in *. assert (S0 : (0 < sqrt w)%R) by (now apply sqrt_lt_R0). assert (Sq : (sqrt w * sqrt w = w)%R) by (apply sqrt_sqrt; lra).
  AutoDerive.auto_derive.
  - replace ((Q + (a * a + - (a * a))) * / N + - ((m + (a + - a) * / N) * (m + (a + - a) * / N)) + eps)%R with w by (rewrite <- P2; unfold Rdiv, Rminus; reflexivity).
    split; [exact Pos|]. split; [lra|exact I].
  - replace ((Q + (a * a + - (a * a))) * / N + - ((m + (a + - a) * / N) * (m + (a + - a) * / N)) + eps)%R with w by (rewrite <- P2; unfold Rdiv, Rminus; reflexivity).
    replace (G + gj * (a + - a) + - (Sg * (m + (a + - a) * / N)))%R with (G - Sg * m)%R by (field; lra). replace (m + (a + - a) * / N)%R with m by (field; lra).
    clear Sq. set (r := sqrt w) in *. clearbody r. field. lra.
Qed.
