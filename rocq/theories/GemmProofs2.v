(** The device, the dispatch and sequences of products. *)
From Coq Require Import List Arith Bool PeanoNat NArith ZArith Reals Lia.
From Verif Require Import ListBase TensorSpec TensorModel TensorProofs2 TensorProps GemmModel GemmSpec GemmProofs.
Import ListNotations.
Local Open Scope nat_scope.

Lemma w64_small x : (x < 18446744073709551616)%N -> w64 x = x.
Proof. intros. unfold w64. now apply N.mod_small. Qed.

(** reserve: enough room, and the size stays countable *)
Lemma reserve_ok size sz len :
  (size < 9223372036854775808)%N -> (len * sz < 2305843009213693952)%N ->
  (len * sz <= reserve size sz len)%N /\ (reserve size sz len < 9223372036854775808)%N.
Proof.
  intros H1 H2. unfold reserve. rewrite (w64_small (len * sz)) by lia. set (x := (len * sz)%N) in *.
  destruct (N.leb_spec x size) as [L|L]; [lia|].
  rewrite (w64_small (x + size)) by lia. rewrite N.shiftr_div_pow2, N.shiftl_mul_pow2. change (2 ^ 20)%N with 1048576%N.
  set (d := ((x + size) / 1048576)%N).
  assert (D : (x + size = 1048576 * d + (x + size) mod 1048576)%N) by (apply N.div_mod; discriminate).
  assert (D' : ((x + size) mod 1048576 < 1048576)%N) by (apply N.mod_lt; discriminate).
  set (r := ((x + size) mod 1048576)%N) in *. clearbody d r x.
  rewrite (w64_small (1 + d)) by lia. rewrite w64_small by lia. lia.
Qed.

Lemma tuned_ok l : forall size, (size < 9223372036854775808)%N -> Forall (fun i => (N.of_nat i <= 1048576)%N) l ->
  (fold_left (fun size i => reserve size 4 (let dim := 16 * N.of_nat i in 3 * (dim * dim))%N) l size < 9223372036854775808)%N.
Proof.
  induction l as [|i l IH]; intros size H F; [exact H|]. apply Forall_cons_iff in F. destruct F as [Fi F]. cbn [fold_left]. apply IH; [|exact F].
  apply reserve_ok; [exact H|]. cbv zeta. assert (N.of_nat i * N.of_nat i <= 1048576 * 1048576)%N by (apply N.mul_le_mono; lia). lia.
Qed.

Lemma update_countable mc rounds g : brief rounds -> countable g -> countable (update_threshold mc rounds g).
Proof.
  intros Br Co. unfold update_threshold. destruct (cuda_mode mc); [|exact Co]. unfold countable. cbn [buffer].
  apply tuned_ok.
  - apply reserve_ok; [exact Co|reflexivity].
  - apply Forall_forall. intros i Hi. apply in_seq in Hi. unfold brief in Br. lia.
Qed.

Lemma copy_to_ok src ps len dst pd : ps + len <= length src -> pd + len <= length dst ->
  exists dst', copy_to src ps len dst pd = Ok dst' /\ length dst' = length dst /\
    (forall i, i < len -> nth_error dst' (pd + i) = nth_error src (ps + i)) /\
    (forall q, q < pd \/ pd + len <= q -> nth_error dst' q = nth_error dst q).
Proof.
  intros H1 H2. unfold copy_to. rewrite (proj2 (Nat.leb_le (ps + len) (length src)) H1), (proj2 (Nat.leb_le (pd + len) (length dst)) H2).
  eexists. split; [reflexivity|]. split; [|split].
  - rewrite !app_length, !firstn_length, !skipn_length. lia.
  - intros i Hi. rewrite nth_error_app2 by (rewrite firstn_length; lia). rewrite firstn_length, Nat.min_l by lia.
    replace (pd + i - pd) with i by lia. rewrite nth_error_app1 by (rewrite firstn_length, skipn_length; lia).
    rewrite nth_error_firstn, nth_error_skipn. now destruct (Nat.ltb_spec i len); [|lia].
  - intros q [Q|Q].
    + rewrite nth_error_app1 by (rewrite firstn_length; lia). rewrite nth_error_firstn. now destruct (Nat.ltb_spec q pd); [|lia].
    + rewrite nth_error_app2 by (rewrite firstn_length; lia). rewrite firstn_length, Nat.min_l by lia.
      rewrite nth_error_app2 by (rewrite firstn_length, skipn_length; lia). rewrite firstn_length, skipn_length, Nat.min_l by lia.
      rewrite nth_error_skipn. f_equal. lia.
Qed.

Lemma region_ext M p M' p' len : p + len <= length M -> p' + len <= length M' ->
  (forall i, i < len -> nth_error M (p + i) = nth_error M' (p' + i)) -> region M p len = region M' p' len.
Proof.
  intros H1 H2 H. apply list_eq_nth; [rewrite !region_length by assumption; reflexivity|]. intros i Hi.
  rewrite region_length in Hi by assumption. rewrite !region_at by assumption. auto.
Qed.

Lemma sensible_leading size p : sensible size p -> leading p /\ small (rows p) /\ small (common p) /\ small (cols p).
Proof. intros (_ & [] & [] & []). unfold leading, small. destruct (tA p), (tB p); auto. Qed.

Theorem cuda_gemm_ok p M junk size :
  sensible (length M) p -> real_memory M -> (size < 9223372036854775808)%N ->
  exists M' size', cuda_gemm (size_of p) junk (pA p) (tA p) (pB p) (tB p) (rows p) (common p) (cols p) (pC p) M size = Ok (M', size') /\
    multiplied p M M' /\ (size' < 9223372036854775808)%N.
Proof.
  intros Se RM Sz. destruct (sensible_leading _ _ Se) as (Le & S1 & S2 & S3). destruct Se as ((LA & LB & LC & DA & DB) & _).
  unfold cuda_gemm, real_memory in *.
  set (m := rows p) in *. set (n := common p) in *. set (k := cols p) in *.
  set (len := (N.of_nat (m * n) + N.of_nat (n * k) + N.of_nat (m * k))%N).
  assert (HL : (len < 216172782113783808)%N) by (unfold len; lia).
  rewrite (w64_small len) by lia.
  assert (HS : (len * size_of p < 2305843009213693952)%N) by (unfold size_of; destruct (double p); lia).
  destruct (reserve_ok size (size_of p) len Sz HS) as [R1 R2]. set (size' := reserve size (size_of p) len) in *.
  assert (HD : (len <= size' / size_of p)%N).
  { apply N.div_le_lower_bound; [unfold size_of; now destruct (double p)|]. lia. }
  set (device := tab (N.to_nat (size' / size_of p)) junk).
  assert (HV : m * n + n * k + m * k <= length device).
  { unfold device. rewrite tab_length. unfold len in HD. lia. }
  destruct (copy_to_ok M (pA p) (m * n) device 0) as (d1 & E1 & L1 & I1 & O1); [lia|lia|]. rewrite E1. cbn [obind].
  destruct (copy_to_ok M (pB p) (n * k) d1 (0 + m * n)) as (d2 & E2 & L2 & I2 & O2); [lia|lia|]. rewrite E2. cbn [obind].
  set (q := Product 0 (tA p) (0 + m * n) (tB p) m n k (0 + m * n + n * k) (double p)).
  destruct (row_major_ok q d2) as (d3 & E3 & L3 & V3 & O3); auto.
  { unfold placed. cbn [pA pB pC rows common cols q]. lia. }
  unfold row_major in E3. cbn [pA pB pC tA tB rows common cols q] in E3. rewrite E3. cbn [obind].
  destruct (copy_to_ok d3 (0 + m * n + n * k) (m * k) M (pC p)) as (M' & E4 & L4 & I4 & O4); [lia|lia|]. rewrite E4. cbn [obind].
  exists M', size'. split; [reflexivity|]. split; [|exact R2]. split; [exact L4|]. split.
  - intros r c Hr Hc. change (r < m) in Hr. change (c < k) in Hc. fold m n k. assert (r * k + c < m * k) by nia. rewrite I4 by assumption.
    cbn [pA pB pC tA tB rows common cols q] in V3. rewrite V3 by assumption.
    rewrite (region_ext d2 0 M (pA p) (m * n)), (region_ext d2 (0 + m * n) M (pB p) (n * k)); auto; try lia.
    intros i Hi. rewrite O2 by lia. apply (I1 i Hi).
  - exact O4.
Qed.

Theorem gemm_ok mc junk rounds p M g :
  sensible (length M) p -> real_memory M -> countable g -> brief rounds ->
  exists M' g', gemm mc (size_of p) junk rounds (pA p) (tA p) (pB p) (tB p) (rows p) (common p) (cols p) (pC p) M g = Ok (M', g') /\
    multiplied p M M' /\ countable g'.
Proof.
  intros Se RM Co Br. unfold gemm.
  set (g1 := if (cuda_gemm_threshold g =? 0)%N then update_threshold mc rounds g else g).
  assert (C1 : countable g1) by (unfold g1; destruct (cuda_gemm_threshold g =? 0)%N; [now apply update_countable|exact Co]).
  assert (CPU : exists M', (if cblas_mode mc then cblas_gemm (pA p) (tA p) (pB p) (tB p) (rows p) (common p) (cols p) (pC p) M
                            else gemm_host (pA p) (tA p) (pB p) (tB p) (rows p) (common p) (cols p) (pC p) M) = Ok M' /\ multiplied p M M').
  { destruct (cblas_mode mc).
    - destruct (sensible_leading _ _ Se) as (Le & S1 & S2 & S3). apply row_major_ok; auto. apply Se.
    - apply gemm_host_ok. apply Se. }
  destruct CPU as (M' & E & Mu). cbv zeta.
  destruct (cuda_mode mc); [destruct (cuda_gemm_threshold g1 <=? _)%N|].
  - destruct (cuda_gemm_ok p M junk (buffer g1) Se RM C1) as (M2 & s2 & E2 & Mu2 & Co2). rewrite E2. cbn [obind fst snd].
    eauto.
  - rewrite E. cbn [obind]. eauto.
  - rewrite E. cbn [obind]. eauto.
Qed.

Lemma sensible_length p M M' : multiplied p M M' -> length M' = length M.
Proof. now intros (? & _). Qed.

Theorem gemms_ok mc junk rounds : (forall i, brief (rounds i)) -> forall ps M g,
  Forall (sensible (length M)) ps -> real_memory M -> countable g ->
  exists M' g', gemms mc junk rounds ps M g = Ok (M', g') /\ computed ps M M' /\ countable g'.
Proof.
  intros Br. induction ps as [|p ps IH]; intros M g F RM Co.
  - exists M, g. split; [reflexivity|]. split; [constructor|exact Co].
  - apply Forall_cons_iff in F. destruct F as [Fp F]. cbn [gemms].
    destruct (gemm_ok mc (junk (length ps)) (rounds (length ps)) p M g Fp RM Co (Br _)) as (M1 & g1 & E & Mu & Co1). rewrite E. cbn [obind fst snd].
    pose proof (sensible_length _ _ _ Mu) as L. destruct (IH M1 g1) as (M' & g' & E' & Cm & Co').
    + now rewrite L.
    + unfold real_memory. now rewrite L.
    + exact Co1.
    + exists M', g'. split; [exact E'|]. split; [|exact Co']. econstructor; eassumption.
Qed.

Lemma computed_det ps : forall M M1 M2, computed ps M M1 -> computed ps M M2 -> M1 = M2.
Proof.
  induction ps as [|p ps IH]; intros M M1 M2 H1 H2; inversion H1; inversion H2; subst; [reflexivity|].
  match goal with a : multiplied p M ?x, b : multiplied p M ?y |- _ => lazymatch x with y => fail | _ => assert (x = y) by (eapply multiplied_det; eassumption) end end.
  subst. eapply IH; eassumption.
Qed.
