(** Summing over broadcast axes is the adjoint of broadcasting. *)
From Coq Require Import List Arith Lia Bool PeanoNat Reals.
From Verif Require Import ListBase TensorModel TensorSpec TensorProofs ArrayModel ArrayProofs ArrayProps LayerSpec LayerProofs LayerProofs4 GraphModel.
Import ListNotations.

(** the sum over all indices of a shape *)
Definition Sum (s : list nat) (F : list nat -> R) : R := rsum (tab (prod s) (fun p => F (unoffset s p))).

Lemma rsum_tab_ext n f g : (forall i, i < n -> f i = g i) -> rsum (tab n f) = rsum (tab n g).
Proof. intros H. now rewrite (tab_ext n f g H). Qed.

Lemma rsum_tab_swap m n (f : nat -> nat -> R) : rsum (tab m (fun i => rsum (tab n (f i)))) = rsum (tab n (fun j => rsum (tab m (fun i => f i j)))).
Proof. unfold tab. apply (rsum_swap f). Qed.

Lemma Sum_ext s F G : (forall idx, valid s idx -> F idx = G idx) -> Sum s F = Sum s G.
Proof. intros H. apply rsum_tab_ext. intros i Hi. apply H. now apply unoffset_valid. Qed.

Lemma rsum_tab2 m n (f : nat -> nat -> R) : rsum (tab2 m n f) = rsum (tab m (fun i => rsum (tab n (f i)))).
Proof.
  revert f. induction m as [|m IH]; intros f; [reflexivity|]. rewrite tab2_S, tab_S, rsum_app, IH. reflexivity.
Qed.

Lemma Sum_nil F : Sum [] F = F [].
Proof. unfold Sum. cbn. ring. Qed.

Lemma Sum_cons d s F : Sum (d :: s) F = rsum (tab d (fun i => Sum s (fun idx => F (i :: idx)))).
Proof.
  unfold Sum. rewrite prod_cons, tab_mul, rsum_tab2. apply rsum_tab_ext. intros i Hi. apply rsum_tab_ext. intros j Hj.
  f_equal. cbn [unoffset]. rewrite Nat.div_add_l, Nat.div_small, Nat.add_0_r by lia.
  rewrite Nat.add_comm, Nat.mod_add, Nat.mod_small by lia. reflexivity.
Qed.

Lemma Sum_app p q F : Sum (p ++ q) F = Sum p (fun ip => Sum q (fun iq => F (ip ++ iq))).
Proof.
  revert F. induction p as [|d p IH]; intros F; cbn [app].
  - now rewrite Sum_nil.
  - rewrite !Sum_cons. apply rsum_tab_ext. intros i Hi. now rewrite IH.
Qed.

Lemma Sum_axis p n q F : Sum (p ++ n :: q) F = Sum p (fun ip => Sum q (fun iq => rsum (tab n (fun k => F (ip ++ k :: iq))))).
Proof.
  rewrite Sum_app. apply Sum_ext. intros ip _. rewrite Sum_cons. unfold Sum. now rewrite rsum_tab_swap.
Qed.

(** the element at an index *)
Definition item (a : arr R) (idx : list nat) : R := nth (offset (ashape a) idx) (adata a) 0%R.

Lemma inner_Sum s x y : length x = prod s -> length y = prod s ->
  inner x y = Sum s (fun idx => nth (offset s idx) x 0 * nth (offset s idx) y 0)%R.
Proof.
  intros Lx Ly. rewrite (inner_tab x y (prod s)) by assumption. unfold Sum, tab. f_equal. apply map_ext_in. intros i Hi. apply in_seq in Hi.
  rewrite offset_unoffset by lia. reflexivity.
Qed.

Lemma rsum_fold l : fold_right Rplus 0%R l = rsum l.
Proof. induction l; cbn; congruence. Qed.

Definition drop_axis (keepdims : bool) (a : nat) (idx : list nat) : list nat :=
  if keepdims then firstn a idx ++ 0 :: skipn (S a) idx else firstn a idx ++ skipn (S a) idx.

Lemma sum_axis_adjoint dbg (g : arr R) p n q keep : wf g -> ashape g = p ++ n :: q -> prod (ashape g) <> 0 -> (keep = true \/ p ++ q <> []) ->
  exists r, sum_axis 0%R dbg Rplus g (Some (length p)) keep = Ok r /\ ashape r = reduced_shape keep p q /\ wf r /\
    forall W, Sum (ashape r) (fun idx => item r idx * W idx)%R = Sum (ashape g) (fun idx => item g idx * W (drop_axis keep (length p) idx))%R.
Proof.
  intros Wg Eg Ng Hk.
  destruct (C19_sum_axis R 0%R Rplus ltac:(intros; ring) ltac:(intros; ring) ltac:(intros; ring) dbg g (Some (length p)) keep p n q Wg Eg Ng
    (or_introl eq_refl) Hk) as (r & E & Es & Wr & H).
  exists r. split; [exact E|]. split; [exact Es|]. split; [exact Wr|]. intros W. rewrite Es, Eg.
  assert (HR : forall ip iq, valid p ip -> valid q iq ->
    (item r (reduced_index keep ip iq) * W (reduced_index keep ip iq))%R =
    rsum (tab n (fun k => item g (ip ++ k :: iq) * W (drop_axis keep (length p) (ip ++ k :: iq)))%R)).
  { intros ip iq Vp Vq. pose proof (fibre_strided 0%R g p n q ip iq Wg Eg Vp Vq) as Fl. pose proof Fl as [Ll Hl].
    specialize (H ip iq _ Vp Vq Fl). rewrite rsum_fold in H. unfold at_index in H. unfold item at 1.
    rewrite (nth_error_nth _ _ _ H). set (l := strided _ _ _ _ _) in *.
    assert (El : l = tab n (fun k => item g (ip ++ k :: iq))).
    { apply list_eq_nth; [now rewrite tab_length|]. intros i Hi. rewrite Ll in Hi.
      rewrite nth_error_tab by assumption. transitivity (at_index g (ip ++ i :: iq)); [symmetry; now apply Hl|]. unfold at_index, item. apply nth_error_nth'. rewrite Wg, Eg.
        apply valid_offset_lt. apply valid_app; [now apply valid_length|]. split; [assumption|]. constructor; assumption. }
    assert (Ed : forall k, drop_axis keep (length p) (ip ++ k :: iq) = reduced_index keep ip iq).
    { intros k. unfold drop_axis, reduced_index. rewrite <- (valid_length _ _ Vp). rewrite firstn_at, skipn_S_at. reflexivity. }
    rewrite El. unfold tab. rewrite <- rsum_scale_r. f_equal. apply map_ext. intros k. now rewrite Ed. }
  rewrite (Sum_axis p n q). destruct keep; cbn [reduced_shape reduced_index] in *.
  - rewrite (Sum_axis p 1 q). apply Sum_ext. intros ip Vp. apply Sum_ext. intros iq Vq. rewrite <- (HR ip iq Vp Vq). cbn. ring.
  - rewrite Sum_app. apply Sum_ext. intros ip Vp. apply Sum_ext. intros iq Vq. rewrite <- (HR ip iq Vp Vq). reflexivity.
Qed.

Lemma drop_leading_adjoint dbg (s : list nat) : s <> [] -> forall pre s' fuel (g : arr R), wf g -> ashape g = pre ++ s' -> length s' = length s -> prod (ashape g) <> 0 ->
  length pre <= fuel ->
  exists r, drop_leading 0%R Rplus dbg fuel (length s) g = Ok r /\ ashape r = s' /\ wf r /\
    forall W, Sum s' (fun idx => item r idx * W idx)%R = Sum (ashape g) (fun idx => item g idx * W (skipn (length pre) idx))%R.
Proof.
  intros Ns. induction pre as [|d pre IH]; intros s' fuel g Wg Eg El Ng Hf.
  - exists g. split; [|split; [exact Eg|split; [exact Wg|intros W; now rewrite Eg]]].
    cbn [app] in Eg. destruct fuel; cbn [drop_leading]; rewrite Eg, El, Nat.ltb_irrefl; reflexivity.
  - destruct fuel as [|fuel]; [cbn in Hf; lia|]. cbn [drop_leading].
    assert (Hlt : length s <? length (ashape g) = true) by (apply Nat.ltb_lt; rewrite Eg; cbn [length app]; rewrite app_length; lia).
    rewrite Hlt.
    assert (Nq : pre ++ s' <> []).
    { intros E. apply (f_equal (@length nat)) in E. rewrite app_length in E. cbn in E. destruct s; [congruence|cbn in El; lia]. }
    destruct (sum_axis_adjoint dbg g [] d (pre ++ s') false Wg Eg Ng (or_intror Nq)) as (r & E & Es & Wr & H). cbn [length reduced_shape app] in *.
    rewrite E. cbn [obind]. destruct (IH s' fuel r Wr Es El) as (r' & E' & Es' & Wr' & H').
    { rewrite Es. rewrite Eg, prod_cons in Ng. lia. }
    { lia. }
    exists r'. split; [exact E'|]. split; [exact Es'|]. split; [exact Wr'|]. intros W. rewrite H', H. apply Sum_ext. intros idx _. f_equal. f_equal.
    unfold drop_axis. cbn [firstn app]. destruct idx; [now rewrite !skipn_nil|reflexivity].
Qed.

Lemma sum_ones_adjoint dbg : forall todo done todo' (g : arr R), wf g -> ashape g = done ++ todo' -> Forall2 str1 todo todo' -> prod (ashape g) <> 0 ->
  exists r, sum_ones 0%R Rplus dbg todo (length done) g = Ok r /\ ashape r = done ++ todo /\ wf r /\
    forall W, Sum (ashape r) (fun idx => item r idx * W idx)%R =
              Sum (ashape g) (fun idx => item g idx * W (firstn (length done) idx ++ clamp todo (skipn (length done) idx)))%R.
Proof.
  induction todo as [|d todo IH]; intros done todo' g Wg Eg St Ng; inversion St as [|? d' ? t' H1 H2]; subst.
  - exists g. split; [reflexivity|]. split; [exact Eg|]. split; [exact Wg|]. intros W. apply Sum_ext. intros idx Hv. f_equal. f_equal.
    apply valid_length in Hv. rewrite Eg, app_nil_r in Hv. rewrite <- Hv, firstn_all, skipn_all. cbn. now rewrite app_nil_r.
  - cbn [sum_ones]. destruct (Nat.eqb_spec d 1) as [->|Nd].
    + destruct (sum_axis_adjoint dbg g done d' t' true Wg Eg Ng (or_introl eq_refl)) as (r & E & Es & Wr & H).
      rewrite E. cbn [obind reduced_shape] in *.
      assert (Es2 : ashape r = (done ++ [1]) ++ t') by (rewrite Es, <- app_assoc; reflexivity).
      destruct (IH (done ++ [1]) t' r Wr Es2 H2) as (r' & E' & Es' & Wr' & H').
      { rewrite Es. rewrite Eg in Ng. rewrite prod_app, prod_cons in *. intros E0. apply Ng. apply Nat.eq_mul_0 in E0.
        destruct E0 as [->|E0]; [reflexivity|]. rewrite Nat.mul_1_l in E0. rewrite E0. lia. }
      rewrite app_length in E', H'. cbn [length] in E', H'. replace (length done + 1) with (S (length done)) in * by lia.
      exists r'. split; [exact E'|]. split; [rewrite Es', <- app_assoc; reflexivity|]. split; [exact Wr'|].
      intros W. rewrite H', H. apply Sum_ext. intros idx Hv. f_equal. f_equal. rewrite Eg in Hv.
      pose proof (valid_length _ _ Hv) as Lv. rewrite app_length in Lv. cbn [length] in Lv.
      rewrite <- (firstn_skipn (length done) idx). set (ip := firstn (length done) idx).
      assert (Lp : length ip = length done) by (unfold ip; rewrite firstn_length; lia).
      destruct (skipn (length done) idx) as [|k iq] eqn:Ek.
      { apply (f_equal (@length nat)) in Ek. rewrite skipn_length in Ek. cbn in Ek. lia. }
      unfold drop_axis. rewrite <- Lp. rewrite firstn_at, skipn_S_at, skipn_at. cbn [clamp map2 Nat.eqb].
      replace (ip ++ 0 :: iq) with ((ip ++ [0]) ++ iq) by (rewrite <- app_assoc; reflexivity).
      replace (S (length ip)) with (length (ip ++ [0])) by (rewrite app_length; cbn; lia).
      rewrite firstn_at, skipn_at, <- app_assoc. reflexivity.
    + destruct H1 as [<-|H1]; [|congruence].
      assert (Es2 : ashape g = (done ++ [d]) ++ t') by (rewrite Eg, <- app_assoc; reflexivity).
      destruct (IH (done ++ [d]) t' g Wg Es2 H2 Ng) as (r' & E' & Es' & Wr' & H').
      rewrite app_length in E', H'. cbn [length] in E', H'. replace (length done + 1) with (S (length done)) in * by lia.
      exists r'. split; [exact E'|]. split; [rewrite Es', <- app_assoc; reflexivity|]. split; [exact Wr'|].
      intros W. rewrite H'. apply Sum_ext. intros idx Hv. f_equal. f_equal. rewrite Eg in Hv.
      pose proof (valid_length _ _ Hv) as Lv. rewrite app_length in Lv. cbn [length] in Lv.
      rewrite <- (firstn_skipn (length done) idx). set (ip := firstn (length done) idx).
      assert (Lp : length ip = length done) by (unfold ip; rewrite firstn_length; lia).
      destruct (skipn (length done) idx) as [|k iq] eqn:Ek.
      { apply (f_equal (@length nat)) in Ek. rewrite skipn_length in Ek. cbn in Ek. lia. }
      rewrite <- Lp. rewrite skipn_S_at, skipn_at, firstn_at. cbn [clamp map2]. destruct (Nat.eqb_spec d 1); [congruence|].
      replace (ip ++ k :: iq) with ((ip ++ [k]) ++ iq) at 1 by (rewrite <- app_assoc; reflexivity).
      replace (S (length ip)) with (length (ip ++ [k])) by (rewrite app_length; cbn; lia).
      rewrite firstn_at, <- app_assoc. reflexivity.
Qed.

(** the gradient of one operand of a sum *)
Lemma unbroadcast_adjoint dbg s r (g : list R) : s <> [] -> Stretches s r -> prod r <> 0 -> length g = prod r ->
  exists u, unbroadcast 0%R Rplus dbg s (r, g) = Some (s, u) /\ length u = prod s /\
    forall w, length w = prod s -> inner u w = rsum (tab (prod r) (fun p => nth p g 0 * nth (offset s (source_index s (unoffset r p))) w 0))%R.
Proof.
  intros Ns St Nr Lg. pose proof (proj1 (Stretches_padded s r) St) as [Hl Hp].
  set (k := length r - length s) in *.
  assert (Sp : exists pre s', r = pre ++ s' /\ length pre = k /\ length s' = length s /\ Forall2 str1 s s').
  { exists (firstn k r), (skipn k r). split; [now rewrite firstn_skipn|]. split; [rewrite firstn_length; lia|]. split; [rewrite skipn_length; lia|].
    unfold padded in Hp. fold k in Hp. rewrite <- (firstn_skipn k r) in Hp. apply Forall2_app_inv_l in Hp.
    destruct Hp as (a & b & Ha & Hb & E). pose proof (Forall2_len _ _ _ Ha) as La. rewrite repeat_length in La.
    assert (b = skipn k r) as <-; [|exact Hb].
    rewrite (firstn_skipn k r) in E. rewrite E, La. symmetry. apply skipn_at. }
  destruct Sp as (pre & s' & Er & Lp & Ls & St').
  destruct (drop_leading_adjoint dbg s Ns pre s' (length r) (Arr r g) Lg Er Ls Nr ltac:(rewrite Er, app_length; lia)) as (a & E1 & S1 & W1 & H1).
  destruct (sum_ones_adjoint dbg s [] s' a W1 S1 St') as (u & E2 & S2 & W2 & H2).
  { rewrite S1. rewrite Er, prod_app in Nr. intros E0. apply Nr. rewrite E0. lia. }
  cbn [length app] in *. exists (adata u). split.
  { unfold unbroadcast. cbn [fst snd]. rewrite E1. cbn [obind]. rewrite E2. now rewrite S2. }
  split; [rewrite W2, S2; reflexivity|]. intros w Lw.
  rewrite (inner_Sum s) by (assumption || (rewrite W2, S2; reflexivity)).
  specialize (H2 (fun idx => nth (offset s idx) w 0%R)). rewrite S2 in H2. unfold item in H2 at 1. rewrite S2 in H2. rewrite H2.
  rewrite S1. cbn [firstn skipn app]. rewrite H1. unfold Sum. cbn [ashape]. apply rsum_tab_ext. intros p Hp'. unfold item. cbn [ashape adata].
  rewrite offset_unoffset by assumption. f_equal. f_equal. f_equal. unfold source_index, clamp. f_equal.
  rewrite (valid_length _ _ (unoffset_valid _ _ Hp')). fold k. now rewrite Lp.
Qed.
