(** The reductions. *)
From Coq Require Import List Arith Lia Bool PeanoNat Reals Lra.
From Coquelicot Require Import Rcomplements Hierarchy Continuity Derive.
From Verif Require Import ListBase TensorModel TensorSpec TensorProofs TensorProps ArrayModel GraphModel GraphSpec GradSpec LayerSpec LayerProofs LayerProofs4
  GradProofs BcastAdjoint CalcSpec CalcProofs CalcProofs2 CalcProofs3 OpModel OpSpec OpProofs Scalar OpRules OpRules2 OpProofs2 OpProofs3 OpProofs4.
Import ListNotations.
Local Open Scope nat_scope.

Lemma sum_all_tab l n : length l = n -> sum_all l = rsum (tab n (fun q => nth q l 0%R)).
Proof.
  intros <-. rewrite tab_nth. unfold sum_all. assert (G : forall a, fold_left Rplus l a = (a + rsum l)%R); [|rewrite G; ring].
  induction l; intros b; cbn [fold_left rsum]; [ring|]. rewrite IHl. ring.
Qed.

Lemma rsum_tab_const n c : rsum (tab n (fun _ => c)) = (INR n * c)%R.
Proof. induction n; [cbn; ring|]. rewrite tab_snoc, rsum_app, IHn, S_INR. cbn [rsum]. ring. Qed.

Lemma inner_repeat c n d : length d = n -> inner (repeat c n) d = (c * rsum (tab n (fun q => nth q d 0)))%R.
Proof.
  intros L. rewrite (inner_rsum n) by (rewrite ?repeat_length; auto). rewrite rsum_scal. apply rsum_tab_ext. intros q Hq.
  now rewrite nth_repeat_lt.
Qed.

Lemma sum_reduce_right i : sized i -> right1 op_sum_reduce i.
Proof.
  intros Hi. set (n := prod (fst i)). unfold sized in Hi.
  apply (right1_intro _ i [1] (fun u _ => rsum (tab n (fun q => nth q u 0%R))) (fun di _ => rsum (tab n (fun q => nth q di 0%R)))); [assumption|..].
  - intros w Sw Zw. unfold sized in Zw. cbn [apply1 op_sum_reduce]. rewrite (sum_all_tab _ n) by (unfold n; congruence). reflexivity.
  - intros u t0 di Eu L D p Hp. apply is_derive_rsum_tab. exact D.
  - intros [|g0 [|]] Lg; try discriminate. cbn [local1 op_sum_reduce obind2]. unfold fill_back. cbn [snd].
    eexists. split; [reflexivity|]. split; [apply repeat_length|]. intros di L. fold n. rewrite inner_repeat by assumption. cbn. ring.
Qed.

Lemma mean_reduce_right_iff i : sized i -> prod (fst i) <> 0 -> (right1 op_mean_reduce i <-> batch_size (fst i) = prod (fst i)).
Proof.
  intros Hi Hn. set (n := prod (fst i)) in *. unfold sized in Hi. assert (Nn : INR n <> 0%R) by now apply not_0_INR.
  assert (HF : forall w, fst w = fst i -> sized w -> apply1 op_mean_reduce w = Some ([1], tab (prod [1]) (fun _ => rsum (tab n (fun q => nth q (snd w) 0%R)) / INR n)%R)).
  { intros w Sw Zw. unfold sized in Zw. cbn [apply1 op_mean_reduce]. rewrite (sum_all_tab _ n) by (unfold n; congruence).
    rewrite Zw, Sw. reflexivity. }
  assert (HD : forall u t0 di, u t0 = snd i -> length di = prod (fst i) ->
     (forall q, q < prod (fst i) -> is_derive (fun t => nth q (u t) 0%R) t0 (nth q di 0%R)) ->
     is_derive (fun t => rsum (tab n (fun q => nth q (u t) 0)) / INR n)%R t0 (rsum (tab n (fun q => nth q di 0)) / INR n)%R).
  { intros u t0 di Eu L D. apply (is_derive_ext (fun t => / INR n * rsum (tab n (fun q => nth q (u t) 0)))%R); [intros t; apply Rmult_comm|].
    unfold Rdiv. rewrite Rmult_comm. apply is_derive_scal. apply (is_derive_rsum_tab n (fun q t => nth q (u t) 0%R)). exact D. }
  split.
  - intros HR. pose proof (HF i eq_refl Hi) as Ey.
    destruct (right1_unit op_mean_reduce i _ 0 0 (/ INR n)%R Hi HR Ey) with (c := 1%R) as (gi & E & N); [fold n; lia|cbn; lia| |].
    + apply (is_derive_ext (fun t => rsum (tab n (fun q => nth q (upd (snd i) 0 t) 0)) / INR n)%R).
      { intros t. rewrite (HF (fst i, upd (snd i) 0 t)); [reflexivity|reflexivity|]. unfold sized. cbn [fst snd]. now rewrite upd_length. }
      apply (d_eq _ _ (rsum (tab n (fun q => nth q (unit_at n 0) 0)) / INR n)%R).
      * apply HD; [apply upd_self; lia|unfold unit_at; rewrite upd_length; apply repeat_length|]. intros q Hq.
        rewrite unit_nth by (fold n; lia). rewrite (Nat.eqb_sym q 0). apply (is_derive_ext (fun t => if 0 =? q then t else nth q (snd i) 0%R)).
        { intros t. now rewrite nth_upd by lia. }
        destruct (0 =? q); [apply @is_derive_id|apply @is_derive_const].
      * rewrite (rsum_tab_ext n _ (fun q => if 0 =? q then 1 else 0)%R) by (intros q Hq; rewrite unit_nth, (Nat.eqb_sym q 0) by lia; reflexivity).
        replace (rsum (tab n (fun q => if 0 =? q then 1 else 0)%R)) with 1%R by (symmetry; apply (rsum_single (fun _ => 1%R)); lia). unfold Rdiv. rring.
    + cbn [local1 op_mean_reduce obind2 fst] in E. unfold fill_back in E. cbn [snd prod fold_right Nat.mul Nat.add repeat upd] in E. injection E as <-.
      cbn [snd] in N. fold n in N. rewrite nth_repeat_lt in N by lia. rewrite !Rmult_1_l in N. apply INR_eq.
      apply (f_equal Rinv) in N. destruct (Nat.eq_dec (batch_size (fst i)) 0) as [Z|Z].
      * exfalso. rewrite Z in N. unfold batch_size in Z. destruct (length (fst i) =? 1); [discriminate|]. unfold n in Hn.
        destruct (fst i) as [|d s]; [discriminate|]. cbn [hd] in Z. subst d. now cbn in Hn.
      * now rewrite !Rinv_inv in N.
  - intros E. apply (right1_intro _ i [1] (fun u _ => rsum (tab n (fun q => nth q u 0)) / INR n)%R (fun di _ => rsum (tab n (fun q => nth q di 0)) / INR n)%R); try assumption.
    + intros u t0 di Eu L D p Hp. now apply HD.
    + intros [|g0 [|]] Lg; try discriminate. cbn [local1 op_mean_reduce obind2]. unfold fill_back. cbn [snd].
      eexists. split; [reflexivity|]. split; [apply repeat_length|]. intros di L. fold n. rewrite inner_repeat by assumption. rewrite E. cbn. unfold Rdiv. ring.
Qed.

(** ** Reductions along an axis *)

Definition axis_at (axis : nat) (p q : list nat) : Prop := axis = length p \/ (q = [] /\ length p <= axis).

Lemma axis_parts_at axis p n q : axis_at axis p q -> axis_parts axis (p ++ n :: q) = (p, n, q).
Proof.
  intros H. unfold axis_parts. assert (E : pick_axis axis (p ++ n :: q) = length p).
  { unfold pick_axis. rewrite app_length. cbn [length]. destruct H as [-> |[-> H]]; cbn [length]; lia. }
  rewrite E. rewrite firstn_app, firstn_all, Nat.sub_diag. cbn [firstn]. rewrite app_nil_r.
  rewrite app_nth2, Nat.sub_diag by lia. cbn [nth]. rewrite skipn_app, skipn_all2 by lia. replace (S (length p) - length p) with 1 by lia. reflexivity.
Qed.

Lemma cons_not_nil {X} (p q : list nat) n (a b : X) : match p ++ n :: q with [] => a | _ :: _ => b end = b.
Proof. now destruct p. Qed.

Lemma fold_rsum n (f : nat -> R) : fold_left (fun a k => a + f k)%R (seq 0 n) 0%R = rsum (tab n f).
Proof. induction n; [reflexivity|]. rewrite seq_S, fold_left_app, tab_snoc, rsum_app. cbn [fold_left rsum Nat.add]. rewrite IHn. ring. Qed.

Lemma div_mod_split a Q st : st < Q -> (a * Q + st) / Q = a /\ (a * Q + st) mod Q = st.
Proof.
  intros H. split.
  - rewrite Nat.div_add_l by lia. rewrite Nat.div_small by assumption. lia.
  - rewrite Nat.add_comm, Nat.mod_add by lia. now apply Nat.mod_small.
Qed.

(** a tensor of shape p ++ n :: q, summed with weights from a tensor of shape p ++ q *)
Lemma weighted P n Q (x : nat -> nat -> nat -> R) (d : list R) : length d = P * (n * Q) ->
  inner (tab2 P (n * Q) (fun it j => x it (j / Q) (j mod Q))) d =
  rsum (tab P (fun it => rsum (tab Q (fun st => rsum (tab n (fun k => x it k st * nth ((it * n + k) * Q + st) d 0)%R))))).
Proof.
  intros L. rewrite (inner_rsum (P * (n * Q))) by (rewrite ?tab2_length; auto). rewrite tab_mul, rsum_tab2. apply rsum_tab_ext. intros it Hit.
  rewrite tab_mul, rsum_tab2. rewrite rsum_tab_swap. apply rsum_tab_ext. intros st Hst. apply rsum_tab_ext. intros k Hk.
  rewrite nth_tab2 by nia. destruct (div_mod_split k Q st Hst) as [-> ->]. do 2 f_equal. nia.
Qed.

Lemma reduce_sum_right axis p n q i : axis_at axis p q -> fst i = p ++ n :: q -> sized i -> right1 (op_reduce_sum axis) i.
Proof.
  intros HA Es Hi. unfold sized in Hi. set (P := prod p). set (Q := prod q).
  assert (Hn : prod (fst i) = P * (n * Q)) by (rewrite Es, prod_app; reflexivity).
  assert (Hs : prod (p ++ q) = P * Q) by apply prod_app.
  apply (right1_intro _ i (p ++ q) (fun u r => rsum (tab n (fun k => nth ((r / Q * n + k) * Q + r mod Q) u 0%R)))
           (fun di r => rsum (tab n (fun k => nth ((r / Q * n + k) * Q + r mod Q) di 0%R)))); [assumption|..].
  - intros w Sw Zw. cbn [apply1 op_reduce_sum]. rewrite Sw, Es, cons_not_nil, axis_parts_at by assumption. fold P Q. rewrite Hs, tab2_tab.
    do 2 f_equal. apply tab_ext. intros r Hr. unfold strided3. now rewrite fold_rsum.
  - rewrite Hs. intros u t0 di Eu L D r Hr. apply (is_derive_rsum_tab n (fun k t => nth ((r / Q * n + k) * Q + r mod Q) (u t) 0%R)). intros k Hk. apply D.
    assert (Q <> 0) by lia. pose proof (Nat.mod_upper_bound r Q ltac:(lia)). assert (r / Q < P) by (apply Nat.div_lt_upper_bound; lia). rewrite Hn. nia.
  - rewrite Hs. intros g Lg. cbn [local1 op_reduce_sum]. rewrite Es, cons_not_nil, axis_parts_at by assumption. cbn [obind2 fst snd]. rewrite cons_not_nil.
    fold P Q. rewrite Lg, Nat.eqb_refl. eexists. split; [reflexivity|]. rewrite <- Es, Hn, tab2_length. split; [reflexivity|]. intros di L.
    rewrite (weighted P n Q (fun it _ st => nth (it * Q + st) g 0%R)) by assumption. rewrite tab_mul, rsum_tab2. apply rsum_tab_ext. intros it Hit. apply rsum_tab_ext. intros st Hst.
    destruct (div_mod_split it Q st Hst) as [-> ->]. now rewrite rsum_scal.
Qed.

(** ** The largest and the smallest element *)

Section Best.
Variable better : R -> R -> bool.
Hypothesis better_irr : forall x, better x x = false.
Hypothesis better_trans : forall x y z, better x y = true -> better y z = true -> better x z = true.

(** no other element is as good as the best one *)
Lemma best_spec f n : n <> 0 -> best better f n < n /\ forall k, k < n -> better (f k) (f (best better f n)) = false.
Proof.
  intros Hn. unfold best. destruct n as [|n]; [lia|]. cbn [Nat.sub]. rewrite Nat.sub_0_r. clear Hn. induction n as [|n [IH1 IH2]].
  - cbn. split; [lia|]. intros k Hk. replace k with 0 by lia. apply better_irr.
  - rewrite seq_S, fold_left_app. cbn [fold_left Nat.add]. set (b := fold_left _ _ _) in *. destruct (better (f (S n)) (f b)) eqn:E.
    + split; [lia|]. intros k Hk. destruct (Nat.eq_dec k (S n)) as [->|N]; [apply better_irr|].
      destruct (better (f k) (f (S n))) eqn:F; [|reflexivity]. rewrite <- (IH2 k ltac:(lia)). symmetry. now apply (better_trans _ (f (S n))).
    + split; [lia|]. intros k Hk. destruct (Nat.eq_dec k (S n)) as [->|N]; [assumption|]. apply IH2. lia.
Qed.

Lemma best_unique f n m : m < n -> (forall k, k < n -> k <> m -> better (f m) (f k) = true) -> best better f n = m.
Proof.
  intros Hm H. destruct (best_spec f n ltac:(lia)) as [Hb Hs]. destruct (Nat.eq_dec (best better f n) m) as [|N]; [assumption|exfalso].
  specialize (H _ Hb N). rewrite Hs in H by assumption. discriminate.
Qed.

Hypothesis better_stays : forall (u v : R -> R) t0 du dv, is_derive u t0 du -> is_derive v t0 dv -> better (u t0) (v t0) = true ->
  locally t0 (fun t => better (u t) (v t) = true).

Lemma locally_all n (P : nat -> R -> Prop) t0 : (forall k, k < n -> locally t0 (P k)) -> locally t0 (fun t => forall k, k < n -> P k t).
Proof.
  induction n as [|n IH]; intros H.
  - apply filter_forall. intros t k Hk. lia.
  - assert (A : locally t0 (fun t => forall k, k < n -> P k t)) by (apply IH; intros; apply H; lia).
    generalize (filter_and _ _ A (H n (Nat.lt_succ_diag_r n))). apply filter_imp. intros t [A' B] k Hk.
    destruct (Nat.eq_dec k n) as [->|]; [assumption|apply A'; lia].
Qed.

Lemma reduce_by_right axis p n q i : axis_at axis p q -> fst i = p ++ n :: q -> sized i -> n <> 0 ->
  (forall it st, it < prod p -> st < prod q -> exists m, m < n /\
     forall k, k < n -> k <> m -> better (nth ((it * n + m) * prod q + st) (snd i) 0%R) (nth ((it * n + k) * prod q + st) (snd i) 0%R) = true) ->
  right1 (op_reduce_by better axis) i.
Proof.
  intros HA Es Hi Nn HU. unfold sized in Hi. set (P := prod p) in *. set (Q := prod q) in *.
  assert (Hn : prod (fst i) = P * (n * Q)) by (rewrite Es, prod_app; reflexivity).
  assert (Hs : prod (p ++ q) = P * Q) by apply prod_app.
  set (col := fun (u : list R) r k => nth ((r / Q * n + k) * Q + r mod Q) u 0%R).
  set (m := fun r => best better (col (snd i) r) n).
  assert (BU : forall r, r < P * Q -> m r < n /\ forall k, k < n -> k <> m r -> better (col (snd i) r (m r)) (col (snd i) r k) = true).
  { intros r Hr. assert (Q <> 0) by lia. pose proof (Nat.mod_upper_bound r Q ltac:(lia)) as Hm. assert (Hd : r / Q < P) by (apply Nat.div_lt_upper_bound; lia).
    destruct (HU _ _ Hd Hm) as (b & Hb & Hk). assert (E : m r = b) by (apply best_unique; [assumption|]; exact Hk). rewrite E. split; [assumption|exact Hk]. }
  apply (right1_intro _ i (p ++ q) (fun u r => col u r (best better (col u r) n)) (fun di r => col di r (m r))); [assumption|..].
  - intros w Sw Zw. unfold op_reduce_by. cbn [apply1]. rewrite Sw, Es, cons_not_nil, axis_parts_at by assumption. destruct (Nat.eqb_spec n 0); [contradiction|].
    fold P Q. rewrite Hs, tab2_tab. do 2 f_equal.
  - rewrite Hs. intros u t0 di Eu L D r Hr. assert (Q <> 0) by lia. pose proof (Nat.mod_upper_bound r Q ltac:(lia)) as Hm.
    assert (Hd : r / Q < P) by (apply Nat.div_lt_upper_bound; lia). destruct (BU r Hr) as [Hb Hk].
    assert (DC : forall k, k < n -> is_derive (fun t => col (u t) r k) t0 (col di r k)). { intros k Hk'. apply D. rewrite Hn. nia. }
    apply (is_derive_ext_loc (fun t => col (u t) r (m r))); [|now apply DC].
    assert (NB : locally t0 (fun t => forall k, k < n -> k <> m r -> better (col (u t) r (m r)) (col (u t) r k) = true)).
    { apply locally_all. intros k Hk'. destruct (Nat.eq_dec k (m r)) as [E|N].
      - apply filter_forall. intros t N. contradiction.
      - generalize (better_stays (fun t => col (u t) r (m r)) (fun t => col (u t) r k) t0 _ _ (DC _ Hb) (DC _ Hk')). rewrite Eu. intros G.
        specialize (G (Hk k Hk' N)). revert G. apply filter_imp. auto. }
    revert NB. apply filter_imp. intros t Ht. now rewrite (best_unique (col (u t) r) n (m r) Hb Ht).
  - rewrite Hs. intros g Lg. unfold op_reduce_by. cbn [local1]. rewrite Es, cons_not_nil, axis_parts_at by assumption. destruct (Nat.eqb_spec n 0); [contradiction|].
    cbn [obind2 fst snd]. rewrite cons_not_nil. fold P Q. rewrite Lg, Nat.eqb_refl. eexists. split; [reflexivity|]. rewrite <- Es, Hn, tab2_length. split; [reflexivity|]. intros di L.
    rewrite (weighted P n Q (fun it k st => if best better (fun k => strided3 (snd i) n Q it k st) n =? k then nth (it * Q + st) g 0%R else 0%R)) by assumption.
    rewrite tab_mul, rsum_tab2. apply rsum_tab_ext. intros it Hit. apply rsum_tab_ext. intros st Hst.
    assert (Hr : it * Q + st < P * Q) by nia. destruct (BU _ Hr) as [Hb _].
    unfold m, col in *. destruct (div_mod_split it Q st Hst) as [Ed Em]. rewrite Ed, Em in *. unfold strided3 in *.
    set (b := best better _ n) in *. rewrite <- (rsum_single (fun k => nth (it * Q + st) g 0 * nth ((it * n + k) * Q + st) di 0)%R n b Hb).
    apply rsum_tab_ext. intros k Hk. destruct (b =? k); [reflexivity|ring].
Qed.
End Best.

Lemma reduce_max_right axis p n q i : axis_at axis p q -> fst i = p ++ n :: q -> sized i -> n <> 0 ->
  (forall it st, it < prod p -> st < prod q -> exists m, m < n /\
     forall k, k < n -> k <> m -> (nth ((it * n + k) * prod q + st) (snd i) 0 < nth ((it * n + m) * prod q + st) (snd i) 0)%R) ->
  right1 (op_reduce_max axis) i.
Proof.
  intros HA Es Hi Nn HU. apply (reduce_by_right (fun x b => above x b)) with (p := p) (n := n) (q := q); try assumption.
  - intros x. apply above_false, Rle_refl.
  - intros x y z. destruct (above_spec x y), (above_spec y z), (above_spec x z); try discriminate; try lra; auto.
  - intros u v t0 du dv Du Dv. destruct (above_spec (u t0) (v t0)) as [H|]; [|discriminate]. intros _.
    generalize (stays_above u v t0 du dv Du Dv H). apply filter_imp. intros t Ht. now apply above_true.
  - intros it st Hit Hst. destruct (HU it st Hit Hst) as (m & Hm & H). exists m. split; [assumption|]. intros k Hk N. now apply above_true, H.
Qed.

Lemma reduce_min_right axis p n q i : axis_at axis p q -> fst i = p ++ n :: q -> sized i -> n <> 0 ->
  (forall it st, it < prod p -> st < prod q -> exists m, m < n /\
     forall k, k < n -> k <> m -> (nth ((it * n + m) * prod q + st) (snd i) 0 < nth ((it * n + k) * prod q + st) (snd i) 0)%R) ->
  right1 (op_reduce_min axis) i.
Proof.
  intros HA Es Hi Nn HU. apply (reduce_by_right (fun x b => above b x)) with (p := p) (n := n) (q := q); try assumption.
  - intros x. apply above_false, Rle_refl.
  - intros x y z. destruct (above_spec y x), (above_spec z y), (above_spec z x); try discriminate; try lra; auto.
  - intros u v t0 du dv Du Dv. destruct (above_spec (v t0) (u t0)) as [H|]; [|discriminate]. intros _.
    generalize (stays_above v u t0 dv du Dv Du H). apply filter_imp. intros t Ht. now apply above_true.
  - intros it st Hit Hst. destruct (HU it st Hit Hst) as (m & Hm & H). exists m. split; [assumption|]. intros k Hk N. now apply above_true, H.
Qed.
