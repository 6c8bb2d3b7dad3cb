(** img2col, its adjoint, and the convolution built from it. *)
From Coq Require Import List Arith Lia Bool PeanoNat ZArith Reals Lra Permutation.
From Verif Require Import ListBase Loops TensorModel TensorProofs ArrayModel ArrayProofs LayerModel LayerSpec LayerProofs LayerProofs2.
Import ListNotations.


Lemma on_image_spec R C row col : on_image R C row col = true <-> (0 <= row < Z.of_nat R /\ 0 <= col < Z.of_nat C)%Z.
Proof. unfold on_image. rewrite !andb_true_iff, !Z.leb_le, !Z.ltb_lt. lia. Qed.

Definition pixel {A} (zero : A) (R C K : nat) (d : list A) (bs : nat) (row col : Z) (ch : nat) : A :=
  if on_image R C row col then nth (pos4 R C K bs (Z.to_nat row) (Z.to_nat col) ch) d zero else zero.

Definition im_row (a : conv_args) (h i : nat) : Z := (Z.of_nat h * Z.of_nat (srow a) + Z.of_nat i * Z.of_nat (drow a) - Z.of_nat (prow a))%Z.
Definition im_col (a : conv_args) (w j : nat) : Z := (Z.of_nat w * Z.of_nat (scol a) + Z.of_nat j * Z.of_nat (dcol a) - Z.of_nat (pcol a))%Z.

Lemma entry_split kr kc ch i j : i < kr -> j < kc ->
  ((ch * kr + i) * kc + j) mod kc = j /\ (((ch * kr + i) * kc + j) / kc) mod kr = i /\ ((ch * kr + i) * kc + j) / (kc * kr) = ch.
Proof.
  intros Hi Hj. assert (E1 : ((ch * kr + i) * kc + j) / kc = ch * kr + i).
  { rewrite Nat.div_add_l by lia. rewrite (Nat.div_small j) by lia. lia. }
  split; [|split].
  - rewrite Nat.add_comm, Nat.mod_add by lia. now apply Nat.mod_small.
  - rewrite E1, Nat.add_comm, Nat.mod_add by lia. now apply Nat.mod_small.
  - rewrite <- Nat.div_div by lia. rewrite E1, Nat.div_add_l by lia. rewrite (Nat.div_small i) by lia. lia.
Qed.

Lemma table_entry_ok a BS R C K bs h w ch i j :
  bs < BS -> ch < K -> i < krow a -> j < kcol a -> (Z.of_nat (prod [BS; R; C; K]) <= 4294967295)%Z ->
  table_entry a R C K bs ((ch * krow a + i) * kcol a + j) h w
  = if on_image R C (im_row a h i) (im_col a w j)
    then Z.of_nat (pos4 R C K bs (Z.to_nat (im_row a h i)) (Z.to_nat (im_col a w j)) ch) else no_pixel.
Proof.
  intros Hbs Hch Hi Hj Hsz. destruct (entry_split (krow a) (kcol a) ch i j Hi Hj) as (E1 & E2 & E3).
  unfold table_entry. rewrite E1, E2, E3.
  replace (Z.of_nat h * Z.of_nat (srow a) - Z.of_nat (prow a) + Z.of_nat i * Z.of_nat (drow a))%Z with (im_row a h i) by (unfold im_row; ring).
  replace (Z.of_nat w * Z.of_nat (scol a) - Z.of_nat (pcol a) + Z.of_nat j * Z.of_nat (dcol a))%Z with (im_col a w j) by (unfold im_col; ring).
  generalize (im_row a h i) as row. generalize (im_col a w j) as col. intros col row.
  destruct (on_image R C row col) eqn:E.
  - apply on_image_spec in E. destruct E as [Hr Hc].
    replace ((row <? 0) || (Z.of_nat R <=? row) || (col <? 0) || (Z.of_nat C <=? col))%Z%bool with false
      by (symmetry; rewrite !orb_false_iff, !Z.ltb_ge, !Z.leb_gt; lia).
    assert (Hlt := pos4_lt BS R C K bs (Z.to_nat row) (Z.to_nat col) ch Hbs ltac:(lia) ltac:(lia) Hch).
    assert (Eq : (Z.of_nat (bs * R * C * K) + (row * Z.of_nat C + col) * Z.of_nat K + Z.of_nat ch)%Z
                 = Z.of_nat (pos4 R C K bs (Z.to_nat row) (Z.to_nat col) ch)).
    { unfold pos4. rewrite !Nat2Z.inj_add, !Nat2Z.inj_mul, !Z2Nat.id by lia. ring. }
    rewrite Eq. unfold to_u32. rewrite Z.mod_small; [reflexivity|]. lia.
  - replace ((row <? 0) || (Z.of_nat R <=? row) || (col <? 0) || (Z.of_nat C <=? col))%Z%bool with true; [reflexivity|].
    symmetry. destruct ((row <? 0) || (Z.of_nat R <=? row) || (col <? 0) || (Z.of_nat C <=? col))%Z%bool eqn:E'; [reflexivity|].
    apply not_true_iff_false in E. exfalso. apply E. apply on_image_spec. rewrite !orb_false_iff, !Z.ltb_ge, !Z.leb_gt in E'. lia.
Qed.

Lemma index_table_length a BS R C K OR OC : length (index_table a BS R C K OR OC) = krow a * kcol a * K * (BS * OR * OC).
Proof. unfold index_table. rewrite writes_length, repeat_length, loop4_length, prod4. ring. Qed.

Lemma index_table_at a BS R C K OR OC bs q h w :
  bs < BS -> q < krow a * kcol a * K -> h < OR -> w < OC ->
  nth_error (index_table a BS R C K OR OC) (q * (BS * OR * OC) + ((bs * OR + h) * OC + w)) = Some (table_entry a R C K bs q h w).
Proof.
  intros Hbs Hq Hh Hw. unfold index_table. set (rows := krow a * kcol a * K) in *.
  set (record := loop4 BS rows OR OC _). set (P := OR * OC).
  assert (Lr : length record = BS * (rows * P)) by (unfold record; rewrite loop4_length, prod4; unfold P; ring).
  assert (Hc : h * OC + w < P) by (unfold P; nia).
  assert (Hpos : forall bs q c, bs < BS -> q < rows -> c < P -> q * (BS * P) + (bs * P + c) < BS * (rows * P)).
  { intros b' q' c' H1 H2 H3. assert (b' * P + c' < BS * P) by nia. assert ((q' + 1) * (BS * P) <= rows * (BS * P)) by (apply Nat.mul_le_mono_r; lia). nia. }
  replace (q * (BS * OR * OC) + ((bs * OR + h) * OC + w)) with (q * (BS * P) + (bs * P + (h * OC + w))) by (unfold P; ring).
  apply writes_at.
  - rewrite repeat_length, Lr. now apply Hpos.
  - apply in_loop3. exists bs, q, (h * OC + w). split; [assumption|]. split; [assumption|]. split; [assumption|]. f_equal.
    symmetry. apply nth_error_nth. unfold record. exact (nth_error_loop4' BS rows OR OC _ bs q h w Hbs Hq Hh Hw).
  - intros v Hv Ev. apply in_loop3 in Hv. destruct Hv as (b' & q' & c' & H1 & H2 & H3 & ->). cbn [fst snd] in *.
    assert (A1 : b' * P + c' < BS * P) by nia. assert (A2 : bs * P + (h * OC + w) < BS * P) by nia.
    assert (q' = q).
    { apply (Nat.div_unique (q * (BS * P) + (bs * P + (h * OC + w))) (BS * P) q') in A1; [|lia].
      rewrite A1. rewrite Nat.div_add_l by lia. rewrite (Nat.div_small (bs * P + (h * OC + w))) by assumption. lia. }
    subst q'. assert (b' = bs) by nia. subst b'. assert (c' = h * OC + w) by lia. subst c'.
    apply nth_error_nth. unfold record. exact (nth_error_loop4' BS rows OR OC _ bs q h w Hbs Hq Hh Hw).
Qed.

(** every position of the table is of that form *)
Lemma table_position BS OR OC kr kc K p :
  p < kr * kc * K * (BS * OR * OC) ->
  exists ch i j bs h w, ch < K /\ i < kr /\ j < kc /\ bs < BS /\ h < OR /\ w < OC /\
    p = ((ch * kr + i) * kc + j) * (BS * OR * OC) + ((bs * OR + h) * OC + w) /\ (ch * kr + i) * kc + j < kr * kc * K.
Proof.
  intros Hp. destruct (divmod_lt _ _ _ Hp) as (H1 & H2 & H3).
  replace (kr * kc * K) with (K * kr * kc) in H1 by ring.
  destruct (divmod_lt _ _ _ H1) as (H4 & H5 & H6). destruct (divmod_lt _ _ _ H4) as (H7 & H8 & H9).
  destruct (divmod_lt _ _ _ H2) as (G1 & G2 & G3). destruct (divmod_lt _ _ _ G1) as (G4 & G5 & G6).
  remember (p / (BS * OR * OC)) as q eqn:Eq. clear Eq. remember (p mod (BS * OR * OC)) as m eqn:Em. clear Em.
  exists (q / kc / kr), ((q / kc) mod kr), (q mod kc), (m / OC / OR), ((m / OC) mod OR), (m mod OC).
  rewrite <- H9, <- H6, <- G6, <- G3. replace (kr * kc * K) with (K * kr * kc) by ring. auto 10.
Qed.

(** the table of an image fits the image *)
Lemma index_table_fits a BS R C K OR OC :
  (Z.of_nat (prod [BS; R; C; K]) <= 4294967295)%Z ->
  Forall (fun z => z = no_pixel \/ exists p, p < prod [BS; R; C; K] /\ z = Z.of_nat p) (index_table a BS R C K OR OC).
Proof.
  intros Hsz. apply Forall_forall. intros z Hz. apply In_nth_error in Hz. destruct Hz as (p & Hp).
  assert (Hl : p < krow a * kcol a * K * (BS * OR * OC)) by (rewrite <- (index_table_length a BS R C K OR OC); apply nth_error_Some; congruence).
  destruct (table_position _ _ _ _ _ _ _ Hl) as (ch & i & j & bs & h & w & Hch & Hi & Hj & Hbs & Hh & Hw & -> & Hq).
  rewrite index_table_at in Hp by assumption. injection Hp as <-. rewrite (table_entry_ok a BS) by assumption.
  destruct (on_image R C (im_row a h i) (im_col a w j)) eqn:E; [right|now left].
  apply on_image_spec in E. eexists. split; [|reflexivity]. apply pos4_lt; lia.
Qed.

(** the operator's table is empty (new) or was made for images of this shape *)
Definition table_for a BS R C K OR OC (table : list Z) : Prop := table = [] \/ table = index_table a BS R C K OR OC.

Lemma img2col_fwd_ok {A} (zero : A) dbg a table x BS R C K OR OC :
  wf x -> ashape x = [BS; R; C; K] -> (Z.of_nat (prod [BS; R; C; K]) <= 4294967295)%Z ->
  conv_extent R (prow a) (krow a) (srow a) (drow a) = Some OR -> conv_extent C (pcol a) (kcol a) (scol a) (dcol a) = Some OC ->
  table_for a BS R C K OR OC table ->
  exists d, img2col_fwd zero dbg a table x = Ok (index_table a BS R C K OR OC, Arr [krow a * kcol a * K; BS * OR * OC] d) /\
    length d = krow a * kcol a * K * (BS * OR * OC) /\
    d = map (fun z => if (z =? no_pixel)%Z then zero else nth (Z.to_nat z) (adata x) zero) (index_table a BS R C K OR OC) /\
    forall ch i j bs h w, ch < K -> i < krow a -> j < kcol a -> bs < BS -> h < OR -> w < OC ->
      nth_error d (((ch * krow a + i) * kcol a + j) * (BS * OR * OC) + ((bs * OR + h) * OC + w))
      = Some (pixel zero R C K (adata x) bs (im_row a h i) (im_col a w j) ch).
Proof.
  intros W E Hsz EO EC Ht. assert (L := wf4 _ _ _ _ _ W E). unfold img2col_fwd. rewrite (with4_ok dbg x BS R C K) by assumption.
  rewrite EO, EC. cbv zeta. set (T := index_table a BS R C K OR OC).
  assert (LT : length T = krow a * kcol a * K * (BS * OR * OC)) by apply index_table_length.
  replace (if length table =? krow a * kcol a * K * (BS * OR * OC) then table else T) with T.
  2:{ destruct Ht as [-> | ->]; fold T.
      - cbn [length]. destruct (Nat.eqb_spec 0 (krow a * kcol a * K * (BS * OR * OC))) as [E0|]; [|reflexivity]. rewrite <- E0 in LT. now destruct T.
      - now destruct (length T =? _). }
  assert (F := index_table_fits a BS R C K OR OC Hsz). fold T in F. rewrite Forall_forall in F.
  replace (forallb _ _) with true.
  2:{ symmetry. apply forallb_forall. intros z Hz. destruct (F z Hz) as [->|(p & Hp & ->)]; [now rewrite Z.eqb_refl|].
      apply orb_true_iff. right. apply Z.ltb_lt. rewrite L. lia. }
  eexists. split; [reflexivity|]. split; [now rewrite map_length|]. split; [reflexivity|].
  intros ch i j bs h w Hch Hi Hj Hbs Hh Hw. assert (Hq : (ch * krow a + i) * kcol a + j < krow a * kcol a * K).
  { assert (ch * krow a + i < K * krow a) by nia. replace (krow a * kcol a * K) with (K * krow a * kcol a) by ring. nia. }
  rewrite (map_nth_error _ _ _ (index_table_at a BS R C K OR OC bs _ h w Hbs Hq Hh Hw)). rewrite (table_entry_ok a BS) by assumption.
  unfold pixel. destruct (on_image R C (im_row a h i) (im_col a w j)) eqn:Ei.
  - apply on_image_spec in Ei. assert (Hlt := pos4_lt BS R C K bs (Z.to_nat (im_row a h i)) (Z.to_nat (im_col a w j)) ch Hbs ltac:(lia) ltac:(lia) Hch).
    replace (_ =? no_pixel)%Z with false by (symmetry; apply Z.eqb_neq; unfold no_pixel; lia). now rewrite Nat2Z.id.
  - now rewrite Z.eqb_refl.
Qed.

(** ** adjoint of a gather through a table *)

Lemma filter_map {A B} (h : A -> B) (f : B -> bool) l : filter f (map h l) = map h (filter (fun x => f (h x)) l).
Proof. induction l as [|a l IH]; [reflexivity|]. cbn [map filter]. destruct (f (h a)); cbn [map]; now rewrite IH. Qed.

Lemma filter_filter {A} (f g : A -> bool) l : filter f (filter g l) = filter (fun x => g x && f x) l.
Proof. induction l as [|a l IH]; [reflexivity|]. cbn [filter]. destruct (g a); cbn [filter andb]; [destruct (f a); now rewrite IH|assumption]. Qed.

Lemma combine_tab {A B} (da : A) (db : B) (l : list A) (m : list B) :
  length l = length m -> combine l m = tab (length m) (fun i => (nth i l da, nth i m db)).
Proof.
  intros H. apply (list_eq_nth_d (da, db)); rewrite combine_length; [rewrite tab_length; lia|].
  intros i Hi. rewrite nth_tab by lia. now apply combine_nth.
Qed.

Lemma gathered_at {A} (zero : A) (T : list Z) (g : list A) p (f : Z -> bool) :
  length T = length g ->
  map snd (filter (fun w => fst w =? p) (map (fun w => (Z.to_nat (fst w), snd w)) (filter (fun w => f (fst w)) (combine T g))))
  = map (fun q => nth q g zero) (filter (fun q => f (nth q T 0%Z) && (Z.to_nat (nth q T 0%Z) =? p)) (seq 0 (length g))).
Proof.
  intros H. rewrite (combine_tab 0%Z zero) by assumption. unfold tab. rewrite filter_map, filter_map, filter_map, !map_map, filter_filter. cbn [fst snd]. reflexivity.
Qed.

Lemma img2col_bwd_adjoint (T : list Z) input g m :
  m = prod (ashape input) -> length (adata g) = length T ->
  Forall (fun z => z = no_pixel \/ exists p, p < m /\ z = Z.of_nat p) T -> (Z.of_nat m <= 4294967295)%Z ->
  exists b, img2col_bwd 0%R Rplus T input g = Ok (Arr (ashape input) b) /\ length b = m /\
    forall x, length x = m ->
      inner b x = inner (adata g) (map (fun z => if (z =? no_pixel)%Z then 0%R else nth (Z.to_nat z) x 0%R) T).
Proof.
  intros -> Lg F Hm. rewrite Forall_forall in F. unfold img2col_bwd. rewrite Lg, Nat.leb_refl, firstn_all.
  replace (forallb _ T) with true.
  2:{ symmetry. apply forallb_forall. intros z Hz. destruct (F z Hz) as [->|(p & Hp & ->)]; [reflexivity|]. apply orb_true_iff. right. apply Z.ltb_lt. lia. }
  cbn [andb]. cbv zeta. eexists. split; [reflexivity|]. split; [now rewrite accumulate_length, repeat_length|]. intros x Lx.
  set (m := prod (ashape input)) in *.
  assert (Fq : forall q, q < length T -> nth q T 0%Z = no_pixel \/ exists p, p < m /\ nth q T 0%Z = Z.of_nat p) by (intros q Hq; apply F; now apply nth_In).
  apply (adjoint_gather (fun q => if (nth q T 0 =? no_pixel)%Z then None else Some (Z.to_nat (nth q T 0%Z)))
           (fun p => filter (fun q => negb (nth q T 0 =? no_pixel)%Z && (Z.to_nat (nth q T 0%Z) =? p)) (seq 0 (length (adata g)))) m (length (adata g))); auto.
  - now rewrite map_length, Lg.
  - now rewrite accumulate_length, repeat_length.
  - intros q Hq. rewrite Lg in Hq.
    rewrite (nth_indep _ 0%R (if (0 =? no_pixel)%Z then 0%R else nth (Z.to_nat 0) x 0%R)) by now rewrite map_length.
    rewrite (map_nth (fun z => if (z =? no_pixel)%Z then 0%R else nth (Z.to_nat z) x 0%R)). now destruct (nth q T 0 =? no_pixel)%Z.
  - intros p Hp. erewrite nth_error_nth; [|apply accumulate_at; rewrite repeat_length; exact Hp].
    rewrite nth_repeat_any. rewrite (gathered_at 0%R T (adata g) p (fun z => negb (z =? no_pixel)%Z)) by auto. rewrite fold_left_Rplus. ring.
  - intros q p Hq. rewrite Lg in Hq. destruct (Fq q Hq) as [->|(p' & Hp' & ->)]; [discriminate|].
    destruct (Z.of_nat p' =? no_pixel)%Z; [discriminate|]. intros E. injection E as <-. now rewrite Nat2Z.id.
  - intros p _. apply NoDup_filter. apply seq_NoDup.
  - intros p q _. rewrite filter_In, in_seq. rewrite andb_true_iff, Nat.eqb_eq. destruct (nth q T 0 =? no_pixel)%Z; cbn [negb]; split.
    + intros (_ & ? & _). discriminate.
    + intros (_ & ?). discriminate.
    + intros (? & _ & <-). split; [lia|reflexivity].
    + intros (? & E). injection E as <-. split; [lia|auto].
Qed.

(** ** the convolution *)

Lemma fold_left_map_acc {A B} (plus : A -> A -> A) (g : B -> A) l z : fold_left (fun acc q => plus acc (g q)) l z = fold_left plus (map g l) z.
Proof. revert z. induction l; intros z; [reflexivity|]. cbn [fold_left map]. apply IHl. Qed.

Lemma tab_loop3 {A} R C K (g : nat -> A) : tab (C * K * R) g = loop3 R C K (fun r c k => g ((r * C + c) * K + k)).
Proof.
  apply list_eq_nth; rewrite tab_length; [rewrite loop3_length; ring|]. intros p Hp. rewrite nth_error_tab by assumption.
  replace (C * K * R) with (R * C * K) in Hp by ring. destruct (divmod_lt _ _ _ Hp) as (H1 & H2 & H3). destruct (divmod_lt _ _ _ H1) as (H4 & H5 & H6).
  remember (p / K) as q eqn:Eq. clear Eq. remember (p mod K) as k eqn:Ek. clear Ek.
  assert (Ep : p = (q / C) * (C * K) + ((q mod C) * K + k)) by (rewrite H3 at 1; rewrite H6 at 1; ring).
  rewrite Ep at 2. rewrite nth_error_loop3 by assumption. do 2 f_equal. rewrite <- H6. assumption.
Qed.

Lemma conv_extent_pos n pad kernel stride dilation m : conv_extent n pad kernel stride dilation = Some m -> m <> 0.
Proof. unfold conv_extent. destruct (_ || _); [discriminate|]. intros E. injection E as <-. lia. Qed.

Lemma conv_extent_args n pad kernel stride dilation m : conv_extent n pad kernel stride dilation = Some m -> kernel <> 0 /\ stride <> 0.
Proof.
  unfold conv_extent. destruct ((stride =? 0) || (kernel =? 0) || (n + 2 * pad <? dilation * (kernel - 1) + 1)) eqn:E; [discriminate|]. intros _.
  rewrite !orb_false_iff in E. destruct E as [[E1 E2] _]. apply Nat.eqb_neq in E1, E2. auto.
Qed.

Lemma conv2d_ok {A} (zero : A) dbg plus mul a x kernel BS R C K OR OC nc :
  wf x -> ashape x = [BS; R; C; K] -> (Z.of_nat (prod [BS; R; C; K]) <= 4294967295)%Z ->
  wf kernel -> ashape kernel = [nc; krow a; kcol a; K] -> K <> 0 -> nc <> 0 ->
  conv_extent R (prow a) (krow a) (srow a) (drow a) = Some OR -> conv_extent C (pcol a) (kcol a) (scol a) (dcol a) = Some OC ->
  conv_extent C (prow a) (kcol a) (scol a) (dcol a) = Some OC ->
  exists d, conv2d zero dbg plus mul a R C x kernel = Ok (Arr [BS; OR; OC; nc] d) /\ length d = prod [BS; OR; OC; nc] /\
    forall bs h w oc, bs < BS -> h < OR -> w < OC -> oc < nc ->
      nth_error d (pos4 OR OC nc bs h w oc)
      = Some (fold_left plus (loop3 K (krow a) (kcol a) (fun ch i j =>
                mul (nth (pos4 K (krow a) (kcol a) oc ch i j) (adata kernel) zero) (pixel zero R C K (adata x) bs (im_row a h i) (im_col a w j) ch))) zero).
Proof.
  intros W E Hsz Wk Ek HK Hnc EO EC EC'.
  destruct (conv_extent_args _ _ _ _ _ _ EO) as [Hkr _]. destruct (conv_extent_args _ _ _ _ _ _ EC) as [Hkc _].
  assert (HO := conv_extent_pos _ _ _ _ _ _ EO). assert (HC := conv_extent_pos _ _ _ _ _ _ EC).
  destruct (img2col_fwd_ok zero dbg a [] x BS R C K OR OC W E Hsz EO EC (or_introl eq_refl)) as (col & Ecol & Lcol & _ & Hcol).
  unfold conv2d. rewrite Ek, !Nat.eqb_refl. cbn [andb negb]. rewrite Ecol. cbn [obind snd ashape adata].
  set (rows := krow a * kcol a * K) in *. set (cols := BS * OR * OC) in *.
  assert (Hrows : rows <> 0) by (unfold rows; intros Z0; apply Nat.eq_mul_0 in Z0; destruct Z0 as [Z0|]; [apply Nat.eq_mul_0 in Z0; destruct Z0|]; congruence).
  assert (Lk : length (adata kernel) = nc * rows) by (unfold wf in Wk; rewrite Wk, Ek, prod4; unfold rows; ring).
  assert (P1 : forall n, prod [n] = n) by (intros n; cbn; lia).
  unfold reshape_op at 1. rewrite P1. rewrite (proj2 (Nat.eqb_neq rows 0) Hrows). rewrite Lk. rewrite Nat.div_mul by assumption.
  rewrite Nat.eqb_refl. cbn [check obind ashape adata]. rewrite Nat.eqb_refl. cbn [check negb].
  unfold reshaped. rewrite Lk. replace (prod [nc; rows]) with (nc * rows) by (cbn; lia). rewrite Nat.eqb_refl.
  set (flat := matmul zero plus mul nc rows cols (adata kernel) col).
  destruct (transpose_ok zero dbg [] (Arr [nc; cols] flat) nc cols) as (tr & Etr & Ltr & Htr).
  { unfold wf. cbn [ashape adata]. unfold flat, matmul. rewrite tab2_length. cbn. lia. }
  { reflexivity. }
  rewrite Etr. cbn [obind snd]. rewrite EO, EC'. unfold reshape_op. cbn [adata].
  assert (P3 : prod [OR; OC; nc] = OR * OC * nc) by (cbn; lia). rewrite P3.
  assert (HP : OR * OC * nc <> 0) by (intros Z0; apply Nat.eq_mul_0 in Z0; destruct Z0 as [Z0|]; [apply Nat.eq_mul_0 in Z0; destruct Z0|]; congruence).
  rewrite (proj2 (Nat.eqb_neq _ 0) HP). rewrite Ltr. replace (cols * nc) with (BS * (OR * OC * nc)) by (unfold cols; ring).
  rewrite Nat.div_mul by assumption. rewrite Nat.eqb_refl. cbn [check]. unfold reshaped.
  replace (prod [BS; OR; OC; nc]) with (BS * (OR * OC * nc)) by (rewrite prod4; ring).
  rewrite Ltr. replace (cols * nc) with (BS * (OR * OC * nc)) by (unfold cols; ring). rewrite Nat.eqb_refl.
  exists tr. split; [reflexivity|]. split; [rewrite Ltr; unfold cols; ring|]. intros bs h w oc Hbs Hh Hw Hoc.
  assert (Hcc : (bs * OR + h) * OC + w < cols) by (unfold cols; assert (bs * OR + h < BS * OR) by nia; nia).
  replace (pos4 OR OC nc bs h w oc) with (((bs * OR + h) * OC + w) * nc + oc) by (unfold pos4; ring).
  rewrite Htr by assumption. cbn [adata]. unfold flat, matmul. rewrite nth_error_tab2 by assumption. f_equal.
  rewrite (fold_left_map_acc plus (fun q => mul (nth (oc * rows + q) (adata kernel) zero) (nth (q * cols + ((bs * OR + h) * OC + w)) col zero))).
  f_equal. change (tab rows (fun q => mul (nth (oc * rows + q) (adata kernel) zero) (nth (q * cols + ((bs * OR + h) * OC + w)) col zero)) = loop3 K (krow a) (kcol a) (fun ch i j =>
                mul (nth (pos4 K (krow a) (kcol a) oc ch i j) (adata kernel) zero) (pixel zero R C K (adata x) bs (im_row a h i) (im_col a w j) ch))).
  unfold rows at 1. rewrite tab_loop3. apply list_eq_nth; rewrite !loop3_length; [reflexivity|]. intros p Hp.
  rewrite !loop3_tab. replace (K * (krow a * kcol a)) with (K * (krow a * kcol a)) in Hp by reflexivity.
  destruct (divmod_lt _ _ _ Hp) as (H1 & H2 & H3). destruct (divmod_lt _ _ _ H2) as (H4 & H5 & H6).
  rewrite H3. rewrite !nth_error_tab2 by assumption. f_equal. f_equal.
  - f_equal. unfold pos4, rows. ring.
  - apply nth_error_nth. apply Hcol; assumption.
Qed.
