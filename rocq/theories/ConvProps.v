(** Properties C38 and C52: img2col and the convolution built from it; "same" padding. *)
From Coq Require Import List Arith Lia Bool PeanoNat ZArith Reals Lra.
From Verif Require Import ListBase Loops TensorModel TensorProofs ArrayModel ArrayProofs LayerModel LayerSpec LayerProofs LayerProofs2 LayerProofs4 ConvProofs LayerProps.
Import ListNotations.

(** pixel (row, col) of channel ch of image bs, and zero outside the image *)
Definition picture {A} (zero : A) (x : arr A) (bs : nat) (row col : Z) (ch : nat) : option A :=
  match ashape x with
  | [_; R; C; _] => if on_image R C row col then at_index x [bs; Z.to_nat row; Z.to_nat col; ch] else Some zero
  | _ => None
  end.

(** where kernel element i looks for output position h *)
Definition looks_at (h stride i dilation padding : nat) : Z :=
  (Z.of_nat h * Z.of_nat stride + Z.of_nat i * Z.of_nat dilation - Z.of_nat padding)%Z.

(** y is the column matrix of x: one row per channel and kernel element, one column per image and output position *)
Definition is_column_matrix {A} (zero : A) (a : conv_args) (BS K OR OC : nat) (x y : arr A) : Prop :=
  wf y /\ ashape y = [krow a * kcol a * K; BS * OR * OC] /\
  forall ch i j bs h w, ch < K -> i < krow a -> j < kcol a -> bs < BS -> h < OR -> w < OC ->
    at_index y [(ch * krow a + i) * kcol a + j; (bs * OR + h) * OC + w]
    = picture zero x bs (looks_at h (srow a) i (drow a) (prow a)) (looks_at w (scol a) j (dcol a) (pcol a)) ch.

Lemma pixel_picture {A} (zero : A) (x : arr A) BS R C K bs row col ch :
  wf x -> ashape x = [BS; R; C; K] -> bs < BS -> ch < K -> Some (pixel zero R C K (adata x) bs row col ch) = picture zero x bs row col ch.
Proof.
  intros W E Hb Hc. assert (L := wf4 _ _ _ _ _ W E). unfold pixel, picture. rewrite E. destruct (on_image R C row col) eqn:Ei; [|reflexivity].
  apply on_image_spec in Ei. destruct x as [s d]. cbn [ashape adata] in *. subst s. rewrite at4.
  symmetry. apply nth_error_of_nth. rewrite L. apply pos4_lt; lia.
Qed.

Lemma img2col_step {A} (zero : A) dbg a table x BS R C K OR OC :
  wf x -> ashape x = [BS; R; C; K] -> (Z.of_nat (prod [BS; R; C; K]) <= 4294967295)%Z ->
  conv_extent R (prow a) (krow a) (srow a) (drow a) = Some OR -> conv_extent C (pcol a) (kcol a) (scol a) (dcol a) = Some OC ->
  table_for a BS R C K OR OC table ->
  exists y, img2col_fwd zero dbg a table x = Ok (index_table a BS R C K OR OC, y) /\ is_column_matrix zero a BS K OR OC x y.
Proof.
  intros W E Hsz EO EC Ht. destruct (img2col_fwd_ok zero dbg a table x BS R C K OR OC W E Hsz EO EC Ht) as (d & Ed & Ld & _ & Hd).
  eexists. split; [exact Ed|]. split; [apply wf_arr; rewrite Ld; cbn; lia|]. split; [reflexivity|].
  intros ch i j bs h w H1 H2 H3 H4 H5 H6. unfold at_index. cbn [ashape adata offset prod fold_right]. rewrite Nat.mul_1_r, Nat.mul_1_r, Nat.add_0_r.
  rewrite Hd by assumption. rewrite (pixel_picture zero x BS R C K) by assumption. reflexivity.
Qed.

(** one img2col operator run on any sequence of images of one shape; images of at most 2^32-1 elements *)
Theorem C38_img2col : forall (A : Type) (zero : A) dbg a BS R C K OR OC xs,
  (Z.of_nat (prod [BS; R; C; K]) <= 4294967295)%Z ->
  conv_extent R (prow a) (krow a) (srow a) (drow a) = Some OR -> conv_extent C (pcol a) (kcol a) (scol a) (dcol a) = Some OC ->
  Forall (fun x : arr A => wf x /\ ashape x = [BS; R; C; K]) xs ->
  exists ys, runs (img2col_fwd zero dbg a) [] xs = Ok ys /\ Forall2 (is_column_matrix zero a BS K OR OC) xs ys.
Proof.
  intros A zero dbg a BS R C K OR OC xs Hsz EO EC F.
  assert (G : forall table, table_for a BS R C K OR OC table -> exists ys, runs (img2col_fwd zero dbg a) table xs = Ok ys /\ Forall2 (is_column_matrix zero a BS K OR OC) xs ys).
  { induction F as [|x xs [W E] F IH]; intros table Ht; cbn [runs]; [exists []; auto|].
    destruct (img2col_step zero dbg a table x BS R C K OR OC W E Hsz EO EC Ht) as (y & Ey & Hy). rewrite Ey. cbn [obind fst snd].
    destruct (IH (index_table a BS R C K OR OC) (or_intror eq_refl)) as (ys & Eys & Hys). rewrite Eys. cbn [obind]. eexists. split; [reflexivity|]. now constructor. }
  apply G. now left.
Qed.
Print Assumptions C38_img2col.

Example C38_img2col_case :
  runs (img2col_fwd 0%Z true (Conv 2 2 0 1 1 1 1 1)) [] [Arr [1; 2; 2; 1] [1; 2; 3; 4]%Z]
  = Ok [Arr [4; 3] [0; 1; 2; 1; 2; 0; 0; 3; 4; 3; 4; 0]%Z].
Proof. reflexivity. Qed.

(** an image of another shape but the same column-matrix size is gathered with the table of the first one *)
Theorem C38_img2col_refuted :
  ~ (forall dbg a BS R C K OR OC (x0 x y0 y : arr Z), wf x0 -> wf x -> ashape x = [BS; R; C; K] ->
       conv_extent R (prow a) (krow a) (srow a) (drow a) = Some OR -> conv_extent C (pcol a) (kcol a) (scol a) (dcol a) = Some OC ->
       runs (img2col_fwd 0%Z dbg a) [] [x0; x] = Ok [y0; y] -> is_column_matrix 0%Z a BS K OR OC x y).
Proof.
  intros H. destruct (H true (Conv 1 2 0 0 1 1 1 1) 1 2 2 1 2 1 (Arr [1; 1; 3; 1] [5; 6; 7]%Z) (Arr [1; 2; 2; 1] [1; 2; 3; 4]%Z) _ _ eq_refl eq_refl eq_refl eq_refl eq_refl eq_refl) as (_ & _ & G).
  specialize (G 0 0 0 0 1 0 ltac:(lia) ltac:(cbn; lia) ltac:(cbn; lia) ltac:(lia) ltac:(lia) ltac:(lia)). cbn in G. discriminate.
Qed.
Print Assumptions C38_img2col_refuted.

(** ... or, when the table points beyond a smaller image, reads outside it *)
Theorem C38_img2col_out_of_bounds :
  exists a (x0 x : arr Z), wf x0 /\ wf x /\ runs (img2col_fwd 0%Z true a) [] [x] <> UB /\ runs (img2col_fwd 0%Z true a) [] [x0; x] = UB.
Proof.
  exists (Conv 2 1 0 0 1 1 1 1), (Arr [1; 2; 2; 1] [1; 2; 3; 4]%Z), (Arr [1; 3; 1; 1] [5; 6; 7]%Z).
  split; [reflexivity|]. split; [reflexivity|]. split; [discriminate|reflexivity].
Qed.
Print Assumptions C38_img2col_out_of_bounds.

(** backward is the adjoint *)
Theorem C38_img2col_adjoint : forall dbg a BS R C K OR OC,
  (Z.of_nat (prod [BS; R; C; K]) <= 4294967295)%Z ->
  conv_extent R (prow a) (krow a) (srow a) (drow a) = Some OR -> conv_extent C (pcol a) (kcol a) (scol a) (dcol a) = Some OC ->
  forall x1 table y1, wf x1 -> ashape x1 = [BS; R; C; K] -> img2col_fwd 0%R dbg a [] x1 = Ok (table, y1) ->
  adjoint [BS; R; C; K] [krow a * kcol a * K; BS * OR * OC]
    (fun x => obind (img2col_fwd 0%R dbg a [] x) (fun p => Ok (snd p))) (img2col_bwd 0%R Rplus table).
Proof.
  intros dbg a BS R C K OR OC Hsz EO EC x1 table y1 W1 E1 Et.
  destruct (img2col_fwd_ok 0%R dbg a [] x1 BS R C K OR OC W1 E1 Hsz EO EC (or_introl eq_refl)) as (d1 & Ed1 & _). rewrite Ed1 in Et. injection Et as <- _.
  intros x0 g Wx0 Ex0 Wg Eg.
  assert (Lg : length (adata g) = length (index_table a BS R C K OR OC)).
  { rewrite index_table_length. unfold wf in Wg. rewrite Wg, Eg, !prod_cons. cbn. lia. }
  destruct (img2col_bwd_adjoint (index_table a BS R C K OR OC) x0 g (prod [BS; R; C; K])) as (b & Eb & Lb & Hb); auto.
  { now rewrite Ex0. } { now apply index_table_fits. }
  exists (Arr (ashape x0) b). split; [assumption|]. split; [apply wf_arr; now rewrite Lb, Ex0|]. split; [assumption|]. intros x Wx Ex.
  destruct (img2col_fwd_ok 0%R dbg a [] x BS R C K OR OC Wx Ex Hsz EO EC (or_introl eq_refl)) as (d & Ed & Ld & Ee & _).
  eexists. rewrite Ed. split; [reflexivity|]. split; [apply wf_arr; rewrite Ld; cbn; lia|]. split; [reflexivity|]. cbn [snd adata].
  rewrite Ee. apply Hb. now apply wf4.
Qed.
Print Assumptions C38_img2col_adjoint.

Lemma loop3_ext {A} R C K (f g : nat -> nat -> nat -> A) :
  (forall r c k, r < R -> c < C -> k < K -> f r c k = g r c k) -> loop3 R C K f = loop3 R C K g.
Proof.
  intros H. rewrite !loop3_tab. apply tab2_ext. intros r q Hr Hq. destruct (divmod_lt _ _ _ Hq) as (H1 & H2 & _). now apply H.
Qed.

(** The convolution: padding in both directions must be equal (or have no effect on the number of columns), and the kernel is
    read as if its shape were [NC, CH, r, c]. *)
Theorem C38_convolution : forall (A : Type) (zero : A) dbg plus mul a (x kernel : arr A) BS R C K OR OC nc,
  wf x -> ashape x = [BS; R; C; K] -> (Z.of_nat (prod [BS; R; C; K]) <= 4294967295)%Z ->
  wf kernel -> ashape kernel = [nc; krow a; kcol a; K] -> K <> 0 -> nc <> 0 ->
  conv_extent R (prow a) (krow a) (srow a) (drow a) = Some OR -> conv_extent C (pcol a) (kcol a) (scol a) (dcol a) = Some OC ->
  conv_extent C (prow a) (kcol a) (scol a) (dcol a) = Some OC ->
  exists y, conv2d zero dbg plus mul a R C x kernel = Ok y /\ wf y /\ ashape y = [BS; OR; OC; nc] /\
    forall bs h w oc, bs < BS -> h < OR -> w < OC -> oc < nc ->
      exists terms, at_index y [bs; h; w; oc] = Some (fold_left plus terms zero) /\
        map Some terms = loop3 K (krow a) (kcol a) (fun ch i j =>
          match at_index (Arr [nc; K; krow a; kcol a] (adata kernel)) [oc; ch; i; j],
                picture zero x bs (looks_at h (srow a) i (drow a) (prow a)) (looks_at w (scol a) j (dcol a) (pcol a)) ch with
          | Some u, Some v => Some (mul u v)
          | _, _ => None
          end).
Proof.
  intros A zero dbg plus mul a x kernel BS R C K OR OC nc W E Hsz Wk Ek HK Hnc EO EC EC'.
  destruct (conv2d_ok zero dbg plus mul a x kernel BS R C K OR OC nc W E Hsz Wk Ek HK Hnc EO EC EC') as (d & Ed & Ld & Hd).
  eexists. split; [exact Ed|]. split; [now apply wf_arr|]. split; [reflexivity|]. intros bs h w oc Hbs Hh Hw Hoc.
  eexists. split; [rewrite at4; now apply Hd|]. rewrite map_loop3. apply loop3_ext. intros ch i j Hch Hi Hj.
  rewrite <- (pixel_picture zero x BS R C K) by assumption. rewrite at4.
  rewrite (nth_error_of_nth zero); [reflexivity|]. assert (Lk := wf4 _ _ _ _ _ Wk Ek). rewrite Lk.
  assert (P := pos4_lt nc K (krow a) (kcol a) oc ch i j Hoc Hch Hi Hj). rewrite prod4 in *. lia.
Qed.
Print Assumptions C38_convolution.

Example C38_convolution_case :
  conv2d 0%Z true Z.add Z.mul (Conv 2 2 0 0 1 1 1 1) 2 3 (Arr [1; 2; 3; 1] [1; 2; 3; 4; 5; 6]%Z) (Arr [1; 2; 2; 1] [1; 10; 100; 1000]%Z)
  = Ok (Arr [1; 1; 2; 1] [5421; 6532]%Z).
Proof. reflexivity. Qed.

(** with one channel that is the documented layout [NC, r, c, CH] *)
Theorem C38_convolution_one_channel : forall (A : Type) (zero : A) dbg plus mul a (x kernel : arr A) BS R C OR OC nc,
  wf x -> ashape x = [BS; R; C; 1] -> (Z.of_nat (prod [BS; R; C; 1%nat]) <= 4294967295)%Z ->
  wf kernel -> ashape kernel = [nc; krow a; kcol a; 1] -> nc <> 0 -> prow a = pcol a ->
  conv_extent R (prow a) (krow a) (srow a) (drow a) = Some OR -> conv_extent C (pcol a) (kcol a) (scol a) (dcol a) = Some OC ->
  exists y, conv2d zero dbg plus mul a R C x kernel = Ok y /\ wf y /\ ashape y = [BS; OR; OC; nc] /\
    forall bs h w oc, bs < BS -> h < OR -> w < OC -> oc < nc ->
      exists terms, at_index y [bs; h; w; oc] = Some (fold_left plus terms zero) /\
        map Some terms = loop2 (krow a) (kcol a) (fun i j =>
          match at_index kernel [oc; i; j; 0],
                picture zero x bs (looks_at h (srow a) i (drow a) (prow a)) (looks_at w (scol a) j (dcol a) (pcol a)) 0 with
          | Some u, Some v => Some (mul u v)
          | _, _ => None
          end).
Proof.
  intros A zero dbg plus mul a x kernel BS R C OR OC nc W E Hsz Wk Ek Hnc Hp EO EC.
  destruct (C38_convolution A zero dbg plus mul a x kernel BS R C 1 OR OC nc) as (y & Ey & Wy & Sy & Hy); auto; [now rewrite Hp|].
  exists y. split; [assumption|]. split; [assumption|]. split; [assumption|]. intros bs h w oc Hbs Hh Hw Hoc. destruct (Hy bs h w oc Hbs Hh Hw Hoc) as (terms & E1 & E2).
  exists terms. split; [assumption|]. rewrite E2. unfold loop3. cbn [seq map concat flat_map]. unfold tab. cbn [seq map concat flat_map]. rewrite app_nil_r.
  apply tab2_ext. intros i j Hi Hj. rewrite at4. destruct kernel as [sk dk]. cbn [ashape adata] in *. subst sk. rewrite at4.
  unfold pos4. replace (oc * (1 * (krow a * kcol a)) + (0 * (krow a * kcol a) + (i * kcol a + j))) with (oc * (krow a * (kcol a * 1)) + (i * (kcol a * 1) + (j * 1 + 0))) by ring. reflexivity.
Qed.
Print Assumptions C38_convolution_one_channel.

(** with more channels it is not *)
Theorem C38_documented_layout_refuted :
  ~ (forall a (x kernel y : arr Z) BS R C K OR OC nc, wf x -> ashape x = [BS; R; C; K] -> wf kernel -> ashape kernel = [nc; krow a; kcol a; K] ->
       conv2d 0%Z true Z.add Z.mul a R C x kernel = Ok y -> ashape y = [BS; OR; OC; nc] ->
       forall bs h w oc, bs < BS -> h < OR -> w < OC -> oc < nc ->
       exists terms, at_index y [bs; h; w; oc] = Some (fold_left Z.add terms 0%Z) /\
         map Some terms = loop3 K (krow a) (kcol a) (fun ch i j =>
           match at_index kernel [oc; i; j; ch], picture 0%Z x bs (looks_at h (srow a) i (drow a) (prow a)) (looks_at w (scol a) j (dcol a) (pcol a)) ch with
           | Some u, Some v => Some (u * v)%Z | _, _ => None end)).
Proof.
  intros H. destruct (H (Conv 1 2 0 0 1 1 1 1) (Arr [1; 1; 2; 2] [1; 2; 3; 4]%Z) (Arr [1; 1; 2; 2] [1; 10; 100; 1000]%Z) _ 1 1 2 2 1 1 1 eq_refl eq_refl eq_refl eq_refl eq_refl eq_refl 0 0 0 0 ltac:(lia) ltac:(lia) ltac:(lia) ltac:(lia))
    as (terms & E1 & E2). cbn in E2.
  destruct terms as [|t1 [|t2 [|t3 [|t4 [|]]]]]; try discriminate. cbn in E2. injection E2 as -> -> -> ->. cbn in E1. discriminate.
Qed.
Print Assumptions C38_documented_layout_refuted.

(** with unequal paddings the number of columns is computed from the row padding: the checked build stops, and the
    unchecked build answers with the wrong shape *)
Theorem C38_unequal_padding_refuted :
  exists a (x kernel : arr Z) y, wf x /\ wf kernel /\ conv_extent 3 (prow a) (krow a) (srow a) (drow a) = Some 3 /\
    conv_extent 3 (pcol a) (kcol a) (scol a) (dcol a) = Some 1 /\
    conv2d 0%Z true Z.add Z.mul a 3 3 x kernel = Abort /\ conv2d 0%Z false Z.add Z.mul a 3 3 x kernel = Ok y /\ ashape y <> [1; 3; 1; 1].
Proof.
  exists (Conv 3 3 1 0 1 1 1 1), (Arr [1; 3; 3; 1] [1; 2; 3; 4; 5; 6; 7; 8; 9]%Z), (Arr [1; 3; 3; 1] [1; 1; 1; 1; 1; 1; 1; 1; 1]%Z).
  eexists. split; [reflexivity|]. split; [reflexivity|]. split; [reflexivity|]. split; [reflexivity|]. split; [reflexivity|]. split; [reflexivity|]. discriminate.
Qed.
Print Assumptions C38_unequal_padding_refuted.

(** ** C52: "same" padding *)

(** with an odd kernel, stride s and an input of at least s pixels, the number of output pixels is n/s rounded down for odd s
    and (n+1)/s rounded down for even s: with s = 1 the input size, with s = 2 half of it rounded up, as promised;
    from s = 3 on it is not n/s rounded up *)
Theorem C52_same_padding_odd_kernel : forall n k s d p,
  same_padding k s d = Some p -> Nat.odd k = true -> s <> 0 -> s <= n ->
  conv_extent n p k s d = Some (if Nat.odd s then n / s else (n + 1) / s).
Proof.
  intros n k s d p E Hk Hs Hn. unfold same_padding in E. destruct ((k =? 0) || (d =? 0) || _) eqn:G in E; [discriminate|].
  rewrite !orb_false_iff, !Nat.eqb_neq, Nat.ltb_ge in G. destruct G as [[Hk0 Hd0] Hle].
  apply (f_equal (fun o => match o with Some v => v | None => 0 end)) in E. cbv beta iota in E. rewrite <- E. clear E p.
  assert (Ee : k + (k - 1) * (d - 1) = d * (k - 1) + 1) by nia. rewrite Ee in *.
  apply Nat.odd_spec in Hk. destruct Hk as (m & ->). replace (2 * m + 1 - 1) with (2 * m) in * by lia. replace ((2 * m + 1) mod 2) with 1 by (rewrite Nat.add_comm, Nat.mul_comm, Nat.mod_add by lia; reflexivity).
  unfold conv_extent. replace (2 * m + 1 - 1) with (2 * m) by lia. rewrite (proj2 (Nat.eqb_neq s 0) Hs), (proj2 (Nat.eqb_neq (2 * m + 1) 0)) by lia.
  remember (d * m) as e eqn:Hee. replace (d * (2 * m)) with (2 * e) in * by (subst; ring).
  assert (Q : forall q r, q = r + s -> q / s = r / s + 1). { intros q r ->. rewrite <- (Nat.mul_1_l s) at 1. rewrite Nat.div_add by assumption. reflexivity. }
  destruct (Nat.odd s) eqn:Os.
  - apply Nat.odd_spec in Os. destruct Os as (t & Ht).
    assert (Ep : (1 + (2 * e + 1 - s)) / 2 = e - t). { symmetry. apply (Nat.div_unique _ _ _ 1); lia. }
    rewrite Ep. rewrite (proj2 (Nat.ltb_ge _ _)) by lia. cbn [orb]. f_equal. symmetry. apply Q. lia.
  - assert (Es : Nat.even s = true) by (rewrite <- Nat.negb_odd, Os; reflexivity). apply Nat.even_spec in Es. destruct Es as (t & Ht).
    assert (Ep : (1 + (2 * e + 1 - s)) / 2 = e + 1 - t). { symmetry. apply (Nat.div_unique _ _ _ 0); lia. }
    rewrite Ep. rewrite (proj2 (Nat.ltb_ge _ _)) by lia. cbn [orb]. f_equal. symmetry. apply Q. lia.
Qed.
Print Assumptions C52_same_padding_odd_kernel.

Example C52_case : same_padding 3 1 2 = Some 2 /\ conv_extent 10 2 3 1 2 = Some 10 /\ same_padding 5 3 1 = Some 1 /\ conv_extent 10 1 5 3 1 = Some 3.
Proof. repeat split. Qed.

(** with stride 1 an even kernel keeps the size exactly when the dilation is even; otherwise one pixel is lost *)
Theorem C52_same_padding_even_kernel : forall n k d p,
  same_padding k 1 d = Some p -> Nat.even k = true -> 1 < n ->
  conv_extent n p k 1 d = Some (if Nat.even d then n else n - 1).
Proof.
  intros n k d p E Hk Hn. unfold same_padding in E. destruct ((k =? 0) || (d =? 0) || _) eqn:G in E; [discriminate|].
  rewrite !orb_false_iff, !Nat.eqb_neq, Nat.ltb_ge in G. destruct G as [[Hk0 Hd0] Hle].
  apply (f_equal (fun o => match o with Some v => v | None => 0 end)) in E. cbv beta iota in E. rewrite <- E. clear E p.
  assert (Ee : k + (k - 1) * (d - 1) = d * (k - 1) + 1) by nia. rewrite Ee in *.
  apply Nat.even_spec in Hk. destruct Hk as (m & ->). replace ((2 * m) mod 2) with 0 by (rewrite Nat.mul_comm, Nat.mod_mul by lia; reflexivity).
  unfold conv_extent. cbn [Nat.eqb]. rewrite (proj2 (Nat.eqb_neq (2 * m) 0)) by assumption. cbn [orb]. rewrite !Nat.div_1_r. replace (0 + (d * (2 * m - 1) + 1 - 1)) with (d * (2 * m - 1)) by lia.
  destruct (Nat.even d) eqn:Ed.
  - apply Nat.even_spec in Ed. destruct Ed as (t & ->). replace (2 * t * (2 * m - 1)) with (t * (2 * m - 1) * 2) in * by ring. rewrite Nat.div_mul by lia.
    rewrite (proj2 (Nat.ltb_ge _ _)) by lia. f_equal. lia.
  - assert (Od : Nat.odd d = true) by (rewrite <- Nat.negb_even, Ed; reflexivity). apply Nat.odd_spec in Od. destruct Od as (t & ->).
    remember (t * (2 * m - 1) + (m - 1)) as e eqn:Hee. replace ((2 * t + 1) * (2 * m - 1)) with (2 * e + 1) in * by (subst; nia).
    assert (Ep : (2 * e + 1) / 2 = e) by (symmetry; apply (Nat.div_unique _ _ _ 1); lia). rewrite Ep.
    rewrite (proj2 (Nat.ltb_ge _ _)) by lia. f_equal. lia.
Qed.
Print Assumptions C52_same_padding_even_kernel.

Example C52_even_case : same_padding 4 1 1 = Some 1 /\ conv_extent 10 1 4 1 1 = Some 9.
Proof. repeat split. Qed.
