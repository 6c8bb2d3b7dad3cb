(** C91: images. *)
From Coq Require Import List Arith Bool PeanoNat ZArith Reals Lra Lia String Ascii.
From Verif Require Import ListBase TensorModel ImageModel ImageSpec ImageProofs.
Import ListNotations.
Local Open Scope nat_scope.

(** ** Files *)

(** A path that ends in a dot and an extension: the extension decides on the encoding, an unknown one on png in a file with .png
    appended; the file holds the tensor's elements, with the first extent as the width, and no other file changes.  The result tells
    whether the file could be written. *)
Theorem C91_file : forall writable stem ext im w h ch f p fs,
  no_dot ext -> legal im w h ch -> named (stem ++ String "." ext) ext f p ->
  exists r, direct_imwrite writable (stem ++ String "." ext) im fs = Ok r /\ written writable p (Picture f w h ch (pixels im)) fs r.
Proof. exact file_ok. Qed.
Print Assumptions C91_file.

(** The code means to append .png to a path without an extension.  It does not get there: a path without a dot throws an exception
    (unless there is a dot in a directory's name, as in "./name"). *)
Theorem C91_no_extension_refuted : forall writable path im w h ch fs,
  legal im w h ch -> no_dot path -> direct_imwrite writable path im fs = Abort.
Proof. exact no_dot_stops. Qed.
Print Assumptions C91_no_extension_refuted.

(** .hdr pictures are read as floats whatever the elements are: bytes are read beyond the end of the tensor. *)
Theorem C91_hdr_refuted : forall writable stem im w h ch fs,
  legal im w h ch -> 1 <= w * h -> direct_imwrite writable (stem ++ ".hdr") im fs = UB.
Proof. exact hdr_ub. Qed.
Print Assumptions C91_hdr_refuted.

(** What has been written as png is read back: the same elements, in a tensor of three dimensions. *)
Theorem C91_round_trip : forall writable decode stem im w h ch fs, legal im w h ch -> writable (stem ++ ".png")%string = true ->
  exists fs', direct_imwrite writable (stem ++ ".png") im fs = Ok (true, fs') /\ imread decode (stem ++ ".png") fs' = Image [w; h; ch] (pixels im).
Proof.
  intros writable decode stem im w h ch fs Le Wr.
  assert (D : no_dot "png") by (unfold no_dot; cbn; intros H; repeat (destruct H as [H|H]; [discriminate|]); exact H).
  destruct (C91_file writable stem "png" im w h ch Png _ fs D Le (named_png _)) as ([b fs'] & E & W1 & W2 & _).
  change (String "." "png") with ".png"%string in *. cbn [fst snd] in *. rewrite Wr in *. subst b. exists fs'. split; [exact E|].
  unfold imread. rewrite W2. cbn [coded width height channels rows]. rewrite firstn_all2; [reflexivity|]. destruct Le as (_ & _ & L). lia.
Qed.
Print Assumptions C91_round_trip.

(** ** Where elements are seen *)

(** The picture that direct_imwrite stores as png. *)
Definition stored (im : image nat) (x : picture) : Prop :=
  exists stem fs fs', direct_imwrite (fun _ => true) (stem ++ ".png") im fs = Ok (true, fs') /\ fs' (stem ++ ".png")%string = Some x.
Lemma stored_ok : forall im w h ch x, legal im w h ch -> (stored im x <-> x = Picture Png w h ch (pixels im)).
Proof.
  intros im w h ch x Le. assert (D : no_dot "png") by (unfold no_dot; cbn; intros H; repeat (destruct H as [H|H]; [discriminate|]); exact H).
  split.
  - intros (stem & fs & fs' & E & F). destruct (C91_file (fun _ => true) stem "png" im w h ch Png _ fs D Le (named_png _)) as (r & E' & _ & W & _).
    change (String "." "png") with ".png"%string in *. rewrite E in E'. injection E' as <-. cbn [snd] in W. congruence.
  - intros ->. destruct (C91_file (fun _ => true) "" "png" im w h ch Png _ (fun _ => None) D Le (named_png _)) as ([b fs'] & E' & W1 & W2 & _).
    cbn [fst snd] in *. subst b. exists ""%string, (fun _ => None), fs'. split; assumption.
Qed.

(** Element (i, j) is seen at row i and column j in every picture of a shape exactly if the shape is a square. *)
Theorem C91_rows_first : forall w h ch, 1 <= w -> 1 <= h -> In ch [1; 3; 4] ->
  ((forall im x, legal im w h ch -> stored im x -> forall i j c, i < w -> j < h -> c < ch -> shown x i j c = element im h ch i j c) <-> w = h).
Proof.
  intros w h ch Pw Ph I. assert (Pc : 1 <= ch) by (cbn [In] in I; lia). split; [intros H|intros ->].
  2:{ intros im x Le St i j c Hi Hj Hc. apply (stored_ok _ _ _ _ _ Le) in St. subst x. unfold shown, element. cbn [height width channels rows].
      rewrite (proj2 (Nat.ltb_lt i h)), (proj2 (Nat.ltb_lt j h)), (proj2 (Nat.ltb_lt c ch)) by assumption. reflexivity. }
  destruct (Nat.eq_dec w h) as [E|N]; [exact E|exfalso].
  assert (Lg : forall k, legal (Image [w; h; ch] (tab (w * h * ch) (fun q => if q =? k then 1 else 0))) w h ch).
  { intros k. split; [now right|]. split; [exact I|]. cbn [pixels]. apply tab_length. }
  destruct (Nat.eq_dec w 1) as [W1|W1].
  - specialize (H _ _ (Lg 0) (proj2 (stored_ok _ _ _ _ _ (Lg 0)) eq_refl) 0 1 0 ltac:(lia) ltac:(lia) ltac:(lia)). unfold shown, element in H. cbn [height width channels rows pixels] in H.
    rewrite (proj2 (Nat.ltb_ge 1 w)), andb_false_r in H by lia. cbn [andb] in H. rewrite nth_error_tab in H by nia. discriminate.
  - specialize (H _ _ (Lg (h * ch)) (proj2 (stored_ok _ _ _ _ _ (Lg (h * ch))) eq_refl) 1 0 0 ltac:(lia) ltac:(lia) ltac:(lia)). unfold shown, element in H. cbn [height width channels rows pixels] in H.
    replace ((1 * h + 0) * ch + 0) with (h * ch) in H by lia. rewrite (nth_error_tab _ _ (h * ch)), Nat.eqb_refl in H by nia.
    destruct ((1 <? h) && (0 <? w) && (0 <? ch)) eqn:G; [|discriminate]. rewrite !andb_true_iff, !Nat.ltb_lt in G.
    rewrite nth_error_tab in H by nia. destruct (Nat.eqb_spec ((1 * w + 0) * ch + 0) (h * ch)) as [X|X]; [|discriminate].
    rewrite Nat.add_0_r in X. apply Nat.mul_cancel_r in X; lia.
Qed.
Print Assumptions C91_rows_first.

(** Nor is element (i, j) seen at column i and row j, which would suit a shape of width and height, except in a single row or column. *)
Theorem C91_columns_first : forall w h ch, 1 <= w -> 1 <= h -> In ch [1; 3; 4] ->
  ((forall im x, legal im w h ch -> stored im x -> forall i j c, i < w -> j < h -> c < ch -> shown x j i c = element im h ch i j c) <-> (w = 1 \/ h = 1)).
Proof.
  intros w h ch Pw Ph I. assert (Pc : 1 <= ch) by (cbn [In] in I; lia). split.
  - intros H. destruct (Nat.eq_dec w 1) as [E|N1]; [now left|]. destruct (Nat.eq_dec h 1) as [E|N2]; [now right|exfalso].
    assert (Lg : legal (Image [w; h; ch] (tab (w * h * ch) (fun q => if q =? h * ch then 1 else 0))) w h ch).
    { split; [now right|]. split; [exact I|]. cbn [pixels]. apply tab_length. }
    specialize (H _ _ Lg (proj2 (stored_ok _ _ _ _ _ Lg) eq_refl) 1 0 0 ltac:(lia) ltac:(lia) ltac:(lia)). unfold shown, element in H. cbn [height width channels rows pixels] in H.
    replace ((1 * h + 0) * ch + 0) with (h * ch) in H by lia. rewrite (nth_error_tab _ _ (h * ch)), Nat.eqb_refl in H by nia.
    rewrite (proj2 (Nat.ltb_lt 0 h)), (proj2 (Nat.ltb_lt 1 w)), (proj2 (Nat.ltb_lt 0 ch)) in H by lia. cbn [andb] in H.
    assert (B : 1 * ch < w * h * ch) by (apply Nat.mul_lt_mono_pos_r; nia).
    rewrite nth_error_tab in H by lia. destruct (Nat.eqb_spec ((0 * w + 1) * ch + 0) (h * ch)) as [X|X]; [|discriminate].
    rewrite Nat.add_0_r in X. apply Nat.mul_cancel_r in X; lia.
  - intros E im x Le St i j c Hi Hj Hc. apply (stored_ok _ _ _ _ _ Le) in St. subst x. unfold shown, element. cbn [height width channels rows].
    rewrite (proj2 (Nat.ltb_lt j h)), (proj2 (Nat.ltb_lt i w)), (proj2 (Nat.ltb_lt c ch)) by assumption. cbn [andb].
    f_equal. f_equal. f_equal. destruct E as [->| ->]; nia.
Qed.
Print Assumptions C91_columns_first.

(** ** Numbers to bytes *)

(** Numbers are scaled so that the smallest becomes 0, order is kept, no conversion is undefined and 255 is never reached; if the largest
    number is at least numeric_limits::min(), the scaling is linear between the smallest and the largest, rounded down. *)
Theorem C91_scaling : forall least greatest writable path im fs m M,
  (forall x, In x (pixels im) -> x <= greatest)%R -> smallest (pixels im) m -> largest (pixels im) M ->
  exists vs, imwrite least greatest writable path im fs = direct_imwrite writable path (Image (ishape im) vs) fs /\
    List.length vs = List.length (pixels im) /\
    (forall i x v, nth_error (pixels im) i = Some x -> nth_error vs i = Some v ->
       v <= 254 /\ (x = m -> v = 0) /\
       (least <= M -> m < M -> 255 * (x - m) / (M - m) - 1 - 255 / 10000000000 / (M - m) < INR v <= 255 * (x - m) / (M - m))%R /\
       ((least <= M)%R -> (254 / 10000000000 <= M - m)%R -> x = M -> v = 254)) /\
    (forall i j x y v u, nth_error (pixels im) i = Some x -> nth_error (pixels im) j = Some y -> nth_error vs i = Some v -> nth_error vs j = Some u ->
       (x <= y)%R -> v <= u).
Proof.
  intros least greatest writable path im fs m M G [Im Sm] [IM SM].
  assert (e0 : (0 < / 10000000000)%R) by (apply Rinv_0_lt_compat; lra).
  unfold imwrite. destruct (fold_max (pixels im) least) as (A1 & A2 & A3). destruct (fold_min (pixels im) greatest) as (B1 & B2 & B3).
  unfold amax, amin. destruct (pixels im) as [|x0 l0] eqn:El; [destruct Im|]. rewrite <- El in *. cbn [obind].
  set (mx := fold_left (fun ans x => Rmax x ans) (pixels im) least) in *. set (mn := fold_left (fun ans x => Rmin x ans) (pixels im) greatest) in *.
  assert (Emn : mn = m).
  { apply Rle_antisym; [now apply B2|]. destruct B3 as [B3|B3]; [rewrite B3; apply Rle_trans with M; [now apply Sm|now apply G]|now apply Sm]. }
  assert (Emx : (least <= M)%R -> mx = M).
  { intros H. apply Rle_antisym; [|now apply A2]. destruct A3 as [A3|A3]; [lra|now apply SM]. }
  destruct (scale_all_ok mx mn (pixels im)) as (vs & E & F).
  { intros x X. split; [rewrite Emn; now apply Sm|now apply A2]. }
  rewrite E. cbn [obind]. exists vs. split; [reflexivity|].
  assert (LF : List.length vs = List.length (pixels im)) by (clear -F; induction F; cbn; congruence). split; [exact LF|].
  assert (P : forall i x v, nth_error (pixels im) i = Some x -> nth_error vs i = Some v -> (INR v <= level mx m x < INR v + 1)%R /\ (m <= x <= mx)%R).
  { intros i x v Ex Ev. split; [|split; [apply Sm|apply A2]; eapply nth_error_In; exact Ex]. rewrite Emn in F. clear - F Ex Ev. clearbody mx. revert i Ex Ev.
    induction F as [|a b la lb H F IH]; intros [|i] Ex Ev; cbn in Ex, Ev; try discriminate; [injection Ex as <-; injection Ev as <-; exact H|eauto]. }
  split.
  - intros i x v Ex Ev. destruct (P i x v Ex Ev) as [Lv Rg]. pose proof (level_range mx m x Rg) as LR. split; [|split; [|split]].
    + assert (v < 255); [|lia]. apply INR_lt. replace (INR 255) with 255%R by (cbn; lra). lra.
    + intros ->. unfold level in Lv. replace (255 * (m - m) / (mx - m + / 10000000000))%R with 0%R in Lv by (unfold Rdiv; ring).
      destruct v; [reflexivity|]. rewrite S_INR in Lv. pose proof (pos_INR v). lra.
    + intros H1 H2. rewrite (Emx H1) in *. unfold level in Lv. set (d := (M - m)%R) in *. assert (Hd : (0 < d)%R) by (unfold d; lra).
      set (a := (x - m)%R) in *. assert (Ha : (0 <= a <= d)%R) by (unfold a, d; lra). set (e := (/ 10000000000)%R) in *.
      assert (U : (255 * a / (d + e) <= 255 * a / d)%R).
      { unfold Rdiv. apply Rmult_le_compat_l; [lra|]. apply Rinv_le_contravar; lra. }
      assert (Lw : (255 * a / d - 255 * e / d <= 255 * a / (d + e))%R).
      { apply (Rmult_le_reg_r (d * (d + e))); [apply Rmult_lt_0_compat; lra|].
        replace ((255 * a / d - 255 * e / d) * (d * (d + e)))%R with (255 * ((a - e) * (d + e)))%R by (field; lra).
        replace (255 * a / (d + e) * (d * (d + e)))%R with (255 * (a * d))%R by (field; lra).
        apply Rmult_le_compat_l; [lra|]. assert (0 <= e * (d - a))%R by (apply Rmult_le_pos; lra). assert (0 <= e * e)%R by (apply Rmult_le_pos; lra). nra. }
      replace (255 / 10000000000 / d)%R with (255 * e / d)%R by (unfold e; field; lra). lra.
    + intros H1 H2 ->. rewrite (Emx H1) in *. unfold level in Lv. assert (v < 255 /\ 254 <= v); [|lia]. split.
      * apply INR_lt. replace (INR 255) with 255%R by (cbn; lra). unfold level in LR. lra.
      * assert (253 < v); [|lia]. apply INR_lt. replace (INR 253) with 253%R by (cbn; lra).
        assert (254 <= 255 * (M - m) / (M - m + / 10000000000))%R; [|lra].
        apply (Rmult_le_reg_r (M - m + / 10000000000)); [lra|]. unfold Rdiv. rewrite Rmult_assoc, Rinv_l by lra. lra.
  - intros i j x y v u Ex Ey Ev Eu Hxy. destruct (P i x v Ex Ev) as [Lv [_ Rx]]. destruct (P j y u Ey Eu) as [Lu Ry].
    assert (level mx m x <= level mx m y)%R.
    { unfold level, Rdiv. apply Rmult_le_compat_r; [left; apply Rinv_0_lt_compat; lra|]. lra. }
    assert (v < S u); [|lia]. apply INR_lt. rewrite S_INR. lra.
Qed.
Print Assumptions C91_scaling.

(** If all numbers are negative, max returns numeric_limits::min() instead of the largest one (C49's deviation), and the picture is
    too dark: here everything is black although there are two different numbers. *)
Theorem C91_contrast_refuted : forall least greatest writable path fs, (0 < least <= 1)%R -> (0 <= greatest)%R ->
  imwrite least greatest writable path (Image [2; 1] [-1001; -1000]%R) fs = direct_imwrite writable path (Image [2; 1] [0; 0]) fs.
Proof.
  intros least greatest writable path fs Hl Hg. unfold imwrite, amax, amin. cbn [pixels fold_left obind ishape].
  rewrite (Rmin_left (-1001) greatest), (Rmin_right (-1000) (-1001)), (Rmax_right (-1001) least), (Rmax_right (-1000) least) by lra.
  assert (e0 : (0 < / 10000000000)%R) by (apply Rinv_0_lt_compat; lra).
  assert (Z : forall x, (-1001 <= x <= -1000)%R -> scale least (-1001) x = Ok 0).
  { intros x Hx. destruct (scale_ok least (-1001) x) as (v & E & L); [lra|]. rewrite E. f_equal.
    assert (level least (-1001) x < 1)%R.
    { unfold level. apply (Rmult_lt_reg_r (least - -1001 + / 10000000000)); [lra|]. unfold Rdiv. rewrite Rmult_assoc, Rinv_l by lra. lra. }
    destruct v; [reflexivity|]. rewrite S_INR in L. pose proof (pos_INR v). lra. }
  cbn [scale_all]. rewrite !Z by lra. reflexivity.
Qed.
Print Assumptions C91_contrast_refuted.

(** ** Resizing *)

(** Pictures with three dimensions are resized within their bounds; for grey pictures without a channel two channels are assumed, and
    the picture is read beyond its end. *)
Theorem C91_resize : forall pixel im w h ch ow oh,
  (ishape im = [w; h; ch] -> List.length (pixels im) = w * h * ch ->
     exists d, imresize pixel im [ow; oh; ch] = Ok (Image [ow; oh; ch] d) /\ List.length d = ow * oh * ch) /\
  (ishape im = [w; h] -> List.length (pixels im) = w * h -> 1 <= w * h -> imresize pixel im [ow; oh] = UB).
Proof.
  intros pixel im w h ch ow oh. split.
  - intros E L. unfold imresize. rewrite E, Nat.eqb_refl. unfold stbir_resize. rewrite L, repeat_length.
    assert (P : prod [ow; oh; ch] = ow * oh * ch) by (cbn; lia). rewrite P, !Nat.leb_refl. cbn [andb obind]. eexists. split; [reflexivity|].
    rewrite app_length, tab_length, skipn_length, repeat_length. lia.
  - intros E L P. unfold imresize. rewrite E. unfold stbir_resize. rewrite L. destruct (Nat.leb_spec (w * h * 2) (w * h)); [lia|]. reflexivity.
Qed.
Print Assumptions C91_resize.

(** ** Cases *)
Module Case.
Definition im : image nat := Image [2; 3; 1] [10; 20; 30; 40; 50; 60].
Lemma im_legal : legal im 2 3 1.
Proof. split; [now right|]. split; [now left|]. reflexivity. Qed.
Lemma no_dot_xyz : no_dot "xyz".
Proof. unfold no_dot; cbn; intros H; repeat (destruct H as [H|H]; [discriminate|]); exact H. Qed.

(** an unknown extension *)
Example C91_unknown : exists r, direct_imwrite (fun _ => true) "a.b/c.xyz" im (fun _ => None) = Ok r /\ snd r "a.b/c.xyz.png"%string = Some (Picture Png 2 3 1 [10; 20; 30; 40; 50; 60]).
Proof.
  destruct (C91_file (fun _ => true) "a.b/c" "xyz" im 2 3 1 Png "a.b/c.xyz.png" (fun _ => None) no_dot_xyz im_legal) as (r & E & W).
  - apply named_other. cbn. intros H. repeat (destruct H as [H|H]; [discriminate|]). exact H.
  - exists r. split; [exact E|]. apply W.
Qed.
(** element (1, 0) of a 2 x 3 tensor is seen at row 1 and column 1 *)
Example C91_seen : element im 3 1 1 0 0 = Some 40 /\ shown (Picture Png 2 3 1 (pixels im)) 1 1 0 = Some 40 /\ shown (Picture Png 2 3 1 (pixels im)) 1 0 0 = Some 30.
Proof. vm_compute. auto. Qed.

Example C91_numbers : smallest [0; 1; 2]%R 0 /\ largest [0; 1; 2]%R 2.
Proof. split; (split; [cbn; tauto|]; intros x; cbn; intuition lra). Qed.
End Case.
