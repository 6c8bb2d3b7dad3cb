(** C45: loading of the MNIST files. *)
From Coq Require Import List Arith Lia Bool PeanoNat.
From Verif Require Import ListBase TensorModel MnistModel MnistSpec.
Import ListNotations.

Lemma concat_length {A} (n : nat) (l : list (list A)) : Forall (fun x => length x = n) l -> length (concat l) = length l * n.
Proof.
  induction 1 as [|x l E _ IH]; [reflexivity|]. cbn [concat length Nat.mul]. rewrite app_length, E, IH. reflexivity.
Qed.

Lemma nth_concat {A} (n : nat) (d : A) (l : list (list A)) : Forall (fun x => length x = n) l -> forall i j, j < n ->
  nth (i * n + j) (concat l) d = nth j (nth i l []) d.
Proof.
  induction 1 as [|x l E _ IH]; intros i j Hj.
  - destruct i; cbn [concat]; destruct j; destruct (_ + _); reflexivity.
  - destruct i as [|i]; cbn [concat nth Nat.mul Nat.add].
    + apply app_nth1. lia.
    + rewrite app_nth2 by lia. rewrite <- IH by assumption. f_equal. lia.
Qed.

Lemma images_length images : Forall image images -> length (concat (map (@concat nat) images)) = length images * 784.
Proof.
  intros H. replace (length images) with (length (map (@concat nat) images)) by apply map_length. apply concat_length.
  apply Forall_map. eapply Forall_impl; [|exact H]. intros im [E F]. rewrite (concat_length 28 im F), E. reflexivity.
Qed.

(** C45.  A file that is a header of any 16 bytes followed by n images loads as a tensor of shape [n; 28; 28] whose element (i, r, c) is
    that pixel of that image. *)
Theorem C45_images : forall header images, length header = 16 -> Forall image images ->
  exists d, extract_image (image_file header images) = Ok ([length images; 28; 28], d) /\ length d = length images * 784 /\
    forall i r c, i < length images -> r < 28 -> c < 28 -> at3 d i r c = pixel images i r c.
Proof.
  intros header images Hh Hi. exists (concat (map (@concat nat) images)).
  pose proof (images_length images Hi) as L. split; [|split; [exact L|]].
  - unfold extract_image, image_file. rewrite app_length, Hh, L.
    replace (16 + length images * 784 <? 16) with false by (symmetry; apply Nat.ltb_ge; lia).
    replace (16 + length images * 784 - 16) with (length images * 784) by lia. rewrite Nat.div_mul by lia.
    rewrite skipn_app, (skipn_all2 header), Hh by lia. rewrite Nat.sub_diag. cbn [app skipn].
    assert (prod [length images; 28; 28] = length images * 784) as -> by (unfold prod; cbn [fold_right]; lia).
    rewrite L, Nat.ltb_irrefl, Nat.sub_diag. cbn [repeat]. rewrite app_nil_r. reflexivity.
  - intros i r c H1 H2 H3. unfold at3, pixel.
    replace ((i * 28 + r) * 28 + c) with (i * 784 + (r * 28 + c)) by lia.
    rewrite (nth_concat 784 0 (map (@concat nat) images)).
    + replace (nth i (map (@concat nat) images) []) with (concat (nth i images [])).
      * apply nth_concat; [|exact H3]. assert (image (nth i images [])) as [_ F] by (rewrite Forall_forall in Hi; apply Hi, nth_In, H1).
        exact F.
      * symmetry. apply (map_nth (@concat nat) images []).
    + apply Forall_map. eapply Forall_impl; [|exact Hi]. intros im [E F]. rewrite (concat_length 28 im F), E. reflexivity.
    + lia.
Qed.
Print Assumptions C45_images.

(** C45.  The images of a file are read without writing outside the tensor exactly if the file is a header and a whole number of images;
    the tensor then holds precisely the bytes after the header.  The header is never looked at. *)
Theorem C45_images_defined : forall bytes,
  (extract_image bytes <> UB <-> 16 <= length bytes /\ (length bytes - 16) mod 784 = 0) /\
  forall v, extract_image bytes = Ok v -> fst v = [(length bytes - 16) / 784; 28; 28] /\ snd v = skipn 16 bytes.
Proof.
  intros bytes. unfold extract_image. assert (prod [(length bytes - 16) / 784; 28; 28] = (length bytes - 16) / 784 * 784) as -> by (unfold prod; cbn [fold_right]; lia).
  assert (length (skipn 16 bytes) = length bytes - 16) as -> by apply skipn_length. generalize (skipn 16 bytes) as body. intros body.
  pose proof (Nat.div_mod (length bytes - 16) 784 ltac:(lia)) as D.
  pose proof (Nat.mod_upper_bound (length bytes - 16) 784 ltac:(lia)) as M.
  destruct (Nat.ltb_spec (length bytes) 16) as [H|H]; [split; [split; [now intros []|lia]|discriminate]|].
  destruct (Nat.ltb_spec ((length bytes - 16) / 784 * 784) (length bytes - 16)) as [E|E].
  - split; [split; [now intros []|lia]|discriminate].
  - split; [split; [intros _; lia|discriminate]|].
    replace ((length bytes - 16) / 784 * 784 - (length bytes - 16)) with 0 by lia. change (repeat 0 0) with (@nil nat). rewrite app_nil_r.
    generalize ((length bytes - 16) / 784) as n. intros n v [= <-]. auto.
Qed.
Print Assumptions C45_images_defined.

Theorem C45_header_ignored : forall h1 h2 body, length h1 = 16 -> length h2 = 16 ->
  extract_image (h1 ++ body) = extract_image (h2 ++ body).
Proof.
  intros h1 h2 body E1 E2. unfold extract_image. rewrite !app_length, !skipn_app, E1, E2, (skipn_all2 h1), (skipn_all2 h2) by lia. reflexivity.
Qed.
Print Assumptions C45_header_ignored.

Lemma set_labels_spec : forall labels ans idx,
  (set_labels ans idx labels <> UB <-> forall i, i < length labels -> (idx + i) * 10 + nth i labels 0 < length ans) /\
  (set_labels ans idx labels <> Abort) /\
  forall d, set_labels ans idx labels = Ok d -> length d = length ans /\
    forall p, p < length ans -> nth p d 0 = if existsb (fun i => (idx + i) * 10 + nth i labels 0 =? p) (seq 0 (length labels)) then 1 else nth p ans 0.
Proof.
  induction labels as [|l labels IH]; intros ans idx; cbn [set_labels].
  - split; [split; [intros _ i Hi; cbn [length] in Hi; lia|discriminate]|]. split; [discriminate|]. intros d [= <-]. split; reflexivity.
  - destruct (Nat.ltb_spec (idx * 10 + l) (length ans)) as [H|H].
    + destruct (IH (upd ans (idx * 10 + l) 1) (S idx)) as (I1 & I2 & I3). rewrite upd_length in I1, I3. split; [|split].
      * rewrite I1. split; intros Q i Hi.
        -- destruct i as [|i]; cbn [nth]; [now rewrite Nat.add_0_r|]. cbn [length] in Hi. specialize (Q i ltac:(lia)).
           replace (idx + S i) with (S idx + i) by lia. exact Q.
        -- specialize (Q (S i) ltac:(cbn [length]; lia)). cbn [nth] in Q. replace (S idx + i) with (idx + S i) by lia. exact Q.
      * exact I2.
      * intros d Hd. destruct (I3 d Hd) as [L P]. split; [exact L|]. intros p Hp. rewrite (P p Hp). cbn [length seq existsb]. change (nth 0 (l :: labels) 0) with l.
        rewrite Nat.add_0_r, <- seq_shift. rewrite nth_upd by exact H.
        assert (existsb (fun i => (idx + i) * 10 + nth i (l :: labels) 0 =? p) (map S (seq 0 (length labels))) =
                existsb (fun i => (S idx + i) * 10 + nth i labels 0 =? p) (seq 0 (length labels))) as ->.
        { generalize (seq 0 (length labels)) as is_. induction is_ as [|i is_ IHi]; [reflexivity|]. cbn [map existsb]. f_equal; [|exact IHi].
          cbn [nth]. replace (idx + S i) with (S idx + i) by lia. reflexivity. }
        destruct (existsb _ _); [now rewrite orb_true_r|]. rewrite orb_false_r. reflexivity.
    + split; [split; [now intros []|]|split; [discriminate|discriminate]]. intros Q. specialize (Q 0 ltac:(cbn [length]; lia)).
      cbn [nth] in Q. rewrite Nat.add_0_r in Q. lia.
Qed.

Lemma set_labels_at labels d i j : set_labels (repeat 0 (length labels * 10)) 0 labels = Ok d -> i < length labels -> j < 10 ->
  at2 10 d i j = if existsb (fun k => k * 10 + nth k labels 0 =? i * 10 + j) (seq 0 (length labels)) then 1 else 0.
Proof.
  intros H Hi Hj. destruct (set_labels_spec labels (repeat 0 (length labels * 10)) 0) as (_ & _ & S3). destruct (S3 d H) as [L P].
  unfold at2. rewrite (P (i * 10 + j)) by (rewrite repeat_length; lia). cbn [Nat.add]. destruct (existsb _ _); [reflexivity|]. apply nth_repeat.
Qed.

Lemma extract_label_file header labels : length header = 8 ->
  extract_label (label_file header labels) = obind (set_labels (repeat 0 (length labels * 10)) 0 labels) (fun d => Ok ([length labels; 10], d)).
Proof.
  intros E. unfold extract_label, label_file. rewrite app_length, E.
  replace (8 + length labels <? 8) with false by (symmetry; apply Nat.ltb_ge; lia).
  replace (8 + length labels - 8) with (length labels) by lia. rewrite skipn_app, skipn_all2, E by lia. cbn [Nat.sub skipn app].
  assert (prod [length labels; 10] = length labels * 10) as -> by (unfold prod; cbn [fold_right]; lia). reflexivity.
Qed.

(** C45.  A file that is a header of any 8 bytes followed by n labels below ten loads as the one-hot matrix of shape [n; 10]. *)
Theorem C45_labels : forall header labels, length header = 8 -> Forall (fun l => l < 10) labels ->
  exists d, extract_label (label_file header labels) = Ok ([length labels; 10], d) /\ length d = length labels * 10 /\
    forall i j, i < length labels -> j < 10 -> at2 10 d i j = one_hot labels i j.
Proof.
  intros header labels Hh Hl. rewrite (extract_label_file header labels Hh).
  assert (forall i, i < length labels -> nth i labels 0 < 10) as B by (rewrite Forall_forall in Hl; intros i Hi; apply Hl, nth_In, Hi).
  destruct (set_labels_spec labels (repeat 0 (length labels * 10)) 0) as (S1 & S2 & S3).
  destruct (set_labels (repeat 0 (length labels * 10)) 0 labels) as [d| |] eqn:E; cbn [obind].
  - exists d. split; [reflexivity|]. split; [destruct (S3 d eq_refl) as [L _]; rewrite L; apply repeat_length|].
    intros i j Hi Hj. rewrite (set_labels_at labels d i j E Hi Hj). unfold one_hot.
    destruct (Nat.eqb_spec (nth i labels 0) j) as [Ej|Nj].
    + replace (existsb _ _) with true; [reflexivity|]. symmetry. apply existsb_exists. exists i. split; [apply in_seq; lia|]. apply Nat.eqb_eq. lia.
    + replace (existsb _ _) with false; [reflexivity|]. symmetry. apply not_true_is_false. intros X. apply existsb_exists in X.
      destruct X as (k & Hk & Ek). apply in_seq in Hk. apply Nat.eqb_eq in Ek. specialize (B k ltac:(lia)).
      assert (k = i) as -> by lia. lia.
  - now destruct S2.
  - exfalso. apply (proj2 S1); [|reflexivity]. intros i Hi. rewrite repeat_length. specialize (B i Hi). lia.
Qed.
Print Assumptions C45_labels.

(** C45.  What any file of labels does.  Nothing is written outside the matrix exactly if every label stays below ten times the number
    of samples not yet read; the matrix then has a one at every position 10 * i + label i and zeros elsewhere, so a label of ten or
    more sets an element of a later row. *)
Theorem C45_labels_defined : forall header labels, length header = 8 ->
  (extract_label (label_file header labels) <> UB <-> forall i, i < length labels -> nth i labels 0 < 10 * (length labels - i)) /\
  forall d, extract_label (label_file header labels) = Ok ([length labels; 10], d) ->
    forall i j, i < length labels -> j < 10 ->
      (at2 10 d i j = 1 <-> exists k, k < length labels /\ nth k labels 0 = 10 * i + j - 10 * k /\ k <= i) /\ (at2 10 d i j = 1 \/ at2 10 d i j = 0).
Proof.
  intros header labels Hh. rewrite (extract_label_file header labels Hh).
  destruct (set_labels_spec labels (repeat 0 (length labels * 10)) 0) as (S1 & S2 & S3). split.
  - transitivity (set_labels (repeat 0 (length labels * 10)) 0 labels <> UB).
    + destruct (set_labels (repeat 0 (length labels * 10)) 0 labels) as [d| |]; cbn [obind]; [split; discriminate|split; discriminate|].
      split; now intros [].
    + rewrite S1, repeat_length. split; intros Q i Hi; specialize (Q i Hi); lia.
  - intros d. destruct (set_labels (repeat 0 (length labels * 10)) 0 labels) as [d1| |] eqn:E; cbn [obind]; try discriminate. intros [= <-].
    intros i j Hi Hj. rewrite (set_labels_at labels d1 i j E Hi Hj). split; [|destruct (existsb _ _); tauto].
    split.
    + intros X. destruct (existsb _ _) eqn:Ex; [|discriminate]. apply existsb_exists in Ex. destruct Ex as (k & Hk & Ek). apply in_seq in Hk.
      apply Nat.eqb_eq in Ek. exists k. split; [lia|]. split; [lia|]. destruct (Nat.le_gt_cases k i); [assumption|lia].
    + intros (k & Hk & Ek & Hki). replace (existsb _ _) with true; [reflexivity|]. symmetry. apply existsb_exists. exists k.
      split; [apply in_seq; lia|]. apply Nat.eqb_eq. lia.
Qed.
Print Assumptions C45_labels_defined.

(** C45.  Labels outside 0..9 are not rejected: for every label from ten to nineteen in a file of two there is a result, and it says that
    the second sample also has another class and the first has none. *)
Theorem C45_bad_label_refuted : forall header l m, length header = 8 -> 10 <= l < 20 -> m < 10 ->
  exists d, extract_label (label_file header [l; m]) = Ok ([2; 10], d) /\
    (forall j, j < 10 -> at2 10 d 0 j = 0) /\ at2 10 d 1 (l - 10) = 1 /\ at2 10 d 1 m = 1.
Proof.
  intros header l m Hh Hl Hm.
  destruct (C45_labels_defined header [l; m] Hh) as [D P]. cbn [length] in D, P.
  rewrite (extract_label_file header [l; m] Hh) in *. cbn [length Nat.mul Nat.add] in *.
  assert (forall i, i < 2 -> nth i [l; m] 0 < 10 * (2 - i)) as B by (intros [|[|i]] Hi; cbn [nth]; lia).
  apply D in B. destruct (set_labels_spec [l; m] (repeat 0 20) 0) as (_ & S2 & _).
  destruct (set_labels (repeat 0 20) 0 [l; m]) as [d| |]; cbn [obind] in *; [|now destruct S2|now destruct B].
  exists d. split; [reflexivity|]. specialize (P d eq_refl). split; [|split].
  - intros j Hj. destruct (P 0 j ltac:(lia) Hj) as [Q [R|R]]; [|exact R]. apply Q in R. destruct R as ([|[|k]] & ? & E & ?); cbn [nth] in E; lia.
  - apply (proj1 (P 1 (l - 10) ltac:(lia) ltac:(lia))). exists 0. cbn [nth]. lia.
  - apply (proj1 (P 1 m ltac:(lia) Hm)). exists 1. cbn [nth]. lia.
Qed.
Print Assumptions C45_bad_label_refuted.

(** C45.  Loading a directory succeeds exactly if each of the four files is as above; the numbers of images and labels need not agree.
    A file that cannot be opened stops a debug build and is undefined behaviour in a release build. *)
Theorem C45_load_data : forall dbg fxt fyt fxe fye,
  (exists m, load_data dbg fxt fyt fxe fye = Ok m) <->
  exists xt yt xe ye, fxt = Some xt /\ fyt = Some yt /\ fxe = Some xe /\ fye = Some ye /\
    (exists v, extract_image xt = Ok v) /\ (exists v, extract_label yt = Ok v) /\ (exists v, extract_image xe = Ok v) /\ exists v, extract_label ye = Ok v.
Proof.
  intros dbg fxt fyt fxe fye. unfold load_data, load_binary. split.
  - intros [m H].
    destruct fxt as [xt|]; cbn [obind] in H; [|destruct dbg; discriminate H]. destruct (extract_image xt) as [v1| |] eqn:E1; cbn [obind] in H; try discriminate H.
    destruct fyt as [yt|]; cbn [obind] in H; [|destruct dbg; discriminate H]. destruct (extract_label yt) as [v2| |] eqn:E2; cbn [obind] in H; try discriminate H.
    destruct fxe as [xe|]; cbn [obind] in H; [|destruct dbg; discriminate H]. destruct (extract_image xe) as [v3| |] eqn:E3; cbn [obind] in H; try discriminate H.
    destruct fye as [ye|]; cbn [obind] in H; [|destruct dbg; discriminate H]. destruct (extract_label ye) as [v4| |] eqn:E4; cbn [obind] in H; try discriminate H.
    exists xt, yt, xe, ye. eauto 12.
  - intros (xt & yt & xe & ye & -> & -> & -> & -> & [v1 E1] & [v2 E2] & [v3 E3] & [v4 E4]). cbn [obind]. rewrite E1. cbn [obind].
    rewrite E2. cbn [obind]. rewrite E3. cbn [obind]. rewrite E4. cbn [obind]. eauto.
Qed.
Print Assumptions C45_load_data.

(** C45.  Each tensor of the result comes from its own file. *)
Theorem C45_load_data_files : forall dbg xt yt xe ye m, load_data dbg (Some xt) (Some yt) (Some xe) (Some ye) = Ok m ->
  extract_image xt = Ok (x_train m) /\ extract_label yt = Ok (y_train m) /\ extract_image xe = Ok (x_test m) /\ extract_label ye = Ok (y_test m).
Proof.
  intros dbg xt yt xe ye m H. unfold load_data, load_binary in H. cbn [obind] in H.
  destruct (extract_image xt) as [v1| |]; cbn [obind] in H; try discriminate H. destruct (extract_label yt) as [v2| |]; cbn [obind] in H; try discriminate H.
  destruct (extract_image xe) as [v3| |]; cbn [obind] in H; try discriminate H. destruct (extract_label ye) as [v4| |]; cbn [obind] in H; try discriminate H.
  injection H as <-. cbn [x_train y_train x_test y_test]. auto.
Qed.
Print Assumptions C45_load_data_files.

(** C45.  If a file is missing and those that are there are good, a debug build stops, and a release build has undefined behaviour. *)
Theorem C45_missing_file : forall dbg fxt fyt fxe fye,
  (forall f, fxt = Some f \/ fxe = Some f -> exists v, extract_image f = Ok v) ->
  (forall f, fyt = Some f \/ fye = Some f -> exists v, extract_label f = Ok v) ->
  fxt = None \/ fyt = None \/ fxe = None \/ fye = None ->
  load_data dbg fxt fyt fxe fye = if dbg then Abort else UB.
Proof.
  intros dbg fxt fyt fxe fye Hi Hl H. unfold load_data, load_binary.
  destruct fxt as [xt|]; [|destruct dbg; reflexivity]. destruct (Hi xt (or_introl eq_refl)) as [v1 E1]. cbn [obind]. rewrite E1. cbn [obind].
  destruct fyt as [yt|]; [|destruct dbg; reflexivity]. destruct (Hl yt (or_introl eq_refl)) as [v2 E2]. cbn [obind]. rewrite E2. cbn [obind].
  destruct fxe as [xe|]; [|destruct dbg; reflexivity]. destruct (Hi xe (or_intror eq_refl)) as [v3 E3]. cbn [obind]. rewrite E3. cbn [obind].
  destruct fye as [ye|]; [|destruct dbg; reflexivity]. destruct H as [H|[H|[H|H]]]; discriminate H.
Qed.
Print Assumptions C45_missing_file.

Module Case.
(** two images, the second all 7 but for one pixel; three labels *)
Definition one : list (list nat) := repeat (repeat 1 28) 28.
Definition two : list (list nat) := repeat (repeat 7 28) 27 ++ [5 :: repeat 7 27].
Example images : Forall image [one; two] /\ exists d, extract_image (image_file (repeat 9 16) [one; two]) = Ok ([2; 28; 28], d) /\ at3 d 1 27 0 = 5 /\ at3 d 1 26 27 = 7 /\ at3 d 0 27 27 = 1.
Proof.
  split; [repeat constructor|]. eexists. split; [vm_compute; reflexivity|]. split; [reflexivity|]. split; reflexivity.
Qed.
Example labels : extract_label (label_file (repeat 9 8) [3; 0]) = Ok ([2; 10], [0;0;0;1;0;0;0;0;0;0; 1;0;0;0;0;0;0;0;0;0]).
Proof. reflexivity. Qed.
Example bad_label : extract_label (label_file (repeat 9 8) [13; 0]) = Ok ([2; 10], [0;0;0;0;0;0;0;0;0;0; 1;0;0;1;0;0;0;0;0;0]).
Proof. reflexivity. Qed.
Example bad_last_label : extract_label (label_file (repeat 9 8) [3; 10]) = UB.
Proof. reflexivity. Qed.
Example missing : load_data true (Some (image_file (repeat 9 16) [one; two])) None None (Some (label_file (repeat 0 8) [9])) = Abort.
Proof. apply (C45_missing_file true); [..|auto]; intros f [[= <-]|[= <-]]; eexists; vm_compute; reflexivity. Qed.
Example truncated : extract_image (repeat 0 100) = UB.
Proof. reflexivity. Qed.
Example directory : exists m, load_data true (Some (image_file (repeat 9 16) [one; two])) (Some (label_file (repeat 9 8) [3; 0]))
    (Some (image_file (repeat 0 16) [two])) (Some (label_file (repeat 0 8) [9])) = Ok m.
Proof. eexists. vm_compute. reflexivity. Qed.
End Case.
