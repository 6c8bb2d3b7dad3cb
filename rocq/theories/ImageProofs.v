From Coq Require Import List Arith Bool PeanoNat ZArith Reals Lra Lia String Ascii.
From Verif Require Import ListBase TensorModel ImageModel ImageSpec.
Import ListNotations.
Local Open Scope nat_scope.

(** ** paths *)
Lemma find_none s : no_dot s -> find_last_of "."%char s = None.
Proof.
  unfold no_dot. induction s as [|d t IH]; cbn [find_last_of list_ascii_of_string]; [reflexivity|]. intros H.
  rewrite IH by (intros X; apply H; now right). destruct (Ascii.eqb_spec "."%char d) as [<-|N]; [|reflexivity]. destruct H. now left.
Qed.
Lemma find_some stem ext : no_dot ext -> find_last_of "."%char (stem ++ String "." ext) = Some (String.length stem).
Proof.
  intros H. induction stem as [|d t IH]; cbn [append find_last_of String.length].
  - rewrite (find_none _ H), Ascii.eqb_refl. reflexivity.
  - now rewrite IH.
Qed.
Lemma append_length s t : String.length (s ++ t) = String.length s + String.length t.
Proof. induction s; cbn; congruence. Qed.
Lemma substring_all s : substring 0 (String.length s) s = s.
Proof. induction s; cbn; congruence. Qed.
Lemma substring_tail s t n : substring (String.length s) n (s ++ t) = substring 0 n t.
Proof. induction s as [|c s IH]; [reflexivity|]. cbn [String.length append]. cbn [substring]. exact IH. Qed.
Lemma extension_ok stem ext : no_dot ext ->
  substr (stem ++ String "." ext) (find_last_of "."%char (stem ++ String "." ext)) = Ok (String "." ext).
Proof.
  intros H. rewrite (find_some _ _ H). unfold substr. f_equal. rewrite append_length, substring_tail.
  replace (String.length stem + String.length (String "." ext) - String.length stem) with (String.length (String "." ext)) by lia.
  apply substring_all.
Qed.

(** ** writing *)
Lemma stbi_write_ok writable f p w h ch data fs : f <> Hdr -> List.length data = w * h * ch ->
  exists r, stbi_write writable f p w h ch data fs = Ok r /\ written writable p (Picture f w h ch data) fs r.
Proof.
  intros N L. unfold stbi_write. replace (match f with Hdr => 4 | _ => 1 end * (w * h * ch)) with (w * h * ch) by (destruct f; [lia|lia|lia|lia|congruence]).
  rewrite (proj2 (Nat.leb_le _ _)) by lia. rewrite firstn_all2 by lia. unfold written. destruct (writable p).
  - eexists. split; [reflexivity|]. cbn [fst snd]. split; [reflexivity|]. unfold store. split; [now rewrite String.eqb_refl|].
    intros q Nq. destruct (String.eqb_spec p q) as [->|]; [congruence|reflexivity].
  - eexists. split; [reflexivity|]. cbn [fst snd]. auto.
Qed.

Lemma legal_body {T} (im : image nat) w h ch (k : nat -> nat -> nat -> outcome T) : legal im w h ch ->
  match ishape im with
  | [w; h] | [w; h; _] =>
      let ch := match ishape im with [_; _; c] => c | _ => 1 end in
      if (ch =? 1) || (ch =? 3) || (ch =? 4) then k w h ch else Abort
  | _ => Abort
  end = k w h ch.
Proof.
  intros ([[E C]|E] & I & _); rewrite E.
  - subst ch. reflexivity.
  - cbv zeta. cbn [In] in I. destruct I as [<-|[<-|[<-|[]]]]; reflexivity.
Qed.

Lemma direct_imwrite_unfold writable path im w h ch fs : legal im w h ch ->
  direct_imwrite writable path im fs =
  obind (substr path (find_last_of "."%char path)) (fun ext =>
        let '(full_path, ext) := if String.eqb ext "" then ((path ++ ".png")%string, ".png"%string) else (path, ext) in
        let write f p := stbi_write writable f p w h ch (pixels im) fs in
        if String.eqb ext ".png" then write Png full_path
        else if String.eqb ext ".bmp" then write Bmp full_path
        else if String.eqb ext ".tga" then write Tga full_path
        else if String.eqb ext ".jpg" || String.eqb ext ".jpeg" then write Jpg full_path
        else if String.eqb ext ".hdr" then write Hdr full_path
        else write Png (full_path ++ ".png")%string).
Proof.
  intros Le. unfold direct_imwrite. apply (legal_body im w h ch (fun w h ch => obind (substr path (find_last_of "."%char path)) (fun ext =>
        let '(full_path, ext) := if String.eqb ext "" then ((path ++ ".png")%string, ".png"%string) else (path, ext) in
        let write f p := stbi_write writable f p w h ch (pixels im) fs in
        if String.eqb ext ".png" then write Png full_path
        else if String.eqb ext ".bmp" then write Bmp full_path
        else if String.eqb ext ".tga" then write Tga full_path
        else if String.eqb ext ".jpg" || String.eqb ext ".jpeg" then write Jpg full_path
        else if String.eqb ext ".hdr" then write Hdr full_path
        else write Png (full_path ++ ".png")%string)) Le).
Qed.

Lemma eqb_dot a b : String.eqb (String "." a) (String "." b) = String.eqb a b.
Proof. cbn [String.eqb]. now rewrite Ascii.eqb_refl. Qed.

Lemma file_ok writable stem ext im w h ch f p fs : no_dot ext -> legal im w h ch -> named (stem ++ String "." ext) ext f p ->
  exists r, direct_imwrite writable (stem ++ String "." ext) im fs = Ok r /\ written writable p (Picture f w h ch (pixels im)) fs r.
Proof.
  intros D Le N. rewrite (direct_imwrite_unfold _ _ _ _ _ _ _ Le), (extension_ok _ _ D). cbn [obind].
  change (String.eqb (String "." ext) "") with false. cbv iota beta zeta. rewrite !eqb_dot.
  assert (L : List.length (pixels im) = w * h * ch) by apply Le.
  inversion N; subst; cbn [String.eqb Ascii.eqb eqb orb andb]; try (apply stbi_write_ok; [discriminate|exact L]).
  cbn [In] in *. destruct (String.eqb_spec ext "png"); [subst; tauto|]. destruct (String.eqb_spec ext "bmp"); [subst; tauto|].
  destruct (String.eqb_spec ext "tga"); [subst; tauto|]. destruct (String.eqb_spec ext "jpg"); [subst; tauto|].
  destruct (String.eqb_spec ext "jpeg"); [subst; tauto|]. destruct (String.eqb_spec ext "hdr"); [subst; tauto|]. cbn [orb].
  apply stbi_write_ok; [discriminate|exact L].
Qed.

Lemma hdr_ub writable stem im w h ch fs : legal im w h ch -> 1 <= w * h ->
  direct_imwrite writable (stem ++ ".hdr") im fs = UB.
Proof.
  intros Le P. assert (D : no_dot "hdr") by (unfold no_dot; cbn; intros H; repeat (destruct H as [H|H]; [discriminate|]); exact H).
  rewrite (direct_imwrite_unfold _ _ _ _ _ _ _ Le). change ".hdr"%string with (String "." "hdr"). rewrite (extension_ok _ _ D). cbn [obind].
  change (String.eqb (String "." "hdr") "") with false. cbv iota beta zeta. rewrite !eqb_dot. cbn [String.eqb Ascii.eqb eqb orb andb].
  unfold stbi_write. destruct Le as (_ & I & L). assert (1 <= ch) by (cbn [In] in I; lia).
  destruct (Nat.leb_spec (4 * (w * h * ch)) (List.length (pixels im))); [nia|reflexivity].
Qed.

Lemma no_dot_stops writable path im w h ch fs : legal im w h ch -> no_dot path -> direct_imwrite writable path im fs = Abort.
Proof. intros Le D. rewrite (direct_imwrite_unfold _ _ _ _ _ _ _ Le), (find_none _ D). reflexivity. Qed.

(** ** scaling *)
Lemma fold_max l : forall a, (a <= fold_left (fun ans x => Rmax x ans) l a)%R /\ (forall x, In x l -> x <= fold_left (fun ans x => Rmax x ans) l a)%R /\
  (fold_left (fun ans x => Rmax x ans) l a = a \/ In (fold_left (fun ans x => Rmax x ans) l a) l).
Proof.
  induction l as [|y l IH]; intros a; cbn [fold_left]; [repeat split; [lra|intros x []|now left]|].
  destruct (IH (Rmax y a)) as (A & B & C). pose proof (Rmax_l y a). pose proof (Rmax_r y a).
  split; [lra|]. split.
  - intros x [<-|X]; [lra|auto].
  - destruct C as [C|C]; [|right; now right]. rewrite C. unfold Rmax. destruct (Rle_dec y a); [now left|right; now left].
Qed.
Lemma fold_min l : forall a, (fold_left (fun ans x => Rmin x ans) l a <= a)%R /\ (forall x, In x l -> fold_left (fun ans x => Rmin x ans) l a <= x)%R /\
  (fold_left (fun ans x => Rmin x ans) l a = a \/ In (fold_left (fun ans x => Rmin x ans) l a) l).
Proof.
  induction l as [|y l IH]; intros a; cbn [fold_left]; [repeat split; [lra|intros x []|now left]|].
  destruct (IH (Rmin y a)) as (A & B & C). pose proof (Rmin_l y a). pose proof (Rmin_r y a).
  split; [lra|]. split.
  - intros x [<-|X]; [lra|auto].
  - destruct C as [C|C]; [|right; now right]. rewrite C. unfold Rmin. destruct (Rle_dec y a); [right; now left|now left].
Qed.

Definition level (mx mn x : R) : R := (255 * (x - mn) / (mx - mn + / 10000000000))%R.

Lemma level_range mx mn x : (mn <= x <= mx)%R -> (0 <= level mx mn x < 255)%R.
Proof.
  intros H. unfold level. assert (D : (0 < mx - mn + / 10000000000)%R) by (assert (0 < / 10000000000)%R by (apply Rinv_0_lt_compat; lra); lra).
  split.
  - apply Rmult_le_pos; [lra|]. left. now apply Rinv_0_lt_compat.
  - apply (Rmult_lt_reg_r (mx - mn + / 10000000000)); [exact D|]. unfold Rdiv. rewrite Rmult_assoc, Rinv_l by lra.
    assert (0 < / 10000000000)%R by (apply Rinv_0_lt_compat; lra). lra.
Qed.

Lemma int_part_ok x : (0 <= x)%R -> (INR (Z.to_nat (Int_part x)) <= x < INR (Z.to_nat (Int_part x)) + 1)%R.
Proof.
  intros H. destruct (base_Int_part x) as [A B]. assert (0 <= Int_part x)%Z.
  { assert (-1 < Int_part x)%Z; [|lia]. apply lt_IZR. lra. }
  rewrite INR_IZR_INZ, Z2Nat.id by assumption. lra.
Qed.

Lemma scale_ok mx mn x : (mn <= x <= mx)%R -> exists v, scale mx mn x = Ok v /\ (INR v <= level mx mn x < INR v + 1)%R.
Proof.
  intros H. pose proof (level_range _ _ _ H) as L. exists (Z.to_nat (Int_part (level mx mn x))). split; [|apply int_part_ok; lra].
  unfold scale, to_uint8. fold (level mx mn x). destruct (Rlt_dec (-1) (level mx mn x)); [|lra]. destruct (Rlt_dec (level mx mn x) 256); [reflexivity|lra].
Qed.

Lemma scale_all_ok mx mn l : (forall x, In x l -> mn <= x <= mx)%R ->
  exists vs, scale_all mx mn l = Ok vs /\ Forall2 (fun x v => INR v <= level mx mn x < INR v + 1)%R l vs.
Proof.
  induction l as [|x l IH]; intros H; [exists []; split; [reflexivity|constructor]|].
  destruct (scale_ok mx mn x) as (v & E & L); [apply H; now left|]. destruct IH as (vs & Es & Ls); [intros; apply H; now right|].
  exists (v :: vs). cbn [scale_all]. rewrite E. cbn [obind]. rewrite Es. cbn [obind]. split; [reflexivity|]. now constructor.
Qed.
