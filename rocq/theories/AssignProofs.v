(** Proofs for the assign operator. *)
From Coq Require Import List Arith Lia Bool PeanoNat.
From Verif Require Import ListBase TensorModel TensorSpec TensorProofs AssignModel AssignSpec.
Import ListNotations.

Section Proofs.
Context {A : Type} (zero : A).
Implicit Types (h : list (list A)) (t l v u : tensor) (s : @holdings A).

Lemma list_eqb_same a : list_eqb a a = true.
Proof. induction a as [|n a IH]; [reflexivity|]. cbn [list_eqb]. now rewrite Nat.eqb_refl, IH. Qed.

Lemma copy_front_all (d e : list A) h : length d = length e -> copy_front d e h = Ok (d, h).
Proof.
  intros E. unfold copy_front. rewrite E, Nat.leb_refl. rewrite skipn_all, app_nil_r. reflexivity.
Qed.

(** one assignment *)
Lemma assign_step l v h d e :
  nth_error h (ref l) = Some d -> length d = prod (shape l) -> shape l <> [] ->
  nth_error h (ref v) = Some e ->
  assign_action zero l v h = Ok (l, upd h (ref v) d).
Proof.
  intros Hd Ld Hs He.
  assert (Hv : ref v < length h) by (apply nth_error_Some; now rewrite He).
  unfold assign_action, bind. rewrite (reshape_resize zero v (shape l) h e Hs He).
  unfold resize, bind, data. rewrite He.
  destruct (length e =? prod (shape l)) eqn:E.
  - apply Nat.eqb_eq in E. unfold ret at 1. cbv beta iota. rewrite Hd. cbn [ref]. rewrite He.
    rewrite copy_front_all by lia. unfold store, ret. reflexivity.
  - apply Nat.eqb_neq in E. unfold store at 1, ret at 1. cbv beta iota.
    assert (N : ref l <> ref v). { intros X. rewrite X, He in Hd. injection Hd as <-. lia. }
    rewrite nth_error_upd_other by (intros X; apply N; now symmetry). rewrite Hd. cbn [ref].
    rewrite nth_error_upd_same by assumption.
    rewrite copy_front_all by (unfold zeros; rewrite repeat_length; lia).
    unfold store, ret. cbn [ref]. now rewrite upd_upd.
Qed.

Section Vars.
Variable vars : list tensor.
Hypothesis apart : NoDup (map ref vars).

Definition agrees h s := forall x t, nth_error vars x = Some t -> nth_error h (ref t) = Some (s x) /\ length (s x) = prod (shape t).
Definition stands h t (o : @operand A) :=
  match o with
  | Name x => nth_error vars x = Some t
  | Elements d => nth_error h (ref t) = Some d /\ ~ In (ref t) (map ref vars) /\ length d = prod (shape t)
  end.

Lemma stands_worth h s t o : agrees h s -> stands h t o -> nth_error h (ref t) = Some (worth s o) /\ length (worth s o) = prod (shape t).
Proof. intros R S. destruct o as [x|d]; cbn in *; [now apply R|]. tauto. Qed.

Lemma shapes_of x t : nth_error vars x = Some t -> nth_error (map shape vars) x = Some (shape t).
Proof. intros H. now apply map_nth_error. Qed.
Lemma of_shapes x sh : nth_error (map shape vars) x = Some sh -> exists t, nth_error vars x = Some t /\ shape t = sh.
Proof.
  intros H. destruct (nth_error vars x) as [t|] eqn:E.
  - rewrite (shapes_of x t E) in H. injection H as <-. now exists t.
  - apply nth_error_None in E. assert (X : nth_error (map shape vars) x = None) by (apply nth_error_None; now rewrite map_length).
    congruence.
Qed.

Lemma ref_inj x y t u : nth_error vars x = Some t -> nth_error vars y = Some u -> ref t = ref u -> x = y.
Proof.
  intros Hx Hy E.
  apply (proj1 (NoDup_nth_error (map ref vars)) apart).
  - rewrite map_length. apply nth_error_Some. now rewrite Hx.
  - rewrite (map_nth_error ref _ _ Hx), (map_nth_error ref _ _ Hy). now f_equal.
Qed.

(** storages that are there and belong to no variable stay *)
Definition keeps h h' := length h <= length h' /\ forall r, r < length h -> ~ In r (map ref vars) -> nth_error h' r = nth_error h r.

Lemma keeps_trans h1 h2 h3 : keeps h1 h2 -> keeps h2 h3 -> keeps h1 h3.
Proof.
  intros [L1 K1] [L2 K2]. split; [lia|]. intros r Hr Hn. rewrite K2 by (assumption || lia). now apply K1.
Qed.

Lemma keeps_stands h h' t o : keeps h h' -> stands h t o -> stands h' t o.
Proof.
  intros [L K] S. destruct o as [x|d]; cbn in *; [assumption|]. destruct S as (S1 & S2 & S3). repeat split; try assumption.
  rewrite K; [assumption| |assumption]. apply nth_error_Some. now rewrite S1.
Qed.

Lemma forward_late e : forall h s sh, agrees h s -> fits (map shape vars) e sh ->
  exists t h', forward zero vars e h = Ok (t, h') /\ shape t = sh /\ stands h' t (fst (late e s)) /\ agrees h' (snd (late e s)) /\ keeps h h'.
Proof.
  induction e as [x|e IH x|f a IHa b IHb]; intros h s sh R F; inversion F; subst; clear F.
  - match goal with H : nth_error _ x = Some _ |- _ => apply of_shapes in H; destruct H as (t & Ht & <-) end.
    exists t, h. cbn [forward late fst snd stands]. unfold read_variable. rewrite Ht. unfold ret. split; [reflexivity|]. split; [reflexivity|]. split; [reflexivity|]. split; [exact R|]. split; [lia|reflexivity].
  - match goal with H : nth_error _ x = Some _ |- _ => apply of_shapes in H; destruct H as (v & Hv & <-) end.
    match goal with H : fits _ e _ |- _ => destruct (IH h s sh R H) as (t & h1 & E & St & S & R1 & K) end.
    cbn [forward late]. destruct (late e s) as [o s1] eqn:EL. cbn [fst snd] in *. unfold bind at 1. rewrite E.
    unfold bind at 1, read_variable. rewrite Hv. unfold ret at 1.
    destruct (stands_worth h1 s1 t o R1 S) as [W1 W2]. destruct (R1 x v Hv) as [V1 V2].
    assert (Hvl : ref v < length h1) by (apply nth_error_Some; now rewrite V1).
    rewrite (assign_step t v h1 (worth s1 o) (s1 x)) by (congruence || assumption || lia).
    exists t, (upd h1 (ref v) (worth s1 o)). split; [reflexivity|]. split; [assumption|].
    assert (R2 : agrees (upd h1 (ref v) (worth s1 o)) (put s1 x (worth s1 o))).
    { intros y u Hu. unfold put. destruct (y =? x) eqn:Eyx.
      - apply Nat.eqb_eq in Eyx. subst y. assert (u = v) by congruence. subst u.
        rewrite nth_error_upd_same by assumption. split; [reflexivity|]. rewrite W2, St. assumption.
      - apply Nat.eqb_neq in Eyx. rewrite nth_error_upd_other; [now apply R1|].
        intros X. apply Eyx. symmetry. now apply (ref_inj x y v u). }
    assert (K2 : keeps h1 (upd h1 (ref v) (worth s1 o))).
    { split; [rewrite upd_length; lia|]. intros r Hr Hn. apply nth_error_upd_other. intros X. subst r. apply Hn.
      apply in_map. now apply nth_error_In in Hv. }
    split; [exact (keeps_stands _ _ _ _ K2 S)|]. split; [exact R2|]. exact (keeps_trans h h1 _ K K2).
  - match goal with H : fits _ a _ |- _ => destruct (IHa h s sh R H) as (t & h1 & E1 & St & S1 & R1 & K1) end.
    destruct (late a s) as [o1 s1] eqn:EL1. cbn [fst snd] in *.
    match goal with H : fits _ b _ |- _ => destruct (IHb h1 s1 sh R1 H) as (u & h2 & E2 & Su & S2 & R2 & K2) end.
    cbn [forward late]. rewrite EL1. destruct (late b s1) as [o2 s2] eqn:EL2. cbn [fst snd] in *.
    unfold bind at 1. rewrite E1. unfold bind at 1. rewrite E2.
    pose proof (keeps_stands _ _ _ _ K2 S1) as S1'.
    destruct (stands_worth h2 s2 t o1 R2 S1') as [W1 W2]. destruct (stands_worth h2 s2 u o2 R2 S2) as [U1 U2].
    unfold apply_action, bind, data. rewrite W1, U1, St, Su, list_eqb_same. unfold alloc.
    exists (mkT sh (length h2)), (h2 ++ [map2 f (worth s2 o1) (worth s2 o2)]).
    assert (K3 : keeps h2 (h2 ++ [map2 f (worth s2 o1) (worth s2 o2)])).
    { split; [rewrite app_length; lia|]. intros r Hr _. now apply nth_error_app1. }
    split; [reflexivity|]. split; [reflexivity|]. split; [|split].
    + cbn [stands ref shape]. rewrite nth_error_app2, Nat.sub_diag by lia. repeat split.
      * intros X. apply in_map_iff in X. destruct X as (w & Ew & Iw). apply In_nth_error in Iw. destruct Iw as [y Hy].
        destruct (R2 y w Hy) as [Y _]. rewrite Ew in Y. assert (length h2 < length h2) by (apply nth_error_Some; now rewrite Y). lia.
      * rewrite map2_length. rewrite W2, U2, St, Su. lia.
    + intros y w Hy. destruct (R2 y w Hy) as [Y1 Y2]. split; [|assumption]. rewrite nth_error_app1; [assumption|].
      apply nth_error_Some. now rewrite Y1.
    + exact (keeps_trans _ _ _ (keeps_trans _ _ _ K1 K2) K3).
Qed.
End Vars.

(** ** the two readings *)
Lemma late_frame e : forall s x, ~ In x (assigned e) -> snd (late e s) x = s x.
Proof.
  induction e as [y|e IH y|f a IHa b IHb]; intros s x N; cbn [late assigned] in *; [reflexivity| |].
  - specialize (IH s x). destruct (late e s) as [o s1]. cbn [snd] in *. unfold put.
    destruct (x =? y) eqn:E; [apply Nat.eqb_eq in E; subst; exfalso; apply N; now left|]. apply IH. intros X. apply N. now right.
  - specialize (IHa s x). destruct (late a s) as [o1 s1]. specialize (IHb s1 x). destruct (late b s1) as [o2 s2]. cbn [snd] in *.
    rewrite IHb, IHa; [reflexivity| |]; intros X; apply N, in_or_app; tauto.
Qed.

Lemma value_ext e : forall s s', (forall x, In x (used e) -> s x = s' x) -> value e s = value e s'.
Proof.
  induction e as [y|e IH y|f a IHa b IHb]; intros s s' H; cbn [value used] in *.
  - apply H. now left.
  - now apply IH.
  - rewrite (IHa s s'), (IHb s s'); [reflexivity| |]; intros x Hx; apply H, in_or_app; tauto.
Qed.

(** the operand is a variable the expression uses or elements *)
Lemma late_operand e : forall s, match fst (late e s) with Name x => In x (used e) | Elements _ => True end.
Proof.
  induction e as [y|e IH y|f a IHa b IHb]; intros s; cbn [late used].
  - now left.
  - specialize (IH s). destruct (late e s) as [o s1]. exact IH.
  - destruct (late a s) as [o1 s1]. destruct (late b s1) as [o2 s2]. exact I.
Qed.

Lemma late_value e : forall s, (forall x, In x (used e) -> ~ In x (assigned e)) ->
  worth (snd (late e s)) (fst (late e s)) = value e s /\
  forall x, snd (late e s) x = match final e x with Some e' => value e' s | None => s x end.
Proof.
  induction e as [y|e IH y|f a IHa b IHb]; intros s D.
  - cbn. split; reflexivity.
  - assert (D' : forall x, In x (used e) -> ~ In x (assigned e)).
    { intros x Hx X. apply (D x Hx). now right. }
    destruct (IH s D') as [V P]. pose proof (late_operand e s) as O.
    cbn [late value final]. destruct (late e s) as [o s1]. cbn [fst snd] in *. split.
    + destruct o as [z|d]; cbn [worth] in *; [|assumption]. unfold put. destruct (z =? y) eqn:E.
      * apply Nat.eqb_eq in E. exfalso. apply (D z O). left. now symmetry.
      * assumption.
    + intros x. unfold put. destruct (x =? y); [assumption|apply P].
  - assert (Da : forall x, In x (used a) -> ~ In x (assigned a)).
    { intros x Hx X. apply (D x); cbn; apply in_or_app; now left. }
    assert (Db : forall x, In x (used b) -> ~ In x (assigned b)).
    { intros x Hx X. apply (D x); cbn; apply in_or_app; now right. }
    destruct (IHa s Da) as [Va Pa]. pose proof (late_operand a s) as Oa. pose proof (late_frame a s) as Fa.
    cbn [late value final]. destruct (late a s) as [o1 s1]. cbn [fst snd] in *.
    destruct (IHb s1 Db) as [Vb Pb]. pose proof (late_operand b s1) as Ob. pose proof (late_frame b s1) as Fb.
    destruct (late b s1) as [o2 s2]. cbn [fst snd worth] in *.
    assert (Same : forall e', (forall z, In z (used e') -> In z (used b)) -> value e' s1 = value e' s).
    { intros e' He. apply value_ext. intros x Hx. apply Fa. intros X. apply (D x); cbn; apply in_or_app; [right; now apply He|now left]. }
    split.
    + f_equal.
      * rewrite <- Va. destruct o1 as [z|d]; cbn [worth]; [|reflexivity]. apply Fb. intros X.
        apply (D z); cbn; apply in_or_app; [now left|now right].
      * rewrite Vb. now apply Same.
    + intros x. rewrite Pb. destruct (final b x) as [e'|] eqn:Ef; [|apply Pa].
      apply Same. clear - Ef. revert Ef. induction b as [y|b IH y|g b1 IH1 b2 IH2]; cbn [final used]; intros Ef z Hz.
      * discriminate.
      * destruct (x =? y); [injection Ef as <-; assumption|]. now apply IH.
      * apply in_or_app. destruct (final b2 x); [injection Ef as <-; right; now apply IH2|left; now apply IH1].
Qed.

End Proofs.
