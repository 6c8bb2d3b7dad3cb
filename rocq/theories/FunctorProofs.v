(** Proofs about shared layer objects. *)
From Coq Require Import List Arith Lia Bool PeanoNat.
From Verif Require Import ListBase TensorModel FunctorModel FunctorSpec.
Import ListNotations.
Local Open Scope nat_scope.

Section FunctorProofs.
Context {A : Type}.
Implicit Types (s : st A) (e : ex A) (h : list (list A)).

Lemma nth_snoc_old : forall h d r, r < length h -> nth r (h ++ [d]) [] = nth r h [].
Proof. intros. now rewrite app_nth1. Qed.

Lemma nth_snoc_new : forall h d, nth (length h) (h ++ [d]) [] = d.
Proof. intros. rewrite app_nth2 by lia. now rewrite Nat.sub_diag. Qed.

Lemma nth_upd_eq : forall h r d, r < length h -> nth r (upd h r d) [] = d.
Proof. intros. rewrite nth_upd by assumption. now rewrite Nat.eqb_refl. Qed.

Lemma nth_upd_ne : forall h r r' d, r' <> r -> nth r' (upd h r d) [] = nth r' h [].
Proof.
  intros h r r' d H. destruct (Nat.lt_ge_cases r (length h)) as [L | L].
  - rewrite nth_upd by assumption. destruct (Nat.eqb_spec r r'); congruence.
  - now rewrite upd_out.
Qed.

(** storages that are not buffers of [ks] stay as they are; buffers stay where they are *)
Definition frame (ks : list nat) (s s' : st A) : Prop :=
  length (hp s) <= length (hp s') /\
  (forall r, r < length (hp s) -> (forall k b, List.In k ks -> buf s k = Some b -> ref b <> r) ->
     nth r (hp s') [] = nth r (hp s) []) /\
  (forall k, ~ List.In k ks -> buf s' k = buf s k) /\
  (forall k b', buf s' k = Some b' -> (exists b, buf s k = Some b /\ ref b = ref b') \/ length (hp s) <= ref b').

Lemma frame_refl : forall ks s, frame ks s s.
Proof. intros. split; [ lia | ]. split; [ auto | ]. split; [ auto | ]. intros k b' H. left. now exists b'. Qed.

Lemma frame_trans : forall ks1 ks2 s s1 s2, frame ks1 s s1 -> frame ks2 s1 s2 -> frame (ks1 ++ ks2) s s2.
Proof.
  intros ks1 ks2 s s1 s2 (L1 & N1 & B1 & P1) (L2 & N2 & B2 & P2).
  split; [ lia | ]. split; [ | split ].
  - intros r R H. rewrite N2.
    + apply N1; [ assumption | ]. intros k b I. apply H. apply in_or_app. now left.
    + lia.
    + intros k b I E. destruct (P1 k b E) as [(b0 & E0 & R0) | G].
      * rewrite <- R0. apply (H k); [ apply in_or_app; now right | assumption ].
      * lia.
  - intros k H. rewrite B2, B1; [ reflexivity | | ]; intro I; apply H; apply in_or_app; auto.
  - intros k b' E. destruct (P2 k b' E) as [(b & E1 & R1) | G].
    + destruct (P1 k b E1) as [(b0 & E0 & R0) | G].
      * left. exists b0. split; [ assumption | congruence ].
      * right. lia.
    + right. lia.
Qed.

Lemma frame_more : forall ks ks' s s', incl ks ks' -> frame ks s s' -> frame ks' s s'.
Proof.
  intros ks ks' s s' I (L & N & B & P). split; [ assumption | ]. split; [ | split ]; auto.
  intros r R H. apply N; [ assumption | ]. intros k b K. apply H. now apply I.
Qed.

Lemma apart_frame : forall ks s s' ts, frame ks s s' -> apart s ts -> apart s' ts.
Proof.
  intros ks s s' ts (L & N & B & P) H t I. destruct (H t I) as (R & F). split; [ lia | ].
  intros k b E. destruct (P k b E) as [(b0 & E0 & R0) | G]; [ rewrite <- R0; now apply (F k) | lia ].
Qed.

Lemma apart_app : forall s a b, apart s (a ++ b) <-> apart s a /\ apart s b.
Proof.
  intros s a b. split.
  - intro H. split; intros t I; apply H; apply in_or_app; auto.
  - intros (H1 & H2) t I. apply in_app_or in I. destruct I; auto.
Qed.

Lemma show_frame : forall ks s s' t, frame ks s s' -> ref t < length (hp s) ->
  (forall k b, List.In k ks -> buf s k = Some b -> ref b <> ref t) -> show (hp s') t = show (hp s) t.
Proof. intros ks s s' t (L & N & B & P) R H. unfold show. now rewrite N. Qed.

Lemma value_frame : forall ks s s' e, frame ks s s' -> apart s (operands e) -> value (hp s') e = value (hp s) e.
Proof.
  intros ks s s' e F. induction e as [ t | k o e IH | g l IHl r IHr ]; cbn [operands value]; intro H.
  - f_equal. destruct (H t (or_introl eq_refl)) as (R & E). apply (show_frame ks); auto.
    intros k b _. apply E.
  - now rewrite IH.
  - apply apart_app in H. destruct H. now rewrite IHl, IHr.
Qed.

Lemma values_frame : forall ks s s' e, frame ks s s' -> apart s (operands e) -> values (hp s') e = values (hp s) e.
Proof.
  intros ks s s' e F. induction e as [ t | k o e IH | g l IHl r IHr ]; cbn [operands values]; intro H.
  - reflexivity.
  - rewrite IH by assumption. rewrite (value_frame ks s s' e F H), (value_frame ks s s' (Un k o e) F H). reflexivity.
  - pose proof H as H0. apply apart_app in H. destruct H as (Hl & Hr). rewrite IHl, IHr by assumption.
    now rewrite (value_frame ks s s' l F Hl), (value_frame ks s s' r F Hr), (value_frame ks s s' (Bin g l r) F H0).
Qed.

(** where a result lies: in the buffer of the layer object that made it, or in no buffer at all *)
Definition lies (s : st A) (e : ex A) (t : tensor) : Prop :=
  ref t < length (hp s) /\
  (forall k b, buf s k = Some b -> ref b = ref t -> made_by e k) /\
  (forall k, made_by e k -> buf s k = Some t).

Lemma set_buf_same : forall b k t, set_buf b k t k = Some t.
Proof. intros. unfold set_buf. now rewrite Nat.eqb_refl. Qed.

Lemma set_buf_other : forall b k t i, i <> k -> set_buf b k t i = b i.
Proof. intros. unfold set_buf. destruct (Nat.eqb_spec i k); congruence. Qed.

(** a layer whose input does not lie in its buffer *)
Lemma un_step_apart : forall k o i s v, good s -> ref i < length (hp s) ->
  (forall b, buf s k = Some b -> ref b <> ref i) -> act o (show (hp s) i) = Some v ->
  exists t s', un_step k o i s = Ok (t, s') /\ show (hp s') t = v /\ good s' /\ frame [k] s s' /\ saved s' = saved s /\
    buf s' k = Some t /\ ref t < length (hp s') /\ (forall k' b, buf s' k' = Some b -> ref b = ref t -> k' = k).
Proof.
  intros k o i s v (G1 & G2) R H E. unfold un_step. rewrite E. destruct (buf s k) as [ b | ] eqn:B.
  - destruct (Nat.eqb_spec (ref b) (ref i)) as [ X | X ]; [ now destruct (H b) | ].
    pose proof (G1 k b B) as Lb.
    eexists. eexists. split; [ reflexivity | ]. cbn [hp buf saved ref].
    split; [ | split; [ | split; [ | split; [ | split; [ | split ] ] ] ] ].
    + unfold show. cbn [shape ref]. rewrite nth_upd_eq by assumption. now destruct v.
    + split.
      * intros k' b'. cbn [hp buf]. rewrite upd_length. destruct (Nat.eq_dec k' k) as [ -> | N ].
        -- rewrite set_buf_same. intros [= <-]. assumption.
        -- rewrite set_buf_other by assumption. apply G1.
      * intros k1 k2 b1 b2. cbn [buf]. destruct (Nat.eq_dec k1 k) as [ -> | N1 ]; destruct (Nat.eq_dec k2 k) as [ -> | N2 ];
          rewrite ?set_buf_same, ?set_buf_other by assumption; intros E1 E2 Q.
        -- reflexivity.
        -- injection E1 as <-. apply (G2 k k2 b b2 B E2 Q).
        -- injection E2 as <-. apply (G2 k1 k b1 b E1 B Q).
        -- eauto.
    + split; [ cbn [hp]; rewrite upd_length; lia | ]. split; [ | split ].
      * intros r Lr Hr. cbn [hp]. apply nth_upd_ne. intros ->. apply (Hr k b); [ now left | assumption | reflexivity ].
      * intros k' N. cbn [buf]. apply set_buf_other. intros ->. apply N. now left.
      * intros k' b'. cbn [buf]. destruct (Nat.eq_dec k' k) as [ -> | N ].
        -- rewrite set_buf_same. intros [= <-]. left. exists b. split; [ assumption | reflexivity ].
        -- rewrite set_buf_other by assumption. intro E'. left. now exists b'.
    + reflexivity.
    + apply set_buf_same.
    + rewrite upd_length. assumption.
    + intros k' b'. destruct (Nat.eq_dec k' k) as [ -> | N ]; [ reflexivity | ].
      rewrite set_buf_other by assumption. intros E' Q. apply (G2 k' k b' b E' B Q).
  - eexists. eexists. split; [ reflexivity | ]. cbn [hp buf saved ref].
    split; [ | split; [ | split; [ | split; [ | split; [ | split ] ] ] ] ].
    + unfold show. cbn [shape ref]. rewrite nth_snoc_new. now destruct v.
    + split.
      * intros k' b'. cbn [hp buf]. rewrite app_length. cbn [length]. destruct (Nat.eq_dec k' k) as [ -> | N ].
        -- rewrite set_buf_same. intros [= <-]. cbn [ref]. lia.
        -- rewrite set_buf_other by assumption. intro E'. apply G1 in E'. lia.
      * intros k1 k2 b1 b2. cbn [buf]. destruct (Nat.eq_dec k1 k) as [ -> | N1 ]; destruct (Nat.eq_dec k2 k) as [ -> | N2 ];
          rewrite ?set_buf_same, ?set_buf_other by assumption; intros E1 E2 Q.
        -- reflexivity.
        -- injection E1 as <-. cbn [ref] in Q. apply G1 in E2. lia.
        -- injection E2 as <-. cbn [ref] in Q. apply G1 in E1. lia.
        -- eauto.
    + split; [ cbn [hp]; rewrite app_length; lia | ]. split; [ | split ].
      * intros r Lr Hr. cbn [hp]. now apply nth_snoc_old.
      * intros k' N. cbn [buf]. apply set_buf_other. intros ->. apply N. now left.
      * intros k' b'. cbn [buf]. destruct (Nat.eq_dec k' k) as [ -> | N ].
        -- rewrite set_buf_same. intros [= <-]. right. cbn [ref]. lia.
        -- rewrite set_buf_other by assumption. intro E'. left. now exists b'.
    + reflexivity.
    + apply set_buf_same.
    + rewrite app_length. cbn [length]. lia.
    + intros k' b'. destruct (Nat.eq_dec k' k) as [ -> | N ]; [ reflexivity | ].
      rewrite set_buf_other by assumption. intros E' Q. apply G1 in E'. lia.
Qed.

(** the result of a binary operator *)
Lemma alloc_step : forall s (v : val A) x, good s ->
  let t := mkT (fst v) (length (hp s)) in
  let s' := save x (St (hp s ++ [snd v]) (buf s) (saved s)) in
  show (hp s') t = v /\ good s' /\ frame [] s s' /\ saved s' = saved s ++ [x] /\
  ref t < length (hp s') /\ (forall k b, buf s' k = Some b -> ref b <> ref t).
Proof.
  intros s v x (G1 & G2) t s'. subst t s'. unfold save. cbn [hp buf saved].
  split; [ | split; [ | split; [ | split; [ | split ] ] ] ].
  - unfold show. cbn [shape ref]. rewrite nth_snoc_new. now destruct v.
  - split; cbn [hp buf]; [ | assumption ]. intros k b E. rewrite app_length. apply G1 in E. lia.
  - split; [ cbn [hp]; rewrite app_length; lia | ]. split; [ | split ]; cbn [hp buf].
    + intros r Lr _. now apply nth_snoc_old.
    + reflexivity.
    + intros k b E. left. now exists b.
  - reflexivity.
  - rewrite app_length. cbn [length ref]. lia.
  - intros k b E. apply G1 in E. cbn [ref]. lia.
Qed.

Lemma frame_save : forall ks x s s', frame ks s s' -> frame ks s (save x s').
Proof. intros ks x s s' F. exact F. Qed.

Theorem forward_safe : forall e s v, good s -> apart s (operands e) -> safe e -> value (hp s) e = Some v ->
  exists t s', forward e s = Ok (t, s') /\ show (hp s') t = v /\ good s' /\ frame (uses e) s s' /\ lies s' e t.
Proof.
  induction e as [ t | k o e IH | g l IHl r IHr ]; intros s v G P S V; cbn [operands safe value uses] in *.
  - injection V as <-. exists t, s. split; [ reflexivity | ]. split; [ reflexivity | ]. split; [ assumption | ].
    split; [ apply frame_refl | ]. destruct (P t (or_introl eq_refl)) as (R & F). split; [ assumption | ]. split.
    + intros k b E Q. now destruct (F k b E).
    + intros k [].
  - destruct S as (S1 & S2). destruct (value (hp s) e) as [ w | ] eqn:W; [ | discriminate ].
    destruct (IH s w G P S1 W) as (i & s1 & E1 & V1 & G1 & F1 & (R1 & O1 & M1)).
    destruct (un_step_apart k o i s1 v G1 R1) as (t & s2 & E2 & V2 & G2 & F2 & _ & B2 & R2 & O2).
    { intros b E Q. apply S2. now apply (O1 k b). }
    { now rewrite V1. }
    exists t, (save ([i], t) s2). cbn [forward]. rewrite E1, E2. split; [ reflexivity | ].
    split; [ assumption | ]. split; [ exact G2 | ]. split.
    + apply frame_save. apply (frame_more (uses e ++ [k])).
      * intros x I. apply in_app_or in I. destruct I as [ I | [ -> | [] ] ]; [ now right | now left ].
      * apply (frame_trans _ _ s s1 s2); assumption.
    + split; [ assumption | ]. cbn [made_by]. split.
      * intros k' b E Q. symmetry. now apply (O2 k' b).
      * intros k' <-. assumption.
  - destruct S as (Sl & Sr & N). apply apart_app in P. destruct P as (Pl & Pr).
    destruct (value (hp s) l) as [ a | ] eqn:Va; [ | discriminate ].
    destruct (value (hp s) r) as [ b | ] eqn:Vb; [ | discriminate ].
    destruct (IHl s a G Pl Sl Va) as (tl & s1 & E1 & V1 & G1 & F1 & (R1 & O1 & M1)).
    destruct (IHr s1 b G1) as (tr & s2 & E2 & V2 & G2 & F2 & (R2 & O2 & M2)).
    { now apply (apart_frame (uses l) s). }
    { assumption. }
    { now rewrite (value_frame (uses l) s s1 r F1 Pr). }
    assert (X : show (hp s2) tl = a).
    { rewrite <- V1. apply (show_frame (uses r)); [ assumption | assumption | ].
      intros k c I E Q. apply (N k); [ now apply (O1 k c) | assumption ]. }
    destruct (alloc_step s2 v ([tl; tr], mkT (fst v) (length (hp s2))) G2) as (V3 & G3 & F3 & _ & R3 & O3).
    cbn [forward]. rewrite E1, E2, X, V2, V. eexists. eexists. split; [ reflexivity | ].
    split; [ exact V3 | ]. split; [ exact G3 | ]. split.
    + rewrite <- (app_nil_r (uses l ++ uses r)). apply (frame_trans _ _ s s2); [ | exact F3 ].
      apply (frame_trans _ _ s s1); assumption.
    + split; [ exact R3 | ]. split.
      * intros k c E Q. now destruct (O3 k c E).
      * intros k [].
Qed.

Lemma un_step_keeps_buf : forall k o i s t s', un_step k o i s = Ok (t, s') ->
  forall k' b, buf s k' = Some b -> exists b', buf s' k' = Some b' /\ ref b' = ref b.
Proof.
  intros k o i s t s' E k' b B. unfold un_step in E. destruct (act o (show (hp s) i)) as [ v | ]; [ | discriminate ].
  destruct (buf s k) as [ c | ] eqn:C.
  - assert (X : s' = s' /\ buf s' = set_buf (buf s) k t /\ ref t = ref c).
    { destruct (ref c =? ref i).
      - destruct (length (nth (ref c) (hp s) []) =? length (snd v)); [ | discriminate ].
        destruct (inplace o (show (hp s) i)); [ | discriminate ]. now injection E as <- <-.
      - now injection E as <- <-. }
    destruct X as (_ & X & Q). rewrite X. destruct (Nat.eq_dec k' k) as [ -> | N ].
    + exists t. rewrite set_buf_same. split; [ reflexivity | congruence ].
    + exists b. now rewrite set_buf_other.
  - injection E as <- <-. cbn [buf]. exists b. rewrite set_buf_other; [ auto | congruence ].
Qed.

Lemma forward_keeps_buf : forall e s t s', forward e s = Ok (t, s') ->
  forall k b, buf s k = Some b -> exists b', buf s' k = Some b' /\ ref b' = ref b.
Proof.
  induction e as [ t0 | k0 o e IH | g l IHl r IHr ]; intros s t s' E k b B; cbn [forward] in E.
  - injection E as <- <-. now exists b.
  - destruct (forward e s) as [ (i & s1) | | ] eqn:E1; try discriminate.
    destruct (un_step k0 o i s1) as [ (t2 & s2) | | ] eqn:E2; try discriminate. injection E as <- <-.
    destruct (IH s i s1 E1 k b B) as (b1 & B1 & R1).
    destruct (un_step_keeps_buf k0 o i s1 t2 s2 E2 k b1 B1) as (b2 & B2 & R2).
    exists b2. split; [ exact B2 | congruence ].
  - destruct (forward l s) as [ (tl & s1) | | ] eqn:E1; try discriminate.
    destruct (forward r s1) as [ (tr & s2) | | ] eqn:E2; try discriminate.
    destruct (g (show (hp s2) tl) (show (hp s2) tr)) as [ v | ]; [ | discriminate ]. injection E as <- <-.
    destruct (IHl s tl s1 E1 k b B) as (b1 & B1 & R1). destruct (IHr s1 tr s2 E2 k b1 B1) as (b2 & B2 & R2).
    exists b2. split; [ exact B2 | congruence ].
Qed.

Lemma made_by_uses : forall e k, made_by e k -> List.In k (uses e).
Proof. intros [ t | k' o e | g l r ] k; cbn [made_by uses]; [ tauto | intros ->; now left | tauto ]. Qed.

Lemma nodup_app : forall (a b : list nat), NoDup (a ++ b) -> NoDup a /\ NoDup b /\ forall x, List.In x a -> ~ List.In x b.
Proof.
  induction a as [ | x a IH ]; intros b H; cbn [app] in H.
  - split; [ constructor | ]. split; [ assumption | ]. intros x [].
  - inversion H as [ | y l N D ]; subst. destruct (IH b D) as (Ha & Hb & Hx). split; [ | split ].
    + constructor; [ | assumption ]. intro I. apply N. apply in_or_app. now left.
    + assumption.
    + intros y [ <- | I ]; [ | now apply Hx ]. intro I. apply N. apply in_or_app. now right.
Qed.

Lemma nodup_safe : forall e, NoDup (uses e) -> safe e.
Proof.
  induction e as [ t | k o e IH | g l IHl r IHr ]; cbn [uses safe]; intro H.
  - exact I.
  - inversion H as [ | x y N D ]; subst. split; [ now apply IH | ]. intro M. apply N. now apply made_by_uses.
  - apply nodup_app in H. destruct H as (Hl & Hr & D). split; [ now apply IHl | ]. split; [ now apply IHr | ].
    intros k M. apply D. now apply made_by_uses.
Qed.

(** an entry that lies in storages that only the layer objects [ks] may write *)
Definition settled (ks : list nat) (s : st A) (x : list tensor * tensor) : Prop :=
  forall t, List.In t (snd x :: fst x) ->
    ref t < length (hp s) /\ forall k b, buf s k = Some b -> ref b = ref t -> List.In k ks.

Lemma settled_frame : forall ks ks' s s' x, settled ks s x -> frame ks' s s' -> settled ks s' x.
Proof.
  intros ks ks' s s' x H (L & N & B & P) t I. destruct (H t I) as (R & F). split; [ lia | ].
  intros k b E Q. destruct (P k b E) as [(b0 & E0 & R0) | G0]; [ apply (F k b0 E0); congruence | lia ].
Qed.

Lemma settled_more : forall ks ks' s x, incl ks ks' -> settled ks s x -> settled ks' s x.
Proof. intros ks ks' s x I H t T. destruct (H t T) as (R & F). split; [ assumption | ]. intros k b E Q. apply I. eauto. Qed.

Lemma keeps_frame : forall ks ks' s s' x y, settled ks s x -> frame ks' s s' -> (forall k, List.In k ks -> ~ List.In k ks') ->
  keeps (hp s) x y -> keeps (hp s') x y.
Proof.
  intros ks ks' s s' x y H F D (K1 & K2).
  assert (E : forall t, List.In t (snd x :: fst x) -> show (hp s') t = show (hp s) t).
  { intros t I. destruct (H t I) as (R & Q). apply (show_frame ks'); [ assumption | assumption | ].
    intros k b Ik Eb X. apply (D k); [ now apply (Q k b) | assumption ]. }
  split.
  - rewrite <- K1. apply map_ext_in. intros t I. rewrite E; [ reflexivity | now right ].
  - rewrite <- K2. rewrite E; [ reflexivity | now left ].
Qed.

Theorem forward_saved : forall e s v, good s -> apart s (operands e) -> NoDup (uses e) -> value (hp s) e = Some v ->
  exists t s' new, forward e s = Ok (t, s') /\ show (hp s') t = v /\ good s' /\ frame (uses e) s s' /\ lies s' e t /\
    saved s' = saved s ++ new /\ Forall2 (keeps (hp s')) new (values (hp s) e) /\ Forall (settled (uses e) s') new.
Proof.
  induction e as [ t | k o e IH | g l IHl r IHr ]; intros s v G P D V.
  - destruct (forward_safe _ s v G P (nodup_safe _ D) V) as (t' & s' & E & V' & G' & F' & L').
    exists t', s', []. cbn [forward] in E. injection E as <- <-. cbn [forward values].
    split; [ reflexivity | ]. split; [ assumption | ]. split; [ assumption | ]. split; [ assumption | ]. split; [ assumption | ].
    split; [ now rewrite app_nil_r | ]. split; constructor.
  - pose proof (nodup_safe _ D) as S. cbn [operands safe value uses values] in *.
    destruct S as (S1 & S2). inversion D as [ | k0 l0 N D1 ]; subst.
    destruct (value (hp s) e) as [ w | ] eqn:W; [ | discriminate ].
    destruct (IH s w G P D1 W) as (i & s1 & new & E1 & V1 & G1 & F1 & (R1 & O1 & M1) & X1 & K1 & T1).
    destruct (un_step_apart k o i s1 v G1 R1) as (t & s2 & E2 & V2 & G2 & F2 & X2 & B2 & R2 & O2).
    { intros b E Q. apply S2. now apply (O1 k b). }
    { now rewrite V1. }
    assert (Fa : frame (k :: uses e) s (save ([i], t) s2)).
    { apply frame_save. apply (frame_more (uses e ++ [k])).
      - intros x I. apply in_app_or in I. destruct I as [ I | [ -> | [] ] ]; [ now right | now left ].
      - apply (frame_trans _ _ s s1 s2); assumption. }
    assert (Vi : show (hp s2) i = w).
    { rewrite <- V1. apply (show_frame [k]); [ assumption | assumption | ].
      intros k' b [ <- | [] ] E Q. apply S2. now apply (O1 k b). }
    exists t, (save ([i], t) s2), (new ++ [([i], t)]). cbn [forward]. rewrite E1, E2. split; [ reflexivity | ].
    split; [ assumption | ]. split; [ exact G2 | ]. split; [ exact Fa | ]. split; [ | split; [ | split ] ].
    + split; [ assumption | ]. cbn [made_by]. split.
      * intros k' b E Q. symmetry. now apply (O2 k' b).
      * intros k' <-. assumption.
    + cbn [save saved]. rewrite X2, X1, app_assoc. reflexivity.
    + apply Forall2_app.
      * cbn [save hp].
        assert (Y : forall n vs, Forall2 (keeps (hp s1)) n vs -> Forall (settled (uses e) s1) n -> Forall2 (keeps (hp s2)) n vs).
        { intros n vs Hn. induction Hn as [ | x y n vs Hx Hn IHn ]; intro T; [ constructor | ].
          apply Forall_cons_iff in T. destruct T. constructor; [ | now apply IHn ].
          apply (keeps_frame (uses e) [k] s1 s2); [ assumption | assumption | | assumption ].
          intros k' I [ <- | [] ]. now apply N. }
        apply Y; assumption.
      * constructor; [ | constructor ]. cbn [save hp]. split; cbn [fst snd map].
        -- now rewrite Vi.
        -- now rewrite V2, V.
    + apply Forall_app. split.
      * apply Forall_forall. intros x I. rewrite Forall_forall in T1.
        apply (settled_more (uses e)); [ intros z; now right | ].
        apply (settled_frame _ [k] s1); [ now apply T1 | exact F2 ].
      * constructor; [ | constructor ]. intros t' [ <- | [ <- | [] ] ].
        -- split; [ exact R2 | ]. intros k' b E Q. left. symmetry. now apply (O2 k' b).
        -- split; [ destruct F2; cbn [save hp]; lia | ]. intros k' b E Q. right.
           apply made_by_uses. destruct F2 as (L2 & N2 & Y2 & P2).
           destruct (P2 k' b E) as [(b0 & E0 & R0) | G0]; [ apply (O1 k' b0 E0); congruence | lia ].
  - pose proof (nodup_safe _ D) as S. cbn [operands safe value uses values] in *.
    destruct S as (Sl & Sr & N). apply apart_app in P. destruct P as (Pl & Pr).
    apply nodup_app in D. destruct D as (Dl & Dr & Dx).
    destruct (value (hp s) l) as [ a | ] eqn:Va; [ | discriminate ].
    destruct (value (hp s) r) as [ b | ] eqn:Vb; [ | discriminate ].
    destruct (IHl s a G Pl Dl Va) as (tl & s1 & n1 & E1 & V1 & G1 & F1 & (R1 & O1 & M1) & X1 & K1 & T1).
    destruct (IHr s1 b G1) as (tr & s2 & n2 & E2 & V2 & G2 & F2 & (R2 & O2 & M2) & X2 & K2 & T2).
    { now apply (apart_frame (uses l) s). }
    { assumption. }
    { now rewrite (value_frame (uses l) s s1 r F1 Pr). }
    rewrite (values_frame (uses l) s s1 r F1 Pr) in K2.
    assert (X : show (hp s2) tl = a).
    { rewrite <- V1. apply (show_frame (uses r)); [ assumption | assumption | ].
      intros k c I E Q. apply (N k); [ now apply (O1 k c) | assumption ]. }
    set (t := mkT (fst v) (length (hp s2))). set (x := ([tl; tr], t)).
    pose proof (alloc_step s2 v x G2) as H3. cbv zeta in H3. destruct H3 as (V3 & G3 & F3 & X3 & R3 & O3).
    set (s3 := save x (St (hp s2 ++ [snd v]) (buf s2) (saved s2))) in *.
    change (mkT (fst v) (length (hp s2))) with t in V3, R3, O3.
    exists t, s3, (n1 ++ n2 ++ [x]). cbn [forward]. rewrite E1, E2, X, V2, V. split; [ reflexivity | ].
    assert (Vl3 : show (hp s3) tl = a).
    { rewrite <- X. apply (show_frame []); [ exact F3 | destruct F2; lia | intros k c [] ]. }
    assert (Vr3 : show (hp s3) tr = b).
    { rewrite <- V2. apply (show_frame []); [ exact F3 | assumption | intros k c [] ]. }
    assert (Fa : frame (uses l ++ uses r) s s3).
    { rewrite <- (app_nil_r (uses l ++ uses r)). apply (frame_trans _ _ s s2); [ | exact F3 ].
      apply (frame_trans _ _ s s1); assumption. }
    split; [ exact V3 | ]. split; [ exact G3 | ]. split; [ exact Fa | ]. split; [ | split; [ | split ] ].
    + split; [ exact R3 | ]. split.
      * intros k c E Q. now destruct (O3 k c E).
      * intros k [].
    + rewrite X3, X2, X1. now rewrite <- !app_assoc.
    + assert (Y : forall ks ks' q q' n vs, frame ks' q q' -> (forall k, List.In k ks -> ~ List.In k ks') ->
                  Forall2 (keeps (hp q)) n vs -> Forall (settled ks q) n -> Forall2 (keeps (hp q')) n vs).
      { intros ks ks' q q' n vs Fq Dq Hn. induction Hn as [ | y z n vs Hx Hn IHn ]; intro T; [ constructor | ].
        apply Forall_cons_iff in T. destruct T. constructor; [ | now apply IHn ].
        apply (keeps_frame ks ks' q q'); assumption. }
      apply Forall2_app; [ | apply Forall2_app ].
      * apply (Y (uses l) (uses r ++ []) s1); [ | | assumption | assumption ].
        -- apply (frame_trans _ _ s1 s2); assumption.
        -- rewrite app_nil_r. exact Dx.
      * apply (Y (uses r) [] s2); [ exact F3 | | assumption | assumption ]. intros k _ [].
      * constructor; [ | constructor ]. split; cbn [fst snd map x].
        -- unfold x. cbn [fst map]. now rewrite Vl3, Vr3.
        -- unfold x. cbn [snd]. now rewrite V3.
    + apply Forall_app. split; [ | apply Forall_app; split ].
      * apply Forall_forall. intros y I. rewrite Forall_forall in T1.
        apply (settled_more (uses l)); [ intros z Z; apply in_or_app; now left | ].
        apply (settled_frame _ [] s2); [ | exact F3 ]. apply (settled_frame _ (uses r) s1); [ now apply T1 | exact F2 ].
      * apply Forall_forall. intros y I. rewrite Forall_forall in T2.
        apply (settled_more (uses r)); [ intros z Z; apply in_or_app; now right | ].
        apply (settled_frame _ [] s2); [ now apply T2 | exact F3 ].
      * assert (A1 : settled (uses l) s1 ([], tl)).
        { intros t' [ <- | [] ]. split; [ exact R1 | ]. intros k c E Q. apply made_by_uses. now apply (O1 k c). }
        assert (A2 : settled (uses r) s2 ([], tr)).
        { intros t' [ <- | [] ]. split; [ exact R2 | ]. intros k c E Q. apply made_by_uses. now apply (O2 k c). }
        pose proof (settled_frame _ _ _ _ _ (settled_frame _ _ _ _ _ A1 F2) F3) as B1.
        pose proof (settled_frame _ _ _ _ _ A2 F3) as B2.
        constructor; [ | constructor ]. intros t' I. unfold x in I. cbn [fst snd] in I. destruct I as [ <- | [ <- | [ <- | [] ] ] ].
        -- split; [ exact R3 | ]. intros k c E Q. now destruct (O3 k c E).
        -- destruct (B1 tl (or_introl eq_refl)) as (R & F). split; [ exact R | ]. intros k c E Q.
           apply in_or_app. left. now apply (F k c).
        -- destruct (B2 tr (or_introl eq_refl)) as (R & F). split; [ exact R | ]. intros k c E Q.
           apply in_or_app. right. now apply (F k c).
Qed.

End FunctorProofs.
