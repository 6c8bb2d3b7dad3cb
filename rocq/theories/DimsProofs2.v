(** Operations on shapes, and programs. *)
From Coq Require Import List Arith Lia Bool PeanoNat.
From Verif Require Import ListBase TensorModel DimsModel DimsSpec DimsProofs.
Import ListNotations.

Lemma pointer_eq_dec (p q : pointer) : {p = q} + {p <> q}.
Proof. decide equality; apply Nat.eq_dec. Qed.

Lemma fill_ok i xs w mc : cells w (InCache i) = Some mc -> length mc = 32 ->
  exists p w2 w3, allocate i (length xs) w = (p, w2) /\ write p 0 xs w2 = Ok w3 /\ same_fields w w2 /\ same_fields w w3 /\ room p (length xs) i /\
    (p <> Null -> exists m, cells w3 p = Some m /\ length m = width p (length xs) /\ firstn (length xs) m = xs) /\
    (exists mc', cells w3 (InCache i) = Some mc' /\ length mc' = 32) /\
    (forall q, p <> q -> cells w2 q = cells w q) /\ (forall q, p <> q -> cells w3 q = cells w q) /\
    (p = Null \/ p = InCache i /\ w2 = w \/ p = Heap (length (heap w))).
Proof.
  intros C L. destruct (Nat.eq_dec (length xs) 0) as [Z|Z].
  - exists Null, w, w. unfold allocate, write. rewrite Z, Nat.eqb_refl. cbn [room].
    repeat split; auto; try congruence. now exists mc.
  - destruct (allocate_ok i (length xs) w mc ltac:(lia) C L) as (p & w2 & m & E & SF & R & Cp & Lp & K & W).
    assert (NN : p <> Null) by (intros ->; discriminate Cp).
    pose proof (width_room p _ i NN R) as Wd.
    destruct (write_ok w2 p 0 xs m Cp ltac:(lia)) as (w3 & E3 & SF3 & C3 & K3).
    exists p, w2, w3. split; [exact E|]. split; [exact E3|]. split; [exact SF|].
    assert (SF' : same_fields w w3) by (destruct SF as [A B], SF3 as [A' B']; split; [congruence|intros j; rewrite B'; apply B]).
    split; [exact SF'|]. split; [exact R|].
    assert (LS : length (splice 0 xs m) = length m) by (apply splice_length; lia).
    split; [|split; [|split; [exact K|split]]].
    + intros _. exists (splice 0 xs m). split; [exact C3|]. split; [lia|]. apply splice_first. lia.
    + destruct W as [(-> & -> & ->)|(-> & _)].
      * exists (splice 0 xs mc). split; [exact C3|]. lia.
      * exists mc. split; [|exact L]. rewrite K3, K by discriminate. exact C.
    + intros q N. rewrite K3, K by exact N. reflexivity.
    + destruct W as [(-> & _ & ->)|(-> & _)]; auto.
Qed.

Lemma unused_lt s i : unused s i = true -> i < length s /\ value s i = None.
Proof. unfold unused. rewrite andb_true_iff, Nat.ltb_lt. intros [H1 H2]. split; [exact H1|]. now destruct (value s i). Qed.

(** a vector of its own in an object just made; the other vectors' elements are where they were when it is filled *)
Lemma fill_new sized s w i mc l : inv sized s w -> unused s i = true -> length mc = 32 -> (sized = true -> length l <= 16) ->
  exists p w2 w3, allocate i (length (map Some l)) (set_object i (Some (Vec mc Null 0 0)) w) = (p, w2) /\ write p 0 (map Some l) w2 = Ok w3 /\
    (forall j f, j <> i -> fields w j = Some f -> cells w2 (ptr f) = cells w (ptr f)) /\
    inv sized (upd s i (Some l)) (set_fields i p (length (map Some l)) (length (map Some l)) w3).
Proof.
  intros I U Lm T. destruct (unused_lt _ _ U) as [Li Vi]. pose proof (inv_none _ _ _ _ I Vi) as Fi.
  assert (Lo : i < length (objects w)) by (rewrite (i_len _ _ _ I); exact Li).
  destruct (new_object_ok i mc w Lo) as (NL & NF & NFi & NC & NK). set (w1 := set_object i (Some (Vec mc Null 0 0)) w) in *.
  destruct (fill_ok i (map Some l) w1 mc NC Lm) as (p & w2 & w3 & E & E3 & SF2 & SF & R & Cp & Cc & K2 & K & W).
  change (heap w1) with (heap w) in W.
  exists p, w2, w3. split; [exact E|]. split; [exact E3|].
  assert (HO : forall b, other_owner w i b -> p <> Heap b).
  { intros b O ->. destruct W as [W|[[W _]|W]]; try discriminate. injection W as ->. exact (other_not_fresh _ _ _ _ I O). }
  assert (HP : forall j f, j <> i -> fields w j = Some f -> ptr f <> InCache i).
  { intros j [[q n] c] N Ej. pose proof (i_held _ _ _ I j) as H. rewrite Ej in H. destruct (value s j); [|easy]. destruct H as (_ & _ & R' & _).
    cbn [ptr fst]. destruct q; cbn in R'; try discriminate. destruct R' as [-> _]. congruence. }
  split.
  - intros j f N Ej. destruct (ptr f) as [|k|b] eqn:Ep; [reflexivity| |].
    + rewrite K2; [apply NK; rewrite <- Ep; eauto|]. intros ->. destruct W as [W|[[W _]|W]]; try discriminate. apply (HP j f N Ej). congruence.
    + rewrite K2; [apply NK; discriminate|]. apply HO. exists j, f. auto.
  - assert (F3 : fields w3 i = Some (Null, 0, 0)) by (destruct SF as [_ ->]; exact NFi).
    destruct (set_fields_ok i p (length (map Some l)) (length (map Some l)) w3 _ F3) as (SL & SO & SI & SC).
    set (w4 := set_fields i p (length (map Some l)) (length (map Some l)) w3) in *.
    eapply inv_update with (w := w); [exact I|exact Li| | |exact SI| | | | |].
    + rewrite SL. destruct SF as [-> _]. exact NL.
    + intros j N. rewrite SO by exact N. destruct SF as [_ ->]. now apply NF.
    + split; [apply map_length|]. split; [lia|]. split; [exact R|]. rewrite !SC. split; [exact Cc|]. exact Cp.
    + intros q Nq O. rewrite SC. destruct q as [|k|b]; [reflexivity| |]; (rewrite K; [now apply NK|]).
      * intros ->. destruct W as [W|[[W _]|W]]; try discriminate. congruence.
      * apply HO. auto.
    + exact HO.
    + intros b m Eb. rewrite SC in Eb. destruct (pointer_eq_dec p (Heap b)) as [->|N]; [now left|]. right.
      rewrite K in Eb by exact N. rewrite NK in Eb by discriminate. eapply leak_other; [exact I|exact Eb|]. rewrite Fi. discriminate.
    + cbn [fst snd]. rewrite map_length. intros St. specialize (T St). lia.
Qed.

Lemma construct_ok sized s w i mc l : inv sized s w -> unused s i = true -> length mc = 32 -> (sized = true -> length l <= 16) ->
  exists w', construct i mc (map Some l) w = Ok w' /\ inv sized (upd s i (Some l)) w'.
Proof.
  intros I U Lm T. destruct (fill_new sized s w i mc l I U Lm T) as (p & w2 & w3 & E & E3 & _ & I').
  unfold construct. cbv zeta. rewrite E, E3. cbn [obind]. eauto.
Qed.

Lemma reads sized s w j p n c l : inv sized s w -> value s j = Some l -> fields w j = Some (p, n, c) -> read w p n = Ok (map Some l).
Proof.
  intros I V F. pose proof (i_held _ _ _ I j) as H. rewrite V, F in H. destruct H as (-> & Lc & R & _ & C).
  destruct (pointer_eq_dec p Null) as [->|N].
  - cbn in R. subst c. destruct l; [reflexivity|cbn in Lc; lia].
  - destruct (C N) as (m & Em & Lm & Fm). rewrite <- Fm. apply read_ok; [exact Em|]. pose proof (width_room p c j N R). lia.
Qed.

Lemma tight_value sized s w j l : inv sized s w -> value s j = Some l -> sized = true -> length l <= 16.
Proof.
  intros I V St. destruct (inv_fields _ _ _ _ _ I V) as (p & n & c & F & (-> & _)). now destruct (i_tight _ _ _ I St _ _ _ _ F).
Qed.

Lemma copy_construct_ok sized s w i j x l : inv sized s w -> unused s i = true -> object w j = Some x -> value s j = Some l ->
  exists w', copy_construct i x w = Ok w' /\ inv sized (upd s i (Some l)) w'.
Proof.
  intros I U O V. assert (N : j <> i) by (intros ->; destruct (unused_lt _ _ U); congruence).
  assert (F : fields w j = Some (start x, size x, capacity x)) by (unfold fields; now rewrite O).
  pose proof (i_held _ _ _ I j) as H. rewrite V, F in H. destruct H as (Sx & _ & _ & (mc & Cm & Lm) & _).
  assert (Ec : cache x = mc) by (cbn in Cm; rewrite O in Cm; congruence).
  destruct (fill_new sized s w i (cache x) l I U ltac:(now rewrite Ec)) as (p & w2 & w3 & E & E3 & K & I'); [now apply (tight_value _ _ _ _ _ I V)|].
  pose proof (reads _ _ _ _ _ _ _ _ I V F) as Rd. rewrite map_length in E, I'.
  unfold copy_construct. cbv zeta. rewrite Sx, E.
  assert (Rd2 : read w2 (start x) (length l) = Ok (map Some l)).
  { rewrite <- Rd, Sx. unfold read. specialize (K j _ N F). cbn [ptr fst] in K. now rewrite K. }
  rewrite Rd2. cbn [obind]. rewrite E3. cbn [obind]. eauto.
Qed.

(** elements written over those a vector has *)
Lemma overwrite_ok sized s w i p n c l l' : inv sized s w -> value s i = Some l -> fields w i = Some (p, n, c) -> length l' <= c -> (sized = true -> length l' <= 16) ->
  exists w', write p 0 (map Some l') w = Ok w' /\ same_fields w w' /\ inv sized (upd s i (Some l')) (set_fields i p (length l') c w').
Proof.
  intros I V F Lc T. pose proof (i_held _ _ _ I i) as H. rewrite V, F in H. destruct H as (Sn & Nc & R & (mc & Cm & Lm) & C).
  assert (X : exists w', write p 0 (map Some l') w = Ok w' /\ same_fields w w' /\ (p <> Null -> exists m, cells w' p = Some m /\ length m = width p c /\ firstn (length l') m = map Some l') /\ (forall q, p <> q -> cells w' q = cells w q) /\ (exists mc', cells w' (InCache i) = Some mc' /\ length mc' = 32)).
  { destruct (pointer_eq_dec p Null) as [->|N].
    - cbn in R. subst c. destruct l'; [|cbn in Lc; lia]. exists w. split; [reflexivity|]. repeat split; auto; try congruence. now exists mc.
    - destruct (C N) as (m & Em & Lw & _). pose proof (width_room p c i N R).
      destruct (write_ok w p 0 (map Some l') m Em) as (w' & E & SF & C' & K); [rewrite map_length; lia|].
      assert (LS : length (splice 0 (map Some l') m) = length m) by (apply splice_length; rewrite map_length; lia).
      exists w'. split; [exact E|]. split; [exact SF|]. split; [|split; [exact K|]].
      + intros _. eexists. split; [exact C'|]. split; [lia|]. rewrite <- (map_length Some l'). apply splice_first. rewrite map_length. lia.
      + destruct (pointer_eq_dec p (InCache i)) as [->|N'].
        * eexists. split; [exact C'|]. rewrite LS. congruence.
        * exists mc. rewrite K by exact N'. auto. }
  destruct X as (w' & E & SF & C' & K & Cc). exists w'. split; [exact E|]. split; [exact SF|].
  assert (F' : fields w' i = Some (p, n, c)) by (destruct SF as [_ ->]; exact F).
  destruct (set_fields_ok i p (length l') c w' _ F') as (SL & SO & SI & SC).
  eapply inv_update with (w := w); [exact I|eapply value_lt; exact V| | |exact SI| | | | |].
  - rewrite SL. apply SF.
  - intros j N. rewrite SO by exact N. apply SF.
  - split; [reflexivity|]. split; [exact Lc|]. split; [exact R|]. rewrite !SC. split; [exact Cc|]. exact C'.
  - intros q Nq O. rewrite SC. destruct (pointer_eq_dec p q) as [<-|Npq]; [|now apply K]. destruct p as [|k|b]; cbn in R; [reflexivity|exfalso|exfalso].
    + destruct R as [-> _]. congruence.
    + destruct (O b eq_refl) as (j & f & Nj & Ej & Hj). eapply (i_own _ _ _ I i j); eauto. reflexivity.
  - intros b (j & f & Nj & Ej & Hj) Hp. eapply (i_own _ _ _ I i j); eauto.
  - intros b m Eb. rewrite SC in Eb. destruct (pointer_eq_dec p (Heap b)) as [->|N]; [now left|]. right. rewrite K in Eb by exact N.
    eapply leak_other; [exact I|exact Eb|]. intros f Ef. rewrite F in Ef. injection Ef as <-. exact N.
  - cbn [fst snd]. intros St. split; [auto|]. now destruct (i_tight _ _ _ I St _ _ _ _ F).
Qed.
