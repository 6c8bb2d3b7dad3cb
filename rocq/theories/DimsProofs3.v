(** Assignment, growth, destruction; programs. *)
From Coq Require Import List Arith Lia Bool PeanoNat.
From Verif Require Import ListBase TensorModel DimsModel DimsSpec DimsProofs DimsProofs2.
Import ListNotations.

Lemma same_trans w1 w2 w3 : same_fields w1 w2 -> same_fields w2 w3 -> same_fields w1 w3.
Proof. intros [A B] [A' B']. split; [congruence|]. intros j. rewrite B'. apply B. Qed.

(** a vector moves to new storage p, which is its own buffer or a new block, filled in w3; the old storage is given back *)
Lemma move_ok sized s w i p0 n0 c0 l0 w3 p n c l :
  inv sized s w -> value s i = Some l0 -> fields w i = Some (p0, n0, c0) ->
  same_fields w w3 -> room p c i -> n = length l -> n <= c -> 
  (p <> Null -> exists m, cells w3 p = Some m /\ length m = width p c /\ firstn n m = map Some l) ->
  (exists mc, cells w3 (InCache i) = Some mc /\ length mc = 32) ->
  (forall q, p <> q -> cells w3 q = cells w q) -> (p = Null \/ p = InCache i \/ p = Heap (length (heap w))) ->
  (forall b, p0 = Heap b -> p <> InCache i) ->
  (sized = true -> n <= 16 /\ c <= 32) ->
  exists w4, deallocate sized p0 c0 w3 = Ok w4 /\ inv sized (upd s i (Some l)) (set_fields i p n c w4).
Proof.
  intros I V F SF R Hn Lc Cp Cc K W G T. pose proof (i_held _ _ _ I i) as H. rewrite V, F in H. destruct H as (_ & _ & R0 & (mc0 & Cm0 & _) & C0).
  assert (NF : forall b, p0 = Heap b -> p <> p0).
  { intros b -> ->. destruct W as [W|[W|W]]; try discriminate. destruct (C0 ltac:(discriminate)) as (m & Em & _). injection W as ->. now rewrite fresh_block in Em. }
  assert (X : exists m3, p0 <> Null -> cells w3 p0 = Some m3).
  { destruct (pointer_eq_dec p0 Null) as [->|N0]; [exists []; congruence|].
    destruct (pointer_eq_dec p p0) as [<-|N].
    - destruct (Cp N0) as (m & Em & _). now exists m.
    - destruct (C0 N0) as (m & Em & _). exists m. intros _. now rewrite K. }
  destruct X as [m3 X].
  destruct (deallocate_ok sized p0 c0 i w3 m3 R0) as (w4 & E & SF4 & K4 & D4); [|exact X|].
  { intros St. now destruct (i_tight _ _ _ I St _ _ _ _ F). }
  exists w4. split; [exact E|].
  assert (KP : forall q, (forall b, p0 = Heap b -> p0 <> q) -> cells w4 q = cells w3 q).
  { intros q Hq. apply K4. destruct p0 as [|k|b]; [left; discriminate|left; discriminate|right; apply (Hq b eq_refl)]. }
  assert (F4 : fields w4 i = Some (p0, n0, c0)) by (destruct (same_trans _ _ _ SF SF4) as [_ ->]; exact F).
  destruct (set_fields_ok i p n c w4 _ F4) as (SL & SO & SI & SC).
  eapply inv_update with (w := w); [exact I|eapply value_lt; exact V| | |exact SI| | | | |].
  - rewrite SL. apply (same_trans _ _ _ SF SF4).
  - intros j N. rewrite SO by exact N. apply (same_trans _ _ _ SF SF4).
  - split; [exact Hn|]. split; [exact Lc|]. split; [exact R|]. rewrite !SC. rewrite (KP (InCache i)) by congruence.
    split; [exact Cc|]. intros N. rewrite KP; [now apply Cp|]. intros b Eb. apply not_eq_sym. exact (NF b Eb).
  - intros q Nq O. rewrite SC, KP.
    + destruct (pointer_eq_dec p q) as [<-|Npq]; [|now apply K]. destruct W as [->|[->|W]]; [reflexivity|congruence|].
      destruct (other_not_fresh _ _ _ i I). apply (O _ W).
    + intros b -> <-. destruct (O b eq_refl) as (j & f & Nj & Ej & Hj). eapply (i_own _ _ _ I i j); eauto. reflexivity.
  - cbn [ptr fst]. intros b O ->. destruct W as [W|[W|W]]; try discriminate. injection W as ->. exact (other_not_fresh _ _ _ _ I O).
  - cbn [ptr fst]. intros b m Eb. rewrite SC in Eb. destruct (pointer_eq_dec p (Heap b)) as [->|N]; [now left|]. right.
    destruct (pointer_eq_dec p0 (Heap b)) as [->|N0]; [rewrite (D4 b eq_refl) in Eb; discriminate|].
    rewrite KP, K in Eb by congruence. eapply leak_other; [exact I|exact Eb|]. intros f Ef. rewrite F in Ef. injection Ef as <-. exact N0.
  - exact T.
Qed.

Lemma assign_ok sized s w i j v x lv l : inv sized s w -> i <> j -> object w i = Some v -> object w j = Some x -> value s i = Some lv -> value s j = Some l ->
  exists w', assign sized i v x w = Ok w' /\ inv sized (upd s i (Some l)) w'.
Proof.
  intros I N Oi Oj Vi Vj.
  assert (Fi : fields w i = Some (start v, size v, capacity v)) by (unfold fields; now rewrite Oi).
  assert (Fj : fields w j = Some (start x, size x, capacity x)) by (unfold fields; now rewrite Oj).
  pose proof (reads _ _ _ _ _ _ _ _ I Vj Fj) as Rd. pose proof (tight_value _ _ _ _ _ I Vj) as T.
  pose proof (i_held _ _ _ I j) as H. rewrite Vj, Fj in H. destruct H as (Sx & _ & Rx & _).
  pose proof (i_held _ _ _ I i) as H. rewrite Vi, Fi in H. destruct H as (_ & _ & Rv & (mc & Cm & Lm) & _).
  unfold assign. cbv zeta. rewrite Sx in *. destruct (Nat.ltb_spec (capacity v) (length l)) as [B|B].
  - destruct (fill_ok i (map Some l) w mc Cm Lm) as (p & w2 & w3 & E & E3 & SF2 & SF & R & Cp & Cc & K2 & K & W). rewrite map_length in E, R, Cp.
    rewrite E.
    assert (Rd2 : read w2 (start x) (length l) = Ok (map Some l)).
    { rewrite <- Rd. unfold read. destruct (start x) as [|k|b] eqn:Ex; [reflexivity| |].
      - cbn in Rx. destruct Rx as [-> _]. rewrite K2; [reflexivity|]. destruct W as [->|[[-> _]| ->]]; congruence.
      - rewrite K2; [reflexivity|]. intros ->. destruct W as [W|[[W _]|W]]; try discriminate. injection W as ->.
        apply (other_not_fresh _ _ _ i I). exists j. eexists. split; [auto|]. split; [exact Fj|]. cbn. reflexivity. }
    rewrite Rd2. cbn [obind]. rewrite E3. cbn [obind].
    destruct (move_ok sized s w i (start v) (size v) (capacity v) lv w3 p (length l) (length l) l) as (w4 & E4 & I4); auto.
    + destruct W as [->|[[-> _]| ->]]; auto.
    + intros b Eb ->. rewrite Eb in Rv. cbn in Rv, R. lia.
    + intros St. specialize (T St). lia.
    + rewrite E4. cbn [obind]. eauto.
  - rewrite Rd. cbn [obind].
    destruct (overwrite_ok sized s w i (start v) (size v) (capacity v) lv l I Vi Fi B T) as (w' & E & _ & I'). rewrite E. cbn [obind]. eauto.
Qed.

Lemma splice_both xs ys m : length xs + length ys <= length m ->
  firstn (length xs + length ys) (splice 0 xs (splice (length xs) ys m)) = xs ++ ys.
Proof.
  intros H. unfold splice at 1. cbn [firstn app Nat.add]. unfold splice. rewrite skipn_app, firstn_length, Nat.min_l by lia.
  rewrite skipn_all2 by (rewrite firstn_length; lia). rewrite Nat.sub_diag. cbn [skipn app].
  rewrite app_assoc, firstn_app, app_length, Nat.sub_diag, firstn_all2 by (rewrite app_length; lia). cbn. apply app_nil_r.
Qed.

Definition resized (n : nat) (l : list nat) : list nat := firstn n l ++ repeat 0 (n - length l).
Lemma resized_length n l : length (resized n l) = n.
Proof. unfold resized. rewrite app_length, firstn_length, repeat_length. lia. Qed.

Lemma set_fields_only sized s w i p n c l l' n' : inv sized s w -> value s i = Some l -> fields w i = Some (p, n, c) -> n' = length l' -> n' <= c ->
  (sized = true -> n' <= 16) -> (forall m, cells w p = Some m -> length m = width p c -> firstn n' m = map Some l') -> inv sized (upd s i (Some l')) (set_fields i p n' c w).
Proof.
  intros I V F Hn Lc T C'. pose proof (i_held _ _ _ I i) as H. rewrite V, F in H. destruct H as (_ & _ & R & Cc & C).
  destruct (set_fields_ok i p n' c w _ F) as (SL & SO & SI & SC).
  eapply inv_update with (w := w); [exact I|eapply value_lt; exact V|exact SL| |exact SI| | | | |].
  - intros j N. now apply SO.
  - split; [exact Hn|]. split; [exact Lc|]. split; [exact R|]. rewrite !SC. split; [exact Cc|]. intros N. destruct (C N) as (m & Em & Lm & _). exists m. auto.
  - intros q _ _. apply SC.
  - cbn [ptr fst]. intros b (j & f & Nj & Ej & Hj) Hp. eapply (i_own _ _ _ I i j); eauto.
  - cbn [ptr fst]. intros b m Eb. rewrite SC in Eb. destruct (pointer_eq_dec p (Heap b)) as [->|N]; [now left|]. right.
    eapply leak_other; [exact I|exact Eb|]. intros f Ef. rewrite F in Ef. injection Ef as <-. exact N.
  - cbn [fst snd]. intros St. split; [auto|]. now destruct (i_tight _ _ _ I St _ _ _ _ F).
Qed.

Lemma map_repeat {X Y} (f : X -> Y) x n : map f (repeat x n) = repeat (f x) n.
Proof. induction n; cbn; congruence. Qed.

Lemma resize_ok sized s w i v l n : inv sized s w -> object w i = Some v -> value s i = Some l -> (sized = true -> n <= 16) ->
  exists w', resize sized i n v w = Ok w' /\ inv sized (upd s i (Some (resized n l))) w'.
Proof.
  intros I O V T. assert (F : fields w i = Some (start v, size v, capacity v)) by (unfold fields; now rewrite O).
  pose proof (i_held _ _ _ I i) as H. rewrite V, F in H. destruct H as (Sv & Sc & R & (mc & Cm & Lm) & C).
  unfold resize. destruct (Nat.leb_spec n (size v)) as [B|B].
  - eexists. split; [reflexivity|]. eapply set_fields_only; [exact I|exact V|exact F|now rewrite resized_length|lia|exact T|].
    intros m Em Lw. destruct (pointer_eq_dec (start v) Null) as [E|N]; [rewrite E in Em; discriminate|].
    destruct (C N) as (m' & Em' & _ & Fm). assert (m' = m) by congruence. subst m'.
    unfold resized. replace (n - length l) with 0 by lia. cbn [repeat]. rewrite app_nil_r, <- firstn_map, <- Fm, firstn_firstn. f_equal. lia.
  - cbv zeta. set (more := n - size v). destruct (Nat.leb_spec more (capacity v - size v)) as [B'|B'].
    + assert (N : start v <> Null) by (intros E; rewrite E in R; cbn in R; lia).
      destruct (C N) as (m & Em & Lw & Fm). pose proof (width_room _ _ _ N R) as Wd.
      destruct (write_ok w (start v) (size v) (repeat (Some 0) more) m Em) as (w' & E & SF & C' & K); [rewrite repeat_length; lia|].
      rewrite E. cbn [obind]. eexists. split; [reflexivity|].
      assert (LS : length (splice (size v) (repeat (Some 0) more) m) = length m) by (apply splice_length; rewrite repeat_length; lia).
      assert (F' : fields w' i = Some (start v, size v, capacity v)) by (destruct SF as [_ ->]; exact F).
      destruct (set_fields_ok i (start v) n (capacity v) w' _ F') as (SL & SO & SI & SC).
      eapply inv_update with (w := w); [exact I|eapply value_lt; exact V| | |exact SI| | | | |].
      * rewrite SL. apply SF.
      * intros j Nj. rewrite SO by exact Nj. apply SF.
      * split; [now rewrite resized_length|]. split; [lia|]. split; [exact R|]. rewrite !SC. split.
        -- destruct (pointer_eq_dec (start v) (InCache i)) as [Ei|Ni].
           ++ rewrite <- Ei. eexists. split; [exact C'|]. rewrite LS. congruence.
           ++ exists mc. rewrite K by exact Ni. auto.
        -- intros _. eexists. split; [exact C'|]. split; [lia|]. unfold resized. replace (firstn n l) with l by (symmetry; apply firstn_all2; lia).
           rewrite map_app, map_repeat, <- Fm, <- Sv. fold more. unfold splice. rewrite app_assoc.
           rewrite firstn_app, firstn_all2 by (rewrite app_length, firstn_length, repeat_length; lia).
           rewrite app_length, firstn_length, repeat_length. replace (n - _) with 0 by lia. cbn. apply app_nil_r.
      * intros q Nq Oq. rewrite SC. apply K. intros <-. destruct (start v) as [|k|b]; cbn in R; [congruence| |].
        -- destruct R as [-> _]. congruence.
        -- destruct (Oq b eq_refl) as (j & f & Nj & Ej & Hj). eapply (i_own _ _ _ I i j); eauto. reflexivity.
      * cbn [ptr fst]. intros b (j & f & Nj & Ej & Hj) Hp. eapply (i_own _ _ _ I i j); eauto.
      * cbn [ptr fst]. intros b m' Eb. rewrite SC in Eb. destruct (pointer_eq_dec (start v) (Heap b)) as [->|Nb]; [now left|]. right.
        rewrite K in Eb by exact Nb. eapply leak_other; [exact I|exact Eb|]. intros f Ef. rewrite F in Ef. injection Ef as <-. exact Nb.
      * cbn [fst snd]. intros St. split; [auto|]. now destruct (i_tight _ _ _ I St _ _ _ _ F).
    + set (len := size v + Nat.max (size v) more).
      destruct (allocate_ok i len w mc ltac:(unfold len, more; lia) Cm Lm) as (p & w2 & m & E & SF & Rp & Cp & Lp & K & W). rewrite E.
      assert (NN : p <> Null) by (intros ->; discriminate Cp). pose proof (width_room p _ i NN Rp) as Wd.
      destruct (write_ok w2 p (size v) (repeat (Some 0) more) m Cp) as (w3 & E3 & SF3 & C3 & K3); [rewrite repeat_length; unfold len in *; lia|].
      rewrite E3. cbn [obind].
      assert (LS : length (splice (size v) (repeat (Some 0) more) m) = length m) by (apply splice_length; rewrite repeat_length; unfold len in *; lia).
      assert (Rd : read w3 (start v) (size v) = Ok (map Some l)).
      { destruct (pointer_eq_dec (start v) Null) as [En|N].
        - rewrite En in *. cbn in R. unfold read. replace (size v) with 0 by lia. destruct l; [reflexivity|cbn in Sv; lia].
        - destruct (C N) as (m0 & Em & Lw & Fm). pose proof (width_room _ _ _ N R) as Wv. rewrite <- Fm.
          destruct (pointer_eq_dec p (start v)) as [Ep|Np].
          + rewrite <- Ep. rewrite (read_ok w3 p (size v) _ C3) by (unfold len in *; lia). rewrite splice_keep by (unfold len in *; lia).
            destruct W as [(_ & -> & ->)|(W & _)].
            * assert (mc = m0) by congruence. now subst.
            * rewrite W in Ep. rewrite <- Ep in Em. now rewrite fresh_block in Em.
          + apply read_ok; [|lia]. rewrite K3, K by exact Np. exact Em. }
      rewrite Rd. cbn [obind].
      destruct (write_ok w3 p 0 (map Some l) _ C3) as (w4 & E4 & SF4 & C4 & K4); [rewrite map_length; unfold len in *; lia|].
      rewrite E4. cbn [obind].
      assert (LS4 : length (splice 0 (map Some l) (splice (size v) (repeat (Some 0) more) m)) = length m).
      { rewrite splice_length; [exact LS|]. rewrite map_length. unfold len in *. lia. }
      destruct (move_ok sized s w i (start v) (size v) (capacity v) l w4 p n len (resized n l)) as (w5 & E5 & I5); auto.
      * exact (same_trans _ _ _ (same_trans _ _ _ SF SF3) SF4).
      * now rewrite resized_length.
      * unfold len, more. lia.
      * intros _. eexists. split; [exact C4|]. split; [lia|]. unfold resized. replace (firstn n l) with l by (symmetry; apply firstn_all2; lia). rewrite map_app, map_repeat.
        replace n with (length (map Some l) + length (repeat (Some 0) more)) by (rewrite map_length, repeat_length; unfold more; lia).
        replace (size v) with (length (map Some l)) by (rewrite map_length; congruence).
        rewrite splice_both by (rewrite map_length, repeat_length; unfold len in *; lia).
        f_equal. f_equal. rewrite map_length, repeat_length. unfold more. lia.
      * destruct W as [(-> & -> & ->)|(-> & _)].
        -- eexists. split; [exact C4|]. lia.
        -- exists mc. rewrite K4, K3, K by discriminate. auto.
      * intros q Nq. rewrite K4, K3, K by exact Nq. reflexivity.
      * destruct W as [(-> & _)|(-> & _)]; auto.
      * intros b Eb ->. rewrite Eb in R. cbn in R, Rp. unfold len in Rp. unfold more in *. lia.
      * intros St. specialize (T St). unfold len, more. lia.
      * rewrite E5. cbn [obind]. eauto.
Qed.

Lemma upd_twice {X} (l : list X) i u v : upd (upd l i u) i v = upd l i v.
Proof. revert i. induction l as [|x l IH]; intros [|i]; cbn; try reflexivity. now rewrite IH. Qed.

Lemma set_shape_ok sized s w i v l l' : inv sized s w -> object w i = Some v -> value s i = Some l -> (sized = true -> length l' <= 16) ->
  exists w', set_shape sized i (map Some l') v w = Ok w' /\ inv sized (upd s i (Some l')) w'.
Proof.
  intros I O V T. unfold set_shape. rewrite map_length. destruct (resize_ok sized s w i v l (length l') I O V T) as (w1 & E & I1). rewrite E. cbn [obind].
  assert (Li : i < length s) by (eapply value_lt; exact V).
  assert (V1 : value (upd s i (Some (resized (length l') l))) i = Some (resized (length l') l)) by (unfold value; now apply nth_upd_eq).
  destruct (inv_fields _ _ _ _ _ I1 V1) as (p & n & c & F & G). destruct (fields_object _ _ _ F) as (v1 & O1 & Ef). rewrite O1. injection Ef as -> -> ->.
  destruct G as (Sn & Sc & _). rewrite resized_length in Sn.
  destruct (overwrite_ok _ _ _ _ _ _ _ _ l' I1 V1 F ltac:(lia) T) as (w2 & E2 & SF & I2). exists w2. split; [exact E2|].
  rewrite upd_twice in I2.
  replace (set_fields i (start v1) (length l') (capacity v1) w2) with w2 in I2; [exact I2|].
  destruct SF as [_ SF]. specialize (SF i). rewrite F in SF. destruct (fields_object _ _ _ SF) as (v2 & O2 & Ef2). injection Ef2 as A B D.
  unfold set_fields. rewrite O2. rewrite A, D, <- Sn, B. unfold set_object. destruct v2 as [ca st sz cp]. cbn [cache start size capacity].
  destruct w2 as [h os]. cbn [heap objects]. f_equal. symmetry. unfold object in O2. cbn [objects] in O2. apply ListBase.upd_self.
  rewrite (nth_error_nth' os None); [now rewrite O2|]. change os with (objects (World h os)). eapply object_lt. unfold object. exact O2.
Qed.

Lemma destruct_ok sized s w i v l : inv sized s w -> object w i = Some v -> value s i = Some l ->
  exists w', destruct sized i v w = Ok w' /\ inv sized (upd s i None) w'.
Proof.
  intros I O V. assert (F : fields w i = Some (start v, size v, capacity v)) by (unfold fields; now rewrite O).
  pose proof (i_held _ _ _ I i) as H. rewrite V, F in H. destruct H as (_ & _ & R & _ & C).
  assert (X : exists m, start v <> Null -> cells w (start v) = Some m).
  { destruct (pointer_eq_dec (start v) Null) as [E|N]; [exists []; congruence|]. destruct (C N) as (m & Em & _). now exists m. }
  destruct X as [m X]. destruct (deallocate_ok sized (start v) (capacity v) i w m R) as (w1 & E & SF & K & D); [|exact X|].
  { intros St. now destruct (i_tight _ _ _ I St _ _ _ _ F). }
  unfold destruct. rewrite E. cbn [obind]. eexists. split; [reflexivity|].
  assert (Li : i < length s) by (eapply value_lt; exact V).
  assert (Lo : i < length (objects w1)) by (destruct SF as [-> _]; rewrite (i_len _ _ _ I); exact Li).
  assert (Fs : forall j, j <> i -> fields (set_object i None w1) j = fields w j).
  { intros j N. destruct SF as [_ SF]. rewrite <- SF. unfold fields. now rewrite object_set_other by auto. }
  assert (Fi : fields (set_object i None w1) i = None) by (unfold fields; now rewrite object_set_same by exact Lo).
  assert (Cs : forall q, q <> InCache i -> (forall b, start v = Heap b -> start v <> q) -> cells (set_object i None w1) q = cells w q).
  { intros q N Nv. rewrite <- (K q). 2:{ destruct (start v) as [|k|b]; [left; discriminate|left; discriminate|right; apply (Nv b eq_refl)]. }
    destruct q as [|k|b]; cbn [cells]; try reflexivity. now rewrite object_set_other by congruence. }
  split.
  - cbn [set_object objects]. rewrite !upd_length. destruct SF as [-> _]. apply (i_len _ _ _ I).
  - intros j. destruct (Nat.eq_dec j i) as [->|N].
    + rewrite Fi. unfold value. rewrite nth_upd_eq by exact Li. exact Logic.I.
    + rewrite Fs by exact N. unfold value. rewrite nth_upd_ne by auto. eapply held_kept; [apply (i_held _ _ _ I j)|].
      intros q [->|(f0 & Ef & ->)].
      * apply Cs; [congruence|]. intros b ->. discriminate.
      * pose proof (i_held _ _ _ I j) as H. rewrite Ef in H. apply Cs.
        -- destruct f0 as [[p n] c]. cbn [ptr fst]. destruct (value s j); [|easy]. destruct H as (_ & _ & R' & _). destruct p; cbn in R'; try congruence. destruct R' as [-> _]. congruence.
        -- intros b Eb Ep. rewrite Eb in Ep. eapply (i_own _ _ _ I i j); [auto|exact F|exact Ef|exact Eb|congruence].
  - intros a b fa fb c N Ea Eb Ha Hb.
    assert (a <> i) by (intros ->; congruence). assert (b <> i) by (intros ->; congruence).
    rewrite Fs in Ea, Eb by assumption. eapply (i_own _ _ _ I a b); eassumption.
  - intros b m' Eb. destruct (pointer_eq_dec (start v) (Heap b)) as [Ev|Nv].
    + exfalso. change (cells (set_object i None w1) (Heap b)) with (cells w1 (Heap b)) in Eb. rewrite <- Ev, (D b Ev) in Eb. discriminate.
    + rewrite Cs in Eb by congruence. destruct (i_leak _ _ _ I b m' Eb) as (j & f & Ej & Hj). exists j, f.
      rewrite Fs; [auto|]. intros ->. rewrite F in Ej. injection Ej as <-. cbn in Hj. congruence.
  - intros St j p n c Ej. destruct (Nat.eq_dec j i) as [->|N]; [congruence|]. rewrite Fs in Ej by exact N. eapply (i_tight _ _ _ I St); exact Ej.
Qed.

Lemma upd_same (s : shapes) i : value s i = None -> upd s i None = s.
Proof.
  unfold value. intros E. destruct (Nat.lt_ge_cases i (length s)) as [H|H]; [|now apply upd_out].
  apply ListBase.upd_self. rewrite (nth_error_nth' s None) by exact H. now rewrite E.
Qed.

Lemma inv_object sized s w i l : inv sized s w -> value s i = Some l -> exists v, object w i = Some v.
Proof. intros I V. destruct (inv_fields _ _ _ _ _ I V) as (p & n & c & F & _). destruct (fields_object _ _ _ F) as (v & O & _). now exists v. Qed.
Lemma inv_no_object sized s w i : inv sized s w -> value s i = None -> object w i = None.
Proof. intros I V. apply fields_none. eapply inv_none; eassumption. Qed.

Lemma shape_ok sized s w i v l : inv sized s w -> object w i = Some v -> value s i = Some l -> shape w v = Ok (map Some l).
Proof. intros I O V. unfold shape. eapply reads; [exact I|exact V|]. unfold fields. now rewrite O. Qed.

Theorem step_ok sized s w o : inv sized s w -> (sized = true -> length (dims o) <= 16) ->
  exists w', step sized o w = Ok w' /\ inv sized (change o s) w'.
Proof.
  intros I T. destruct o as [i d|i j|i j|i d|i j|i j|i]; cbn [step change dims] in *.
  - rewrite (inv_unused _ _ _ _ I). destruct (unused s i) eqn:U; [|eauto]. apply construct_ok; auto.
  - destruct (value s j) as [d|] eqn:V.
    + destruct (inv_object _ _ _ _ _ I V) as (x & O). rewrite O, (inv_unused _ _ _ _ I). destruct (unused s i) eqn:U; [|eauto].
      eapply copy_construct_ok; eauto.
    + rewrite (inv_no_object _ _ _ _ I V). eauto.
  - destruct (value s i) as [di|] eqn:Vi; [|rewrite (inv_no_object _ _ _ _ I Vi); eauto].
    destruct (inv_object _ _ _ _ _ I Vi) as (v & Oi). rewrite Oi.
    destruct (value s j) as [d|] eqn:Vj; [|rewrite (inv_no_object _ _ _ _ I Vj); eauto].
    destruct (inv_object _ _ _ _ _ I Vj) as (x & Oj). rewrite Oj. destruct (Nat.eqb_spec i j) as [->|N].
    + exists w. split; [reflexivity|]. replace (upd s j (Some d)) with s; [exact I|]. symmetry. apply ListBase.upd_self.
      unfold value in Vj. rewrite (nth_error_nth' s None); [now rewrite Vj|]. eapply value_lt. exact Vj.
    + eapply assign_ok; eauto.
  - destruct (value s i) as [l|] eqn:V; [|rewrite (inv_no_object _ _ _ _ I V); eauto].
    destruct (inv_object _ _ _ _ _ I V) as (v & O). rewrite O. eapply set_shape_ok; eauto.
  - destruct (value s j) as [d|] eqn:V.
    + destruct (inv_object _ _ _ _ _ I V) as (x & O). rewrite O, (inv_unused _ _ _ _ I). destruct (unused s i) eqn:U; [|eauto].
      rewrite (shape_ok _ _ _ _ _ _ I O V). cbn [obind]. apply construct_ok; auto. intros St. eapply tight_value; eauto.
    + rewrite (inv_no_object _ _ _ _ I V). eauto.
  - destruct (value s i) as [di|] eqn:Vi; [|rewrite (inv_no_object _ _ _ _ I Vi); eauto].
    destruct (inv_object _ _ _ _ _ I Vi) as (v & Oi). rewrite Oi.
    destruct (value s j) as [d|] eqn:Vj; [|rewrite (inv_no_object _ _ _ _ I Vj); eauto].
    destruct (inv_object _ _ _ _ _ I Vj) as (x & Oj). rewrite Oj, (shape_ok _ _ _ _ _ _ I Oj Vj). cbn [obind].
    eapply set_shape_ok; eauto. intros St. eapply tight_value; eauto.
  - destruct (value s i) as [l|] eqn:V.
    + destruct (inv_object _ _ _ _ _ I V) as (v & O). rewrite O. eapply destruct_ok; eauto.
    + rewrite (inv_no_object _ _ _ _ I V), (upd_same _ _ V). eauto.
Qed.

Theorem run_ok sized os : (sized = true -> at_most 16 os) -> forall s w, inv sized s w -> exists w', run sized os w = Ok w' /\ inv sized (changes os s) w'.
Proof.
  induction os as [|o os IH]; intros T s w I; [cbn; eauto|]. cbn [run changes fold_left].
  destruct (step_ok sized s w o I) as (w1 & E & I1).
  { intros St. specialize (T St). now inversion T. }
  rewrite E. cbn [obind]. apply IH; [|exact I1]. intros St. specialize (T St). now inversion T.
Qed.

Lemma begin_ok sized n : inv sized (repeat None n) (begin n).
Proof.
  assert (O : forall i, object (begin n) i = None).
  { intros i. unfold object, begin. cbn [objects]. destruct (Nat.lt_ge_cases i n); [|apply nth_overflow; now rewrite repeat_length].
    apply nth_repeat. }
  assert (F : forall i, fields (begin n) i = None) by (intros i; unfold fields; now rewrite O).
  split.
  - reflexivity || (cbn; now rewrite !repeat_length).
  - intros i. rewrite F. replace (value (repeat None n) i) with (@None (list nat)); [exact Logic.I|]. symmetry. exact (O i) || (unfold value; destruct (Nat.lt_ge_cases i n); [apply nth_repeat|apply nth_overflow; now rewrite repeat_length]).
  - intros i j fi fj b _ E. rewrite F in E. discriminate.
  - intros b m E. cbn in E. now destruct b.
  - intros _ i p k c E. rewrite F in E. discriminate.
Qed.
