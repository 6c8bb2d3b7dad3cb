(** Lemmas about the shapes of tensors. *)
From Coq Require Import List Arith Lia Bool PeanoNat.
From Verif Require Import ListBase TensorModel DimsModel DimsSpec.
Import ListNotations.

Lemma nth_upd_eq {X} (l : list X) i v d : i < length l -> nth i (upd l i v) d = v.
Proof. intros H. rewrite nth_upd by exact H. now rewrite Nat.eqb_refl. Qed.
Lemma nth_upd_ne {X} (l : list X) i j v d : i <> j -> nth j (upd l i v) d = nth j l d.
Proof. revert i j. induction l as [|x l IH]; intros [|i] [|j] H; cbn; try reflexivity; try lia. apply IH. lia. Qed.

(** a world is its arrays and the pointers of its vectors *)
Definition fields (w : world) (i : nat) : option (pointer * nat * nat) :=
  match object w i with Some v => Some (start v, size v, capacity v) | None => None end.
Definition ptr (f : pointer * nat * nat) : pointer := fst (fst f).

Definition splice (off : nat) (xs m : list cell) : list cell := firstn off m ++ xs ++ skipn (off + length xs) m.
Lemma splice_length off xs m : off + length xs <= length m -> length (splice off xs m) = length m.
Proof. intros H. unfold splice. rewrite !app_length, firstn_length, skipn_length. lia. Qed.
Lemma splice_nil off m : splice off [] m = m.
Proof. unfold splice. cbn. rewrite Nat.add_0_r. apply firstn_skipn. Qed.
Lemma splice_first xs m : length xs <= length m -> firstn (length xs) (splice 0 xs m) = xs.
Proof. intros H. unfold splice. cbn [firstn app]. rewrite firstn_app, Nat.sub_diag, firstn_all. cbn. apply app_nil_r. Qed.
Lemma splice_keep off xs m : off <= length m -> firstn off (splice off xs m) = firstn off m.
Proof.
  intros H. unfold splice. rewrite firstn_app, firstn_firstn, Nat.min_id, firstn_length, Nat.min_l by exact H.
  rewrite Nat.sub_diag. cbn. apply app_nil_r.
Qed.

Lemma object_lt w i v : object w i = Some v -> i < length (objects w).
Proof. unfold object. intros E. destruct (Nat.lt_ge_cases i (length (objects w))) as [H|H]; [exact H|]. rewrite nth_overflow in E by exact H. discriminate E. Qed.
Lemma object_set_same w i v : i < length (objects w) -> object (set_object i v w) i = v.
Proof. intros H. unfold object, set_object. cbn. now apply nth_upd_eq. Qed.
Lemma object_set_other w i j v : i <> j -> object (set_object i v w) j = object w j.
Proof. intros H. unfold object, set_object. cbn. now apply nth_upd_ne. Qed.

(** ** writing *)
Lemma cells_set w p m m' : cells w p = Some m -> cells (set_cells p m' w) p = Some m'.
Proof.
  destruct p as [|i|b]; cbn [cells set_cells heap]; [discriminate| |].
  - destruct (object w i) as [v|] eqn:E; [|discriminate]. intros _. rewrite object_set_same by (eapply object_lt; exact E). reflexivity.
  - destruct (nth_error (heap w) b) as [bl|] eqn:E; [|discriminate]. intros _.
    rewrite nth_error_upd_same by (apply nth_error_Some; congruence). reflexivity.
Qed.
Lemma cells_set_other w p q m' : p <> q -> cells (set_cells p m' w) q = cells w q.
Proof.
  intros N. destruct p as [|i|b]; cbn [cells set_cells heap]; [reflexivity| |].
  - destruct (object w i) as [v|] eqn:E; [|reflexivity]. destruct q as [|j|c]; cbn [cells set_cells heap]; [reflexivity| |reflexivity].
    rewrite object_set_other by congruence. reflexivity.
  - destruct q as [|j|c]; cbn [cells set_cells heap]; [reflexivity|reflexivity|]. rewrite nth_error_upd_other by congruence. reflexivity.
Qed.
Lemma fields_set_cells w p m' j : fields (set_cells p m' w) j = fields w j.
Proof.
  unfold fields. destruct p as [|i|b]; cbn [cells set_cells heap]; [reflexivity| |reflexivity]. destruct (object w i) as [v|] eqn:E; [|reflexivity].
  destruct (Nat.eq_dec i j) as [<-|N]; [|now rewrite object_set_other]. rewrite object_set_same by (eapply object_lt; exact E). now rewrite E.
Qed.
Lemma set_cells_objects w p m' : length (objects (set_cells p m' w)) = length (objects w).
Proof. destruct p as [|i|b]; cbn [cells set_cells heap]; [reflexivity| |reflexivity]. destruct (object w i); cbn [set_object objects]; [apply upd_length|reflexivity]. Qed.

Definition same_fields (w w' : world) : Prop := length (objects w') = length (objects w) /\ forall j, fields w' j = fields w j.

Lemma write_ok w p off xs m : cells w p = Some m -> off + length xs <= length m ->
  exists w', write p off xs w = Ok w' /\ same_fields w w' /\ cells w' p = Some (splice off xs m) /\ (forall q, p <> q -> cells w' q = cells w q).
Proof.
  intros E L. unfold write. destruct (Nat.eqb_spec (length xs) 0) as [Z|Z].
  - apply length_zero_iff_nil in Z. subst xs. exists w. rewrite splice_nil. repeat split; auto.
  - rewrite E, (proj2 (Nat.leb_le _ _) L). eexists. split; [reflexivity|]. split; [split|split].
    + apply set_cells_objects.
    + intros j. apply fields_set_cells.
    + eapply cells_set; exact E.
    + intros q N. now apply cells_set_other.
Qed.
Lemma read_ok w p n m : cells w p = Some m -> n <= length m -> read w p n = Ok (firstn n m).
Proof. intros E L. unfold read. destruct (Nat.eqb_spec n 0) as [->|Z]; [reflexivity|]. now rewrite E, (proj2 (Nat.leb_le _ _) L). Qed.

(** ** the allocator *)
Definition room (p : pointer) (c i : nat) : Prop := match p with Null => c = 0 | InCache j => j = i /\ 1 <= c <= 32 | Heap _ => 32 < c end.
Definition width (p : pointer) (c : nat) : nat := match p with Null => 0 | InCache _ => 32 | Heap _ => 8 * c end.

Lemma fresh_block w : cells w (Heap (length (heap w))) = None.
Proof. cbn [cells]. now rewrite (proj2 (nth_error_None _ _)) by lia. Qed.

Lemma allocate_ok i n w mc : 1 <= n -> cells w (InCache i) = Some mc -> length mc = 32 ->
  exists p w' m, allocate i n w = (p, w') /\ same_fields w w' /\ room p n i /\ cells w' p = Some m /\ length m = width p n /\
    (forall q, p <> q -> cells w' q = cells w q) /\ (p = InCache i /\ m = mc /\ w' = w \/ p = Heap (length (heap w)) /\ n > 32).
Proof.
  intros N E L. unfold allocate. destruct (Nat.eqb_spec n 0); [lia|]. unfold size_of, BYTES. destruct (Nat.leb_spec (8 * n) 256) as [H|H].
  - exists (InCache i), w, mc. repeat split; auto; try lia.
  - exists (Heap (length (heap w))). eexists. exists (repeat None (8 * n)). split; [reflexivity|]. split; [split; reflexivity|].
    split; [cbn; lia|]. split; [|split; [apply repeat_length|split; [|right; split; [reflexivity|lia]]]].
    + cbn [cells heap]. rewrite nth_error_app2, Nat.sub_diag by lia. reflexivity.
    + intros [|j|b] X; cbn [cells heap]; try reflexivity. assert (length (heap w) <> b) by congruence.
      destruct (Nat.lt_ge_cases b (length (heap w))) as [Y|Y]; [now rewrite nth_error_app1 by exact Y|].
      rewrite !(proj2 (nth_error_None _ _)) by (rewrite ?app_length; cbn [length]; lia). reflexivity.
Qed.

Lemma deallocate_ok sized p n i w m : room p n i -> (sized = true -> n <= 32) -> (p <> Null -> cells w p = Some m) ->
  exists w', deallocate sized p n w = Ok w' /\ same_fields w w' /\ (forall q, (forall b, p <> Heap b) \/ p <> q -> cells w' q = cells w q) /\ (forall b, p = Heap b -> cells w' p = None).
Proof.
  intros R Sz C. destruct p as [|j|b]; cbn in R.
  - exists w. repeat split; auto; discriminate.
  - exists w. split; [|repeat split; auto; discriminate]. cbn [deallocate]. unfold size_of, BYTES. now destruct (Nat.leb_spec (8 * n) 256); [|lia].
  - assert (sized = false) as -> by (destruct sized; [specialize (Sz eq_refl); lia|reflexivity]).
    specialize (C ltac:(discriminate)). cbn in C. cbn [deallocate]. unfold size_of, BYTES. destruct (Nat.leb_spec (8 * n) 256); [lia|].
    destruct (nth_error (heap w) b) as [bl|] eqn:E; [|discriminate]. destruct (live bl) eqn:Lv; [|discriminate]. cbn [andb negb orb].
    eexists. split; [reflexivity|]. split; [split; reflexivity|]. split.
    + intros q [X|X]; [now destruct (X b)|]. destruct q as [|k|c]; cbn [cells set_cells heap]; try reflexivity; cbn [heap]. now rewrite nth_error_upd_other by congruence.
    + intros c _. cbn [cells heap]. rewrite nth_error_upd_same by (apply nth_error_Some; congruence). reflexivity.
Qed.

Lemma set_fields_ok i p n c w f : fields w i = Some f ->
  length (objects (set_fields i p n c w)) = length (objects w) /\ (forall j, i <> j -> fields (set_fields i p n c w) j = fields w j) /\
  fields (set_fields i p n c w) i = Some (p, n, c) /\ (forall q, cells (set_fields i p n c w) q = cells w q).
Proof.
  unfold fields, set_fields. destruct (object w i) as [v|] eqn:E; [|discriminate]. intros _. pose proof (object_lt _ _ _ E) as L.
  split; [apply upd_length|]. split; [|split].
  - intros j N. now rewrite object_set_other by exact N.
  - now rewrite object_set_same by exact L.
  - intros [|j|b]; cbn [cells]; try reflexivity. destruct (Nat.eq_dec i j) as [<-|N]; [|now rewrite object_set_other].
    rewrite object_set_same, E by exact L. reflexivity.
Qed.

Lemma new_object_ok i mc w : i < length (objects w) ->
  let w' := set_object i (Some (Vec mc Null 0 0)) w in
  length (objects w') = length (objects w) /\ (forall j, i <> j -> fields w' j = fields w j) /\ fields w' i = Some (Null, 0, 0) /\
  cells w' (InCache i) = Some mc /\ (forall q, q <> InCache i -> cells w' q = cells w q).
Proof.
  intros L. split; [apply upd_length|]. unfold fields. split; [|split; [|split]].
  - intros j N. now rewrite object_set_other by exact N.
  - now rewrite object_set_same by exact L.
  - cbn [cells]. now rewrite object_set_same by exact L.
  - intros [|j|b] X; cbn [cells set_cells heap]; try reflexivity. now rewrite object_set_other by congruence.
Qed.

(** ** the invariant *)
Definition good (w : world) (i : nat) (f : pointer * nat * nat) (l : list nat) : Prop :=
  let '(p, n, c) := f in
  n = length l /\ n <= c /\ room p c i /\ (exists mc, cells w (InCache i) = Some mc /\ length mc = 32) /\
  (p <> Null -> exists m, cells w p = Some m /\ length m = width p c /\ firstn n m = map Some l).

Definition held (w : world) (i : nat) (f : option (pointer * nat * nat)) (l : option (list nat)) : Prop :=
  match f, l with None, None => True | Some f, Some l => good w i f l | _, _ => False end.

Record inv (sized : bool) (s : shapes) (w : world) : Prop := Inv {
  i_len : length (objects w) = length s;
  i_held : forall i, held w i (fields w i) (value s i);
  i_own : forall i j fi fj b, i <> j -> fields w i = Some fi -> fields w j = Some fj -> ptr fi = Heap b -> ptr fj <> Heap b;
  i_leak : forall b m, cells w (Heap b) = Some m -> exists i f, fields w i = Some f /\ ptr f = Heap b;
  i_tight : sized = true -> forall i p n c, fields w i = Some (p, n, c) -> n <= 16 /\ c <= 32 }.

Lemma width_room p c i : p <> Null -> room p c i -> c <= width p c.
Proof. destruct p; cbn; intros; [congruence|lia|lia]. Qed.

Lemma inv_fields sized s w i l : inv sized s w -> value s i = Some l -> exists p n c, fields w i = Some (p, n, c) /\ good w i (p, n, c) l.
Proof. intros I E. pose proof (i_held _ _ _ I i) as H. rewrite E in H. destruct (fields w i) as [[[p n] c]|]; [|easy]. exists p, n, c. auto. Qed.
Lemma inv_none sized s w i : inv sized s w -> value s i = None -> fields w i = None.
Proof. intros I E. pose proof (i_held _ _ _ I i) as H. rewrite E in H. now destruct (fields w i). Qed.
Lemma value_lt s i l : value s i = Some l -> i < length s.
Proof. unfold value. intros E. destruct (Nat.lt_ge_cases i (length s)) as [H|H]; [exact H|]. rewrite nth_overflow in E by exact H. discriminate E. Qed.
Lemma fields_object w i f : fields w i = Some f -> exists v, object w i = Some v /\ f = (start v, size v, capacity v).
Proof. unfold fields. destruct (object w i) as [v|]; [|discriminate]. intros [= <-]. now exists v. Qed.
Lemma fields_none w i : fields w i = None -> object w i = None.
Proof. unfold fields. now destruct (object w i). Qed.

Definition other_owner (w : world) (i b : nat) : Prop := exists j f, j <> i /\ fields w j = Some f /\ ptr f = Heap b.

Lemma held_kept w w' j f l : held w j f l -> (forall q, q = InCache j \/ (exists f0, f = Some f0 /\ q = ptr f0) -> cells w' q = cells w q) -> held w' j f l.
Proof.
  destruct f as [[[p n] c]|], l as [l|]; cbn [held good]; auto. intros (H1 & H2 & H3 & H4 & H5) K.
  rewrite (K (InCache j)) by auto. repeat split; auto. intros N. rewrite K by (right; eexists; split; reflexivity). auto.
Qed.

Lemma inv_update sized s w w' i f' l' : inv sized s w -> i < length s -> length (objects w') = length (objects w) ->
  (forall j, i <> j -> fields w' j = fields w j) -> fields w' i = Some f' -> good w' i f' l' ->
  (forall q, q <> InCache i -> (forall b, q = Heap b -> other_owner w i b) -> cells w' q = cells w q) ->
  (forall b, other_owner w i b -> ptr f' <> Heap b) ->
  (forall b m, cells w' (Heap b) = Some m -> ptr f' = Heap b \/ other_owner w i b) ->
  (sized = true -> snd (fst f') <= 16 /\ snd f' <= 32) ->
  inv sized (upd s i (Some l')) w'.
Proof.
  intros I Li L F Fi G K O Lk T. split.
  - rewrite upd_length, L. apply (i_len _ _ _ I).
  - intros j. destruct (Nat.eq_dec i j) as [<-|N].
    + rewrite Fi. unfold value. rewrite nth_upd_eq by exact Li. exact G.
    + rewrite F by exact N. unfold value. rewrite nth_upd_ne by exact N. eapply held_kept; [apply (i_held _ _ _ I j)|].
      intros q [->|(f0 & E & ->)].
      * apply K; congruence.
      * pose proof (i_held _ _ _ I j) as H. rewrite E in H. apply K.
        -- destruct f0 as [[p n] c]. cbn [ptr fst]. destruct (value s j); [|easy]. destruct H as (_ & _ & R & _). destruct p; cbn in R; try congruence. destruct R as [-> _]. congruence.
        -- intros b Eb. exists j, f0. auto.
  - intros a b fa fb c N Ea Eb Ha Hb. destruct (Nat.eq_dec i a) as [<-|Na].
    + assert (fa = f') by congruence. subst fa. rewrite F in Eb by exact N. apply (O c); [|exact Ha]. exists b, fb. auto.
    + rewrite F in Ea by exact Na. destruct (Nat.eq_dec i b) as [<-|Nb].
      * assert (fb = f') by congruence. subst fb. apply (O c); [|exact Hb]. exists a, fa. auto.
      * rewrite F in Eb by exact Nb. eapply (i_own _ _ _ I a b); eassumption.
  - intros b m E. destruct (Lk b m E) as [H|(j & f & N & Ej & H)].
    + exists i, f'. auto.
    + exists j, f. rewrite F by auto. auto.
  - intros St j p n c E. destruct (Nat.eq_dec i j) as [<-|N].
    + assert (f' = (p, n, c)) by congruence. subst f'. cbn in T. auto.
    + rewrite F in E by exact N. eapply (i_tight _ _ _ I St); exact E.
Qed.

Lemma inv_unused sized s w i : inv sized s w -> free_name i w = unused s i.
Proof.
  intros I. unfold free_name, unused. rewrite (i_len _ _ _ I). f_equal. destruct (value s i) as [l|] eqn:E.
  - destruct (inv_fields _ _ _ _ _ I E) as (p & n & c & F & _). destruct (fields_object _ _ _ F) as (v & -> & _). reflexivity.
  - now rewrite (fields_none _ _ (inv_none _ _ _ _ I E)).
Qed.

(** blocks owned by nobody but i *)
Lemma leak_other sized s w b m i : inv sized s w -> cells w (Heap b) = Some m -> (forall f, fields w i = Some f -> ptr f <> Heap b) -> other_owner w i b.
Proof. intros I E N. destruct (i_leak _ _ _ I b m E) as (j & f & Ej & Hj). exists j, f. split; [intros ->; now apply (N f)|]. auto. Qed.
Lemma other_not_fresh sized s w i : inv sized s w -> ~ other_owner w i (length (heap w)).
Proof.
  intros I (j & [[p n] c] & _ & E & H). cbn in H. subst p. pose proof (i_held _ _ _ I j) as G. rewrite E in G.
  destruct (value s j); [|easy]. destruct G as (_ & _ & _ & _ & G). destruct (G ltac:(discriminate)) as (m & C & _). now rewrite fresh_block in C.
Qed.
