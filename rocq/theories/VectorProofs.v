(** Lemmas about ceras::vector. *)
From Coq Require Import List Arith Lia Bool PeanoNat.
From Verif Require Import ListBase TensorModel VectorModel VectorSpec.
Import ListNotations.

Lemma nth_upd_same {X} (l : list X) i v d : i < length l -> nth i (upd l i v) d = v.
Proof. intros H. rewrite nth_upd by exact H. now rewrite Nat.eqb_refl. Qed.
Lemma nth_upd_other {X} (l : list X) i j v d : i <> j -> nth j (upd l i v) d = nth j l d.
Proof. revert i j. induction l as [|x l IH]; intros [|i] [|j] H; cbn; try reflexivity; try lia. apply IH. lia. Qed.
Lemma upd_twice {X} (l : list X) i u v : upd (upd l i u) i v = upd l i v.
Proof. revert i. induction l as [|x l IH]; intros [|i]; cbn; try reflexivity. now rewrite IH. Qed.
Lemma upd_self {X} (l : list X) i v d : nth i l d = v -> upd l i v = l.
Proof. revert i. induction l as [|x l IH]; intros [|i] H; cbn in *; try reflexivity; [now subst|]. f_equal. now apply IH. Qed.
Lemma map_upd {X Y} (f : X -> Y) l i v : map f (upd l i v) = upd (map f l) i (f v).
Proof. revert i. induction l as [|x l IH]; intros [|i]; cbn; try reflexivity. now rewrite IH. Qed.

Definition count {X} (f : X -> bool) (l : list X) : nat := length (filter f l).
Lemma count_upd {X} (f : X -> bool) l i v d : i < length l -> count f (upd l i v) + Nat.b2n (f (nth i l d)) = count f l + Nat.b2n (f v).
Proof.
  unfold count. revert i. induction l as [|x l IH]; intros [|i] H; cbn [length] in H; try lia; cbn [upd nth filter].
  - destruct (f v), (f x); cbn; lia.
  - specialize (IH i ltac:(lia)). destruct (f x); cbn [length]; lia.
Qed.
Lemma count_snoc {X} (f : X -> bool) l v : count f (l ++ [v]) = count f l + Nat.b2n (f v).
Proof. unfold count. rewrite filter_app, app_length. cbn. now destruct (f v). Qed.

Section Inv.
Context {A : Type}.
Implicit Types (w : world A) (s : values (A:=A)).

Definition view (h : list (block A)) : list (nat * bool) := map (fun b => (length (words b), live b)) h.
Definition filled (c : option (list (option A))) : bool := match c with Some (_ :: _) => true | _ => false end.

Definition holds (h : list (block A)) (v : option vec) (c : option (list (option A))) : Prop :=
  match v, c with
  | None, None => True
  | Some v, Some l => vsize v = length l /\ match vdata v with None => l = [] | Some k => l <> [] /\ nth_error h k = Some (Block l true) end
  | _, _ => False
  end.

Record inv s w (n : nat) : Prop := Inv {
  i_len : length (objects w) = length s;
  i_holds : forall i, holds (heap w) (object w i) (value s i);
  i_own : forall i j vi vj k, i <> j -> object w i = Some vi -> object w j = Some vj -> vdata vi = Some k -> vdata vj <> Some k;
  i_calls : account (calls w) = Some (view (heap w));
  i_count : out (view (heap w)) = with_elements s + n }.

Lemma value_lt s i l : value s i = Some l -> i < length s.
Proof. unfold value. intros E. destruct (Nat.lt_ge_cases i (length s)) as [H|H]; [exact H|]. rewrite nth_overflow in E by exact H. discriminate E. Qed.
Lemma inv_object s w n i l : inv s w n -> value s i = Some l -> exists v, object w i = Some v /\ vsize v = length l /\ match vdata v with None => l = [] | Some k => l <> [] /\ nth_error (heap w) k = Some (Block l true) end.
Proof. intros I E. pose proof (i_holds _ _ _ I i) as H. rewrite E in H. destruct (object w i) as [v|]; [|easy]. now exists v. Qed.
Lemma inv_no_object s w n i : inv s w n -> value s i = None -> object w i = None.
Proof. intros I E. pose proof (i_holds _ _ _ I i) as H. rewrite E in H. now destruct (object w i). Qed.
Lemma inv_free s w n i : inv s w n -> free_name i w = is_free i s.
Proof.
  intros I. unfold free_name, is_free. rewrite (i_len _ _ _ I). f_equal. destruct (value s i) as [l|] eqn:E.
  - destruct (inv_object _ _ _ _ _ I E) as (v & -> & _). reflexivity.
  - now rewrite (inv_no_object _ _ _ _ I E).
Qed.

Lemma inv_put s w n i v c h cs m : inv s w n -> i < length s -> holds h v c ->
  (forall j k vj b, j <> i -> object w j = Some vj -> vdata vj = Some k -> nth_error (heap w) k = Some b -> nth_error h k = Some b) ->
  (forall j k vj u, j <> i -> object w j = Some vj -> vdata vj = Some k -> v = Some u -> vdata u <> Some k) ->
  account cs = Some (view h) -> out (view h) = with_elements (upd s i c) + m ->
  inv (upd s i c) (World h (upd (objects w) i v) cs) m.
Proof.
  intros I Hi Hh Ho Hn Hc Hm. assert (Ho' : i < length (objects w)) by (rewrite (i_len _ _ _ I); exact Hi). constructor.
  - cbn [objects]. rewrite !upd_length. apply (i_len _ _ _ I).
  - intros j. unfold object, value. cbn [heap objects]. destruct (Nat.eq_dec i j) as [<-|N]; [now rewrite !nth_upd_same|]. rewrite !nth_upd_other by exact N.
    pose proof (i_holds _ _ _ I j) as H. unfold object, value in H. destruct (nth j (objects w) None) as [vj|] eqn:Ej; [|exact H]. destruct (nth j s None) as [l|]; [|exact H].
    destruct H as [H1 H2]. split; [exact H1|]. destruct (vdata vj) as [k|] eqn:Ek; [|exact H2]. destruct H2 as [H2 H3]. split; [exact H2|]. now apply (Ho j k vj); auto.
  - intros a b va vb k N. unfold object. cbn [objects]. intros Ea Eb Ka. destruct (Nat.eq_dec i a) as [<-|Na].
    + rewrite nth_upd_same in Ea by exact Ho'. rewrite nth_upd_other in Eb by exact N. intros Kb. exact (Hn b k vb va ltac:(congruence) Eb Kb Ea Ka).
    + rewrite nth_upd_other in Ea by exact Na. destruct (Nat.eq_dec i b) as [<-|Nb].
      * rewrite nth_upd_same in Eb by exact Ho'. exact (Hn a k va vb ltac:(congruence) Ea Ka Eb).
      * rewrite nth_upd_other in Eb by exact Nb. exact (i_own _ _ _ I a b va vb k N Ea Eb Ka).
  - exact Hc.
  - exact Hm.
Qed.

Lemma account_snoc cs c : account (cs ++ [c]) = match account cs with Some bs => account1 c bs | None => None end.
Proof. unfold account. now rewrite fold_left_app. Qed.
Lemma out_view_upd (h : list (block A)) k l b b' : nth_error h k = Some (Block l b) -> forall l', out (view (upd h k (Block l' b'))) + Nat.b2n b = out (view h) + Nat.b2n b'.
Proof.
  intros E l'. assert (Hk : k < length (view h)) by (unfold view; rewrite map_length; apply nth_error_Some; congruence).
  unfold view. rewrite map_upd. pose proof (count_upd snd (view h) k (length l', b') (0, b) Hk) as C. unfold out. fold (view h). unfold count in C. cbn [words live snd] in *.
  assert (N : nth k (view h) (0, b) = (length l, b)) by (apply nth_error_nth; unfold view; rewrite nth_error_map, E; reflexivity). rewrite N in C. exact C.
Qed.
Lemma with_elements_upd s i c l : value s i = Some l -> with_elements (upd s i c) + Nat.b2n (filled (Some l)) = with_elements s + Nat.b2n (filled c).
Proof. intros E. pose proof (count_upd filled s i c None (value_lt _ _ _ E)) as C. unfold value in E. rewrite E in C. exact C. Qed.
Lemma with_elements_new s i c : is_free i s = true -> with_elements (upd s i c) = with_elements s + Nat.b2n (filled c).
Proof.
  unfold is_free. intros E. apply andb_true_iff in E. destruct E as [H1 H2]. apply Nat.ltb_lt in H1. pose proof (count_upd filled s i c None H1) as C. unfold value in H2.
  destruct (nth i s None); [discriminate H2|]. cbn in C. unfold with_elements. fold (count filled (upd s i c)) (count filled s). change (length (filter _ (upd s i c))) with (count filled (upd s i c)). change (length (filter _ s)) with (count filled s). lia.
Qed.

(** another block than those of the other objects *)
Lemma own_block s w n i v k : inv s w n -> object w i = Some v -> vdata v = Some k -> forall j vj, j <> i -> object w j = Some vj -> vdata vj <> Some k.
Proof. intros I E K j vj N Ej. exact (i_own _ _ _ I i j v vj k ltac:(congruence) E Ej K). Qed.

Lemma clear_inv s w n i v l : inv s w n -> object w i = Some v -> value s i = Some l -> exists w', clear i v w = Ok w' /\ inv (upd s i (Some [])) w' n.
Proof.
  intros I Ev El. destruct (inv_object _ _ _ _ _ I El) as (v' & Ev' & Es & Ed). rewrite Ev in Ev'. injection Ev' as <-. unfold clear. rewrite Es. destruct (vdata v) as [k|] eqn:Ek.
  - destruct Ed as [Nl Eh]. destruct l as [|x l]; [easy|]. cbn [length Nat.eqb]. unfold deallocate. rewrite Eh. cbn [live words length andb]. rewrite Nat.eqb_refl. cbn [obind]. eexists. split; [reflexivity|].
    unfold set_object. cbn [heap objects calls]. apply (inv_put s w n i); try assumption.
    + now apply (value_lt s i (x :: l)).
    + cbn. auto.
    + intros j k' vj b N Ej Ek' Eb. rewrite nth_error_upd_other; [exact Eb|]. intros <-. exact (own_block _ _ _ _ _ _ I Ev Ek j vj N Ej Ek').
    + intros j k' vj u N Ej Ek' [= <-]. discriminate.
    + rewrite account_snoc, (i_calls _ _ _ I). cbn [account1]. unfold view. rewrite nth_error_map, Eh. cbn [option_map words live length]. rewrite Nat.eqb_refl, map_upd. reflexivity.
    + pose proof (out_view_upd _ _ _ _ false Eh (x :: l)) as O. pose proof (with_elements_upd s i (Some []) _ El) as W. pose proof (i_count _ _ _ I) as C. cbn in O, W. cbn [words]. lia.
  - subst l. cbn [length Nat.eqb]. eexists. split; [reflexivity|]. unfold set_object. apply (inv_put s w n i); try assumption.
    + now apply (value_lt s i []).
    + cbn. auto.
    + auto.
    + intros j k vj u N Ej Ek' [= <-]. discriminate.
    + apply (i_calls _ _ _ I).
    + pose proof (with_elements_upd s i (Some []) _ El) as W. pose proof (i_count _ _ _ I) as C. cbn in W. lia.
Qed.

Lemma resize_inv s w n i k v l : inv s w n -> object w i = Some v -> value s i = Some l ->
  exists w', resize i k v w = Ok w' /\ inv (upd s i (Some (if k =? length l then l else repeat None k))) w' n /\ (forall j, j <> i -> object w' j = object w j).
Proof.
  intros I Ev El. destruct (inv_object _ _ _ _ _ I El) as (v' & Ev' & Es & _). rewrite Ev in Ev'. injection Ev' as <-. unfold resize. rewrite Es. destruct (Nat.eqb_spec k (length l)) as [E|E].
  - exists w. split; [reflexivity|]. split; [|reflexivity]. rewrite (upd_self s i (Some l) None El). exact I.
  - destruct (clear_inv s w n i v l I Ev El) as (w1 & E1 & I1). rewrite E1. cbn [obind].
    assert (O1 : forall j, j <> i -> object w1 j = object w j).
    { intros j N. unfold clear in E1. destruct (vsize v =? 0); [injection E1 as <-; unfold object, set_object; cbn [objects]; apply nth_upd_other; auto|].
      unfold deallocate in E1. destruct (vdata v); [|discriminate E1]. destruct (nth_error (heap w) n0) as [b|]; [|discriminate E1]. destruct (live b && (length (words b) =? vsize v)); [|discriminate E1].
      injection E1 as <-. unfold object, set_object. cbn [objects]. apply nth_upd_other; auto. }
    destruct (Nat.eqb_spec k 0) as [Z|Z]; [subst k; exists w1; auto|]. cbn [allocate]. eexists. split; [reflexivity|]. unfold set_object. cbn [heap objects calls]. split.
    + rewrite <- (upd_twice s i (Some [])). apply (inv_put _ w1 n i); try assumption.
      * rewrite upd_length. now apply (value_lt s i l).
      * cbn. rewrite repeat_length. split; [reflexivity|]. split; [destruct k; [easy|discriminate]|]. rewrite nth_error_app2, Nat.sub_diag by lia. reflexivity.
      * intros j k' vj b N Ej Ek' Eb. rewrite nth_error_app1; [exact Eb|]. apply nth_error_Some. congruence.
      * intros j k' vj u N Ej Ek' [= <-]. cbn [vdata]. intros [= <-]. pose proof (i_holds _ _ _ I1 j) as H. rewrite Ej in H. destruct (value (upd s i (Some [])) j); [|easy]. destruct H as [_ H]. rewrite Ek' in H. destruct H as [_ H].
        assert (L : length (heap w1) < length (heap w1)) by (apply nth_error_Some; congruence). lia.
      * rewrite account_snoc, (i_calls _ _ _ I1). cbn [account1]. unfold view. rewrite map_app. cbn. now rewrite repeat_length.
      * unfold view. rewrite map_app. cbn [map]. unfold out. rewrite filter_app, app_length. cbn [words live filter snd length]. fold (out (view (heap w1))). fold (view (heap w1)). fold (out (view (heap w1))).
        pose proof (i_count _ _ _ I1) as C. assert (El1 : value (upd s i (Some [])) i = Some []) by (unfold value; rewrite nth_upd_same; [reflexivity|]; now apply (value_lt s i l)).
        pose proof (with_elements_upd _ i (Some (repeat None k)) _ El1) as W. destruct k; [easy|]. cbn in W |- *. cbn in C. lia.
    + intros j N. unfold object. cbn [objects]. rewrite nth_upd_other by auto. apply O1. exact N.
Qed.

Lemma write_inv s w n i v l xs : inv s w n -> object w i = Some v -> value s i = Some l -> l <> [] -> length xs = length l ->
  exists w', write_n (vdata v) xs w = Ok w' /\ inv (upd s i (Some xs)) w' n.
Proof.
  intros I Ev El Nl Lx. destruct (inv_object _ _ _ _ _ I El) as (v' & Ev' & Es & Ed). rewrite Ev in Ev'. injection Ev' as <-. unfold write_n. destruct (vdata v) as [k|] eqn:Ek; [|easy]. destruct Ed as [_ Eh]. rewrite Eh.
  cbn [live words andb]. rewrite (proj2 (Nat.leb_le _ _)) by lia. eexists. split; [reflexivity|]. rewrite skipn_all2 by lia. rewrite app_nil_r.
  rewrite <- (upd_self (objects w) i (Some v) None Ev). apply (inv_put s w n i); try assumption.
  - now apply (value_lt s i l).
  - cbn. rewrite Ek. split; [congruence|]. split; [intros ->; destruct l; [easy|discriminate Lx]|]. rewrite nth_error_upd_same; [reflexivity|]. apply nth_error_Some. congruence.
  - intros j k' vj b N Ej Ek' Eb. rewrite nth_error_upd_other; [exact Eb|]. intros <-. exact (own_block _ _ _ _ _ _ I Ev Ek j vj N Ej Ek').
  - intros j k' vj u N Ej Ek' [= <-]. intros Q. exact (own_block _ _ _ _ _ _ I Ev Q j vj N Ej Ek').
  - rewrite (i_calls _ _ _ I). unfold view. rewrite map_upd. cbn [words live]. rewrite Lx. f_equal. symmetry. apply (upd_self _ k _ (0, false)). apply nth_error_nth. now rewrite nth_error_map, Eh.
  - pose proof (out_view_upd _ _ _ _ true Eh xs) as O. pose proof (with_elements_upd s i (Some xs) _ El) as W. pose proof (i_count _ _ _ I) as C. destruct l, xs; try easy. cbn in O, W. lia.
Qed.
Lemma read_inv s w n j v l : inv s w n -> object w j = Some v -> value s j = Some l -> l <> [] -> read_n (vdata v) (length l) w = Ok l.
Proof.
  intros I Ev El Nl. destruct (inv_object _ _ _ _ _ I El) as (v' & Ev' & _ & Ed). rewrite Ev in Ev'. injection Ev' as <-. unfold read_n. destruct (vdata v) as [k|]; [|easy]. destruct Ed as [_ ->].
  cbn [live words andb]. now rewrite Nat.leb_refl, firstn_all.
Qed.
Lemma fresh_inv s w n i : inv s w n -> is_free i s = true -> inv (upd s i (Some [])) (set_object i (Some (Vec 0 None)) w) n.
Proof.
  intros I F. assert (Hi : i < length s) by (unfold is_free in F; apply andb_true_iff in F; now apply Nat.ltb_lt). unfold set_object. apply (inv_put s w n i); try assumption.
  - cbn. auto.
  - auto.
  - intros j k vj u N Ej Ek [= <-]. discriminate.
  - apply (i_calls _ _ _ I).
  - rewrite (with_elements_new s i _ F). cbn. rewrite Nat.add_0_r. apply (i_count _ _ _ I).
Qed.
Lemma value_upd s i c : i < length s -> value (upd s i c) i = c. Proof. intros H. unfold value. now apply nth_upd_same. Qed.
Lemma object_set w i v : i < length (objects w) -> object (set_object i v w) i = v. Proof. intros H. unfold object, set_object. cbn [objects]. now apply nth_upd_same. Qed.
Lemma free_lt s i : is_free i s = true -> i < length s. Proof. unfold is_free. intros F. apply andb_true_iff in F. now apply Nat.ltb_lt. Qed.

(** resize to the length of xs and store xs *)
Lemma resize_store s w n i xs v l : inv s w n -> object w i = Some v -> value s i = Some l ->
  exists w', obind (resize i (length xs) v w) (fun w => match object w i with None => Ok w | Some v => if vsize v =? 0 then Ok w else write_n (vdata v) xs w end) = Ok w' /\ inv (upd s i (Some xs)) w' n.
Proof.
  intros I Ev El. destruct (resize_inv s w n i (length xs) v l I Ev El) as (w1 & E1 & I1 & _). rewrite E1. cbn [obind]. set (l1 := if length xs =? length l then l else repeat None (length xs)) in *.
  assert (L1 : length l1 = length xs) by (unfold l1; destruct (Nat.eqb_spec (length xs) (length l)); [congruence|apply repeat_length]).
  pose proof (value_upd s i (Some l1) (value_lt _ _ _ El)) as V1. destruct (inv_object _ _ _ _ _ I1 V1) as (v1 & Ev1 & Es1 & _). rewrite Ev1, Es1, L1. destruct xs as [|x xs].
  - cbn [length Nat.eqb]. exists w1. split; [reflexivity|]. assert (l1 = []) as -> by (now destruct l1). exact I1.
  - cbn [length Nat.eqb]. destruct (write_inv _ _ _ _ _ _ (x :: xs) I1 Ev1 V1) as (w2 & E2 & I2); [intros ->; discriminate L1|congruence|]. exists w2. split; [exact E2|]. now rewrite upd_twice in I2.
Qed.

Lemma step_inv o s w n : inv s w n -> exists w', step o w = Ok w' /\ inv (vstep o s) w' (n + loses o s).
Proof.
  intros I. destruct o as [i k x|i xs|i j|i j|i j|i j|i k|i|i k x|i]; cbn [step vstep loses]; rewrite ?Nat.add_0_r.
  - rewrite (inv_free _ _ _ _ I). destruct (is_free i s) eqn:F; [|eauto]. assert (Hi := free_lt s i F).
    destruct (resize_store (upd s i (Some [])) (set_object i (Some (Vec 0 None)) w) n i (repeat (Some x) k) (Vec 0 None) [] (fresh_inv _ _ _ _ I F)) as (w' & E & I').
    { apply object_set. now rewrite (i_len _ _ _ I). } { now apply value_upd. } rewrite upd_twice in I'. exists w'. split; [exact E|exact I'].
  - rewrite (inv_free _ _ _ _ I). destruct (is_free i s) eqn:F; [|eauto]. assert (Hi := free_lt s i F).
    destruct (resize_store (upd s i (Some [])) (set_object i (Some (Vec 0 None)) w) n i (map Some xs) (Vec 0 None) [] (fresh_inv _ _ _ _ I F)) as (w' & E & I').
    { apply object_set. now rewrite (i_len _ _ _ I). } { now apply value_upd. } rewrite upd_twice in I'. exists w'. split; [exact E|exact I'].
  - destruct (value s j) as [l|] eqn:El; [|rewrite (inv_no_object _ _ _ _ I El); eauto]. destruct (inv_object _ _ _ _ _ I El) as (v & Ev & Es & _). rewrite Ev. rewrite (inv_free _ _ _ _ I). destruct (is_free i s) eqn:F; [|eauto].
    assert (Hi := free_lt s i F). assert (N : j <> i) by (intros ->; unfold is_free in F; rewrite El in F; rewrite andb_false_r in F; discriminate F).
    assert (F1 := fresh_inv _ _ _ _ I F). set (s1 := upd s i (Some [])) in *. set (w1 := set_object i (Some (Vec 0 None)) w) in *.
    assert (O1 : object w1 i = Some (Vec 0 None)) by (apply object_set; now rewrite (i_len _ _ _ I)). assert (V1 : value s1 i = Some []) by (now apply value_upd).
    destruct (resize_inv s1 w1 n i (vsize v) (Vec 0 None) [] F1 O1 V1) as (w2 & E2 & I2 & O2). rewrite E2. cbn [obind]. rewrite Es in *.
    set (l1 := if length l =? length (A:=option A) [] then [] else repeat None (length l)) in *. assert (L1 : length l1 = length l) by (unfold l1; destruct l; [reflexivity|cbn [length Nat.eqb]; apply repeat_length]).
    assert (Hi1 : i < length s1) by (unfold s1; now rewrite upd_length). pose proof (value_upd s1 i (Some l1) Hi1) as V2. destruct (inv_object _ _ _ _ _ I2 V2) as (u & Eu & Su & _). rewrite Eu, Su, L1.
    destruct l as [|y l].
    + cbn [length Nat.eqb]. exists w2. split; [reflexivity|]. assert (l1 = []) as E0 by (now destruct l1). rewrite E0 in I2. unfold s1 in I2. now rewrite upd_twice in I2.
    + cbn [length Nat.eqb]. change (S (length l)) with (length (y :: l)).
      assert (Ov : object w2 j = Some v) by (rewrite O2 by exact N; unfold object, w1, set_object; cbn [objects]; rewrite nth_upd_other by auto; exact Ev).
      assert (Vv : value (upd s1 i (Some l1)) j = Some (y :: l)) by (unfold value, s1; rewrite !nth_upd_other by auto; exact El).
      rewrite (read_inv _ _ _ _ _ _ I2 Ov Vv) by discriminate. cbn [obind].
      destruct (write_inv _ _ _ _ _ _ (y :: l) I2 Eu V2) as (w3 & E3 & I3); [intros E0; rewrite E0 in L1; discriminate L1|congruence|]. exists w3. split; [exact E3|]. unfold s1 in I3. now rewrite !upd_twice in I3.
  - destruct (value s j) as [l|] eqn:El; [|rewrite (inv_no_object _ _ _ _ I El); eauto]. destruct (inv_object _ _ _ _ _ I El) as (v & Ev & Es & Ed). rewrite Ev. rewrite (inv_free _ _ _ _ I). destruct (is_free i s) eqn:F; [|eauto].
    assert (Hi := free_lt s i F). assert (Hj := value_lt _ _ _ El). assert (N : j <> i) by (intros ->; unfold is_free in F; rewrite El in F; rewrite andb_false_r in F; discriminate F).
    eexists. split; [reflexivity|]. constructor; cbn [heap objects calls set_object].
    + rewrite !upd_length. apply (i_len _ _ _ I).
    + intros a. unfold object, value. cbn [objects set_object]. pose proof (i_holds _ _ _ I a) as H. destruct (Nat.eq_dec j a) as [<-|Na]; [rewrite !nth_upd_same by (rewrite upd_length, ?(i_len _ _ _ I); lia); split; reflexivity|].
      rewrite !(nth_upd_other _ j a) by exact Na. destruct (Nat.eq_dec i a) as [<-|Nb]; [rewrite !nth_upd_same by (rewrite ?(i_len _ _ _ I); lia); exact (conj Es Ed)|]. rewrite !nth_upd_other by exact Nb. exact H.
    + assert (O : forall a va, nth a (upd (upd (objects w) i (Some v)) j (Some (Vec 0 None))) None = Some va -> forall k, vdata va = Some k -> (a = i /\ va = v) \/ (a <> i /\ a <> j /\ object w a = Some va)).
      { intros a va Ea k Ka. destruct (Nat.eq_dec j a) as [<-|Na]; [rewrite nth_upd_same in Ea by (rewrite upd_length, (i_len _ _ _ I); lia); injection Ea as <-; discriminate Ka|]. rewrite nth_upd_other in Ea by exact Na.
        destruct (Nat.eq_dec i a) as [<-|Nb]; [rewrite nth_upd_same in Ea by (rewrite (i_len _ _ _ I); lia); injection Ea as <-; auto|]. rewrite nth_upd_other in Ea by exact Nb. right. auto. }
      intros a b va vb k Nab Ea Eb Ka Kb. unfold object in Ea, Eb. cbn [objects set_object] in Ea, Eb. destruct (O a va Ea k Ka) as [[-> ->]|(Na1 & Na2 & Oa)], (O b vb Eb k Kb) as [[-> ->]|(Nb1 & Nb2 & Ob)].
      * easy.
      * exact (i_own _ _ _ I j b v vb k ltac:(congruence) Ev Ob Ka Kb).
      * exact (i_own _ _ _ I a j va v k ltac:(congruence) Oa Ev Ka Kb).
      * exact (i_own _ _ _ I a b va vb k Nab Oa Ob Ka Kb).
    + apply (i_calls _ _ _ I).
    + rewrite (i_count _ _ _ I). assert (Ej : value (upd s i (Some l)) j = Some l) by (unfold value; now rewrite nth_upd_other by auto). pose proof (with_elements_upd _ j (Some []) _ Ej) as W. rewrite (with_elements_new s i _ F) in W. cbn in W |- *. lia.
  - destruct (value s i) as [l0|] eqn:El0; [|rewrite (inv_no_object _ _ _ _ I El0); eauto]. destruct (inv_object _ _ _ _ _ I El0) as (u & Eu & Su & _). rewrite Eu.
    destruct (value s j) as [l|] eqn:El; [|rewrite (inv_no_object _ _ _ _ I El); eauto]. destruct (inv_object _ _ _ _ _ I El) as (v & Ev & Es & _). rewrite Ev.
    destruct (resize_inv s w n i (vsize v) u l0 I Eu El0) as (w2 & E2 & I2 & O2). rewrite E2. cbn [obind]. rewrite Es in *.
    set (l1 := if length l =? length l0 then l0 else repeat None (length l)) in *. assert (L1 : length l1 = length l) by (unfold l1; destruct (Nat.eqb_spec (length l) (length l0)); [congruence|apply repeat_length]).
    pose proof (value_upd s i (Some l1) (value_lt _ _ _ El0)) as V2. destruct (inv_object _ _ _ _ _ I2 V2) as (u1 & Eu1 & Su1 & _). rewrite Eu1, Su1, L1.
    assert (Vv : value (upd s i (Some l1)) j = Some l).
    { unfold value. destruct (Nat.eq_dec i j) as [<-|N]; [|rewrite nth_upd_other by exact N; exact El]. rewrite nth_upd_same by (now apply (value_lt s i l)). rewrite El0 in El. injection El as <-. unfold l1. now rewrite Nat.eqb_refl. }
    destruct (inv_object _ _ _ _ _ I2 Vv) as (v2 & Ev2 & _). rewrite Ev2. destruct l as [|y l].
    + cbn [length Nat.eqb]. exists w2. split; [reflexivity|]. assert (l1 = []) as E0 by (now destruct l1). now rewrite E0 in I2.
    + cbn [length Nat.eqb]. change (S (length l)) with (length (y :: l)). rewrite (read_inv _ _ _ _ _ _ I2 Ev2 Vv) by discriminate. cbn [obind].
      destruct (write_inv _ _ _ _ _ _ (y :: l) I2 Eu1 V2) as (w3 & E3 & I3); [intros E0; rewrite E0 in L1; discriminate L1|congruence|]. exists w3. split; [exact E3|]. now rewrite !upd_twice in I3.
  - destruct (value s i) as [l0|] eqn:El0; [|rewrite (inv_no_object _ _ _ _ I El0); rewrite Nat.add_0_r; eauto]. destruct (inv_object _ _ _ _ _ I El0) as (u & Eu & Su & _). rewrite Eu.
    destruct (value s j) as [l|] eqn:El; [|rewrite (inv_no_object _ _ _ _ I El); exists w; split; [reflexivity|]; destruct l0; now rewrite Nat.add_0_r]. destruct (inv_object _ _ _ _ _ I El) as (v & Ev & Es & Ed). rewrite Ev.
    assert (Hi := value_lt _ _ _ El0). assert (Hj := value_lt _ _ _ El).
    eexists. split; [reflexivity|]. constructor; cbn [heap objects calls set_object].
    + rewrite !upd_length. apply (i_len _ _ _ I).
    + intros a. unfold object, value. cbn [objects set_object]. pose proof (i_holds _ _ _ I a) as H. destruct (Nat.eq_dec j a) as [<-|Na]; [rewrite !nth_upd_same by (rewrite upd_length, ?(i_len _ _ _ I); lia); split; reflexivity|].
      rewrite !(nth_upd_other _ j a) by exact Na. destruct (Nat.eq_dec i a) as [<-|Nb]; [rewrite !nth_upd_same by (rewrite ?(i_len _ _ _ I); lia); exact (conj Es Ed)|]. rewrite !nth_upd_other by exact Nb. exact H.
    + assert (O : forall a va, nth a (upd (upd (objects w) i (Some v)) j (Some (Vec 0 None))) None = Some va -> forall k, vdata va = Some k -> (a <> j /\ a = i /\ va = v) \/ (a <> i /\ a <> j /\ object w a = Some va)).
      { intros a va Ea k Ka. destruct (Nat.eq_dec j a) as [<-|Na]; [rewrite nth_upd_same in Ea by (rewrite upd_length, (i_len _ _ _ I); lia); injection Ea as <-; discriminate Ka|]. rewrite nth_upd_other in Ea by exact Na.
        destruct (Nat.eq_dec i a) as [<-|Nb]; [rewrite nth_upd_same in Ea by (rewrite (i_len _ _ _ I); lia); injection Ea as <-; auto|]. rewrite nth_upd_other in Ea by exact Nb. right. auto. }
      intros a b va vb k Nab Ea Eb Ka Kb. unfold object in Ea, Eb. cbn [objects set_object] in Ea, Eb. destruct (O a va Ea k Ka) as [(Nj & -> & ->)|(Na1 & Na2 & Oa)], (O b vb Eb k Kb) as [(Nj' & -> & ->)|(Nb1 & Nb2 & Ob)].
      * easy.
      * exact (i_own _ _ _ I j b v vb k ltac:(congruence) Ev Ob Ka Kb).
      * exact (i_own _ _ _ I a j va v k ltac:(congruence) Oa Ev Ka Kb).
      * exact (i_own _ _ _ I a b va vb k Nab Oa Ob Ka Kb).
    + apply (i_calls _ _ _ I).
    + rewrite (i_count _ _ _ I). assert (Ej : value (upd s i (Some l)) j = Some l) by (unfold value; destruct (Nat.eq_dec i j) as [<-|N]; [now rewrite nth_upd_same|now rewrite nth_upd_other]).
      pose proof (with_elements_upd _ j (Some []) _ Ej) as W. pose proof (with_elements_upd s i (Some l) _ El0) as W0. destruct l0, l; cbn in W, W0 |- *; lia.
  - destruct (value s i) as [l|] eqn:El; [|rewrite (inv_no_object _ _ _ _ I El); eauto]. destruct (inv_object _ _ _ _ _ I El) as (v & Ev & _). rewrite Ev. destruct (resize_inv s w n i k v l I Ev El) as (w' & E & I' & _). exists w'. split; [exact E|].
    destruct (k =? length l); [|exact I']. now rewrite (upd_self s i (Some l) None El) in I'.
  - destruct (value s i) as [l|] eqn:El; [|rewrite (inv_no_object _ _ _ _ I El); eauto]. destruct (inv_object _ _ _ _ _ I El) as (v & Ev & _). rewrite Ev. now apply (clear_inv s w n i v l).
  - destruct (value s i) as [l|] eqn:El; [|rewrite (inv_no_object _ _ _ _ I El); eauto]. destruct (inv_object _ _ _ _ _ I El) as (v & Ev & Es & _). rewrite Ev, Es. destruct (Nat.ltb_spec k (length l)) as [Hk|Hk]; [|eauto].
    assert (Nl : l <> []) by (intros ->; cbn in Hk; lia). rewrite (read_inv _ _ _ _ _ _ I Ev El Nl). cbn [obind]. apply (write_inv s w n i v l); try assumption. apply upd_length.
  - destruct (value s i) as [l|] eqn:El; [|rewrite (inv_no_object _ _ _ _ I El); eauto]. destruct (inv_object _ _ _ _ _ I El) as (v & Ev & _). rewrite Ev. destruct (clear_inv s w n i v l I Ev El) as (w1 & E1 & I1). rewrite E1. cbn [obind].
    eexists. split; [reflexivity|]. assert (Hi := value_lt _ _ _ El). assert (V1 := value_upd s i (Some []) Hi). rewrite <- (upd_twice s i (Some [])). unfold set_object. apply (inv_put _ w1 n i); try assumption.
    + now rewrite upd_length.
    + exact Logic.I.
    + auto.
    + discriminate.
    + apply (i_calls _ _ _ I1).
    + pose proof (with_elements_upd _ i None _ V1) as W. pose proof (i_count _ _ _ I1) as C. cbn in W. lia.
Qed.

Lemma run_inv os : forall s w n, inv s w n -> exists w', run os w = Ok w' /\ inv (vrun os s) w' (n + lost os s).
Proof.
  induction os as [|o os IH]; intros s w n I; cbn [run lost]; [exists w; rewrite Nat.add_0_r; auto|]. destruct (step_inv o s w n I) as (w1 & E1 & I1). rewrite E1. cbn [obind].
  destruct (IH _ _ _ I1) as (w2 & E2 & I2). exists w2. split; [exact E2|]. now rewrite <- Nat.add_assoc in I2.
Qed.
Lemma start_inv n : inv (repeat None n) (start n) 0.
Proof.
  constructor; cbn.
  - now rewrite !repeat_length.
  - intros i. unfold object, value. cbn [objects]. rewrite !nth_repeat. exact Logic.I.
  - intros i j vi vj k _ E. unfold object in E. cbn [objects] in E. rewrite nth_repeat in E. discriminate E.
  - reflexivity.
  - unfold with_elements. induction n as [|n IH]; [reflexivity|exact IH].
Qed.
End Inv.
