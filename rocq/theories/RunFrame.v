(** What a forward pass and a backward pass can write, whatever the operators; and that a forward pass computes the same in the learning
    phase and in the prediction phase. *)
From Coq Require Import List Arith Lia Bool PeanoNat.
From Verif Require Import ListBase TensorModel ArrayModel GraphModel GraphSpec GraphProofs.
Import ListNotations.

Lemma nth_error_upd_ne {B} (l : list B) a r d : r <> a -> nth_error (upd l a d) r = nth_error l r.
Proof. intros N. revert a r N. induction l as [|x l IH]; intros [|a] [|r] N; cbn; try reflexivity; try congruence. apply IH. congruence. Qed.

Lemma nth_error_upd_eq {B} (l l0 : list B) a d r : length l = length l0 -> (r <> a -> nth_error l r = nth_error l0 r) -> nth_error (upd l a d) r = nth_error (upd l0 a d) r.
Proof.
  intros L H. destruct (Nat.eq_dec r a) as [->|N]; [|rewrite !nth_error_upd_ne by exact N; auto].
  clear H. revert l0 a L. induction l as [|x l IH]; intros [|y l0] a L; try discriminate; [reflexivity|]. destruct a; [reflexivity|]. cbn. apply IH. now injection L.
Qed.

Section Frame.
Context {A : Type} (zero one : A) (add mul : A -> A -> A) (opp : A -> A) (leb : A -> A -> bool) (eps : A) (dbg : bool).
Notation forward := (forward zero one add mul dbg).
Notation backward := (backward zero one add mul opp leb eps dbg).
Notation run := (run zero one add mul dbg).

(** ** Two heaps that differ in the storages X only *)
Variable (X : nat -> Prop).

Definition sim (h h0 : list (list A)) : Prop := length h0 = length h /\ (forall r, ~ X r -> nth_error h0 r = nth_error h r) /\ (forall r, X r -> r < length h).
Definition stable (h h' : list (list A)) : Prop := length h <= length h' /\ forall r, X r -> nth_error h' r = nth_error h r.

Definition tame {T} (P : T -> Prop) (m : M (A:=A) T) : Prop :=
  forall h h0 v h', sim h h0 -> m h = Ok (v, h') -> exists h0', m h0 = Ok (v, h0') /\ sim h' h0' /\ stable h h' /\ stable h0 h0' /\ P v.

Lemma stable_refl h : stable h h. Proof. now split. Qed.
Lemma stable_trans h1 h2 h3 : stable h1 h2 -> stable h2 h3 -> stable h1 h3.
Proof. intros [L1 S1] [L2 S2]. split; [lia|]. intros r Hr. now rewrite S2, S1. Qed.

Lemma tame_ret {T} (P : T -> Prop) v : P v -> tame P (ret v).
Proof. intros H h h0 v' h' S [= <- <-]. exists h0. repeat split; auto using stable_refl; try apply S; try apply stable_refl. Qed.
Lemma tame_ub {T} (P : T -> Prop) : tame P (fail_ub (A:=A)).
Proof. intros h h0 v h' S H. discriminate. Qed.
Lemma tame_bind {S T} (Q : S -> Prop) (P : T -> Prop) (m : M (A:=A) S) f : tame Q m -> (forall v, Q v -> tame P (f v)) -> tame P (bind m f).
Proof.
  intros Hm Hf h h0 v h' Si H. unfold bind in *. destruct (m h) as [[a h1]| |] eqn:E; try discriminate.
  destruct (Hm _ _ _ _ Si E) as (h01 & E0 & S1 & St & St0 & Qa). rewrite E0. destruct (Hf a Qa _ _ _ _ S1 H) as (h02 & E1 & S2 & St' & St0' & Pv).
  exists h02. split; [exact E1|]. split; [exact S2|]. split; [eapply stable_trans; eassumption|]. split; [eapply stable_trans; eassumption|exact Pv].
Qed.
Lemma tame_weaken {T} (P Q : T -> Prop) m : (forall v, P v -> Q v) -> tame P m -> tame Q m.
Proof. intros W H h h0 v h' S E. destruct (H _ _ _ _ S E) as (h0' & ? & ? & ? & ? & ?). exists h0'. split; [assumption|]. split; [assumption|]. split; [assumption|]. split; [assumption|auto]. Qed.
Lemma tame_assert b : tame (fun _ => True) (better_assert (A:=A) dbg b).
Proof.
  intros h h0 v h' S H. unfold better_assert in *. destruct b; [|destruct dbg; [discriminate|]]; injection H as <- <-; exists h0; (split; [reflexivity|]); repeat split; auto using stable_refl; try apply S; try apply stable_refl.
Qed.
Lemma tame_lift {T} (o : outcome T) : tame (fun _ => True) (lift (A:=A) o).
Proof.
  intros h h0 v h' S H. unfold lift in *. destruct o; [|discriminate|discriminate]. injection H as <- <-. exists h0. split; [reflexivity|]. repeat split; auto using stable_refl; try apply S; try apply stable_refl.
Qed.
Lemma tame_data t : ~ X (ref t) -> tame (fun _ => True) (data (A:=A) t).
Proof.
  intros N h h0 v h' S H. unfold data in *. destruct (nth_error h (ref t)) as [d|] eqn:E; [|discriminate]. injection H as <- <-.
  destruct S as (L & Q & B). rewrite Q, E by exact N. exists h0. split; [reflexivity|]. repeat split; auto using stable_refl; try apply stable_refl.
Qed.
Lemma tame_store t d : ~ X (ref t) -> tame (fun _ => True) (store (A:=A) t d).
Proof.
  intros N h h0 v h' (L & Q & B) H. unfold store in *. injection H as <- <-. exists (upd h0 (ref t) d). split; [reflexivity|].
  repeat split; rewrite ?upd_length; auto.
  - intros r Hr. apply nth_error_upd_eq; auto.
  - intros r Hr. apply nth_error_upd_ne. congruence.
  - intros r Hr. apply nth_error_upd_ne. congruence.
Qed.
Lemma tame_alloc s d : tame (fun t => ~ X (ref t)) (alloc (A:=A) s d).
Proof.
  intros h h0 v h' (L & Q & B) H. unfold alloc in *. injection H as <- <-. exists (h0 ++ [d]). rewrite L. split; [reflexivity|]. repeat split; rewrite ?app_length; cbn [length]; auto; try lia.
  - intros r Hr. destruct (Nat.lt_ge_cases r (length h)) as [C|C].
    + rewrite !nth_error_app1 by lia. auto.
    + rewrite !nth_error_app2 by lia. now rewrite L.
  - intros r Hr. specialize (B r Hr). lia.
  - intros r Hr. apply nth_error_app1. auto.
  - intros r Hr. apply nth_error_app1. rewrite L. auto.
  - cbn [ref]. intros C. specialize (B _ C). lia.
Qed.

Notation clear t := (~ X (ref t)).
Lemma tame_resize t s : clear t -> tame (fun t => clear t) (resize zero t s).
Proof.
  intros N. unfold resize. eapply tame_bind; [now apply tame_data|]. intros d _. destruct (length d =? prod s); [now apply tame_ret|].
  eapply tame_bind; [now apply tame_store|]. intros _ _. now apply tame_ret.
Qed.
Lemma tame_reshape t s : clear t -> tame (fun t => clear t) (reshape zero t s).
Proof.
  intros N. unfold reshape, reshape_req. eapply tame_bind; [now apply tame_data|]. intros d _. destruct (map Some s); [apply tame_ub|].
  destruct (all_known _); [|apply tame_ub]. destruct (last _ None); [now apply tame_resize|]. destruct (prod l0 =? 0); [apply tame_ub|now apply tame_resize].
Qed.
Lemma tame_copy_front (a b : list A) : tame (fun _ => True) (copy_front a b).
Proof. unfold copy_front. destruct (length a <=? length b); [now apply tame_ret|apply tame_ub]. Qed.
Lemma tame_broadcast fuel : forall t s, clear t -> tame (fun t => clear t) (broadcast_loop zero dbg fuel t s).
Proof.
  induction fuel as [|fuel IH]; intros t s N; cbn [broadcast_loop]; [apply tame_ub|]. destruct (list_eqb (shape t) s); [now apply tame_ret|].
  cbv zeta. eapply tame_bind.
  - instantiate (1 := fun t => clear t). destruct (length (shape t) <? length s); [now apply tame_reshape|now apply tame_ret].
  - intros t' N'. cbv beta in N'. destruct (list_eqb _ s); [now apply tame_ret|]. destruct (length s <? _); [apply tame_ub|].
    destruct (last_diff _ s); [|apply tame_ub]. eapply tame_bind; [apply tame_assert|]. intros _ _. eapply tame_bind; [now apply tame_data|]. intros src _.
    destruct (_ && _)%bool; [|apply tame_ub]. eapply tame_bind; [apply tame_copy_front|]. intros d' _. eapply tame_bind; [apply tame_alloc|]. intros a Na.
    eapply tame_bind; [apply tame_reshape; exact Na|]. intros a' Na'. now apply IH.
Qed.
Lemma tame_zip f l r : clear l -> clear r -> tame (fun t => clear t) (zip_broadcast zero dbg f l r).
Proof.
  intros Nl Nr. unfold zip_broadcast. eapply tame_bind; [apply tame_lift|]. intros s _. eapply tame_bind; [now apply tame_broadcast|]. intros a Na.
  eapply tame_bind; [now apply tame_broadcast|]. intros b Nb. cbv beta in Na, Nb. eapply tame_bind; [now apply tame_data|]. intros x _. eapply tame_bind; [now apply tame_data|]. intros y _.
  destruct (length x <=? length y); [|apply tame_ub]. eapply tame_bind; [now apply tame_store|]. intros _ _. now apply tame_ret.
Qed.

(** ** Two states: the learning phase and the prediction phase *)
Variables (vs : nat -> vstate) (hs : nat -> option tensor) (ob : nat -> bool -> option tensor).

Definition flags (s s0 : st A) : Prop := forall k, trainable (vobjs s0 k) = trainable (vobjs s k) /\ l1 (vobjs s0 k) = l1 (vobjs s k) /\ l2 (vobjs s0 k) = l2 (vobjs s k).

Record like (s s0 : st A) : Prop := {
  k_heap : sim (hp s) (hp s0);
  k_cache : cache s0 = cache s;
  k_objs : objs s0 = objs s;
  k_own : own s0 = own s;
  k_ran : ran s0 = ran s;
  k_flags : flags s s0;
  k_vars : vars s = vs /\ vars s0 = vs;
  k_hold : holders s = hs /\ holders s0 = hs;
  k_ownb : ownb s = ob /\ ownb s0 = ob;
  k_train : training s = true;
  k_test : training s0 = false;
  k_avoid_c : forall n t, cache s n = Some t -> clear t;
  k_avoid_o : forall n t, own s n = Some t -> clear t /\ ref t < length (hp s)
}.

(** from one state to a later one of the same run; a storage of X keeps its elements in the prediction phase, in the learning phase its length *)
Record later (b : bool) (s s' : st A) : Prop := {
  la_len : length (hp s) <= length (hp s');
  la_flags : flags s s';
  la_X : forall r, X r -> if b then length (nth r (hp s') []) = length (nth r (hp s) []) else nth_error (hp s') r = nth_error (hp s) r
}.

Lemma later_refl b s : later b s s.
Proof. constructor; auto; try (intros k; auto); destruct b; auto. Qed.
Lemma later_trans b s1 s2 s3 : later b s1 s2 -> later b s2 s3 -> later b s1 s3.
Proof.
  intros [L1 F1 X1] [L2 F2 X2]. constructor; [lia| |].
  - intros k. destruct (F1 k) as (-> & -> & ->) || idtac. destruct (F2 k) as (a & b' & c). destruct (F1 k) as (a' & b'' & c'). repeat split; congruence.
  - intros r Hr. specialize (X1 r Hr). specialize (X2 r Hr). destruct b; congruence.
Qed.

Definition calm {T} (P : T -> Prop) (m : G (A:=A) T) : Prop :=
  forall s s0 v s', like s s0 -> m s = Ok (v, s') -> exists s0', m s0 = Ok (v, s0') /\ like s' s0' /\ later true s s' /\ later false s0 s0' /\ P v.

Lemma calm_ret {T} (P : T -> Prop) v : P v -> calm P (gret v).
Proof. intros H s s0 v' s' L [= <- <-]. exists s0. split; [reflexivity|]. split; [exact L|]. split; [apply later_refl|]. split; [apply later_refl|exact H]. Qed.
Lemma calm_ub {T} (P : T -> Prop) : calm P (fun _ => UB).
Proof. intros s s0 v s' L H. discriminate. Qed.
Lemma calm_bind {S T} (Q : S -> Prop) (P : T -> Prop) (m : G (A:=A) S) f : calm Q m -> (forall v, Q v -> calm P (f v)) -> calm P (gbind m f).
Proof.
  intros Hm Hf s s0 v s' Li H. unfold gbind in *. destruct (m s) as [[a s1]| |] eqn:E; try discriminate.
  destruct (Hm _ _ _ _ Li E) as (s01 & E0 & L1 & La & La0 & Qa). rewrite E0. destruct (Hf a Qa _ _ _ _ L1 H) as (s02 & E1 & L2 & La' & La0' & Pv).
  exists s02. split; [exact E1|]. split; [exact L2|]. split; [eapply later_trans; eassumption|]. split; [eapply later_trans; eassumption|exact Pv].
Qed.
Lemma calm_the {T} (o : option T) : calm (fun _ => True) (the (A:=A) o).
Proof. destruct o; [now apply calm_ret|apply calm_ub]. Qed.
Lemma nth_error_len (l l' : list (list A)) r : nth_error l' r = nth_error l r -> length (nth r l' []) = length (nth r l []).
Proof.
  intros E. destruct (nth_error l r) as [d|] eqn:D.
  - now rewrite (nth_error_nth _ _ [] E), (nth_error_nth _ _ [] D).
  - apply nth_error_None in D, E. now rewrite !nth_overflow.
Qed.

Lemma calm_heaply {T} (P : T -> Prop) m : tame P m -> calm P (heaply (A:=A) m).
Proof.
  intros H s s0 v s' L E. unfold heaply in *. destruct (m (hp s)) as [[a h1]| |] eqn:Em; try discriminate. injection E as <- <-.
  destruct L as [Kh Kc Kb Ko Kr Kf Kv Kd Kw Kt Ke Ka Kz]. destruct (H _ _ _ _ Kh Em) as (h0' & E0 & S' & [Ls Sb] & [Ls0 Sb0] & Pa). rewrite E0. exists (set_hp s0 h0').
  split; [reflexivity|]. split; [constructor; auto; cbn [set_hp own hp]; intros n t Hn; destruct (Kz n t Hn); split; [assumption|lia]|].
  split; [|split; [|exact Pa]]; (constructor; cbn [set_hp hp]; [lia|intros k; auto|]); auto.
  intros r Hr. apply nth_error_len. auto.
Qed.

Lemma calm_obj f : (forall s, f s = set_objs s (objs (f s))) -> (forall s s0, objs s0 = objs s -> objs (f s0) = objs (f s)) -> calm (fun _ => True) (modify (A:=A) f).
Proof.
  intros F1 F2 s s0 v s' L E. unfold modify in *. injection E as <- <-. exists (f s0). split; [reflexivity|].
  destruct L as [Kh Kc Kb Ko Kr Kf Kv Kd Kw Kt Ke Ka Kz]. pose proof (F2 s s0 Kb) as Fo. rewrite (F1 s), (F1 s0) in *. clear F1 F2.
  split; [constructor; auto|]. split; [|split; [|exact I]]; (constructor; cbn [set_objs hp]; [lia|intros j; auto|auto]).
Qed.
Lemma calm_in1 k t : calm (fun _ => True) (put_in1 (A:=A) k t).
Proof. apply calm_obj; [reflexivity|]. intros s s0 E. cbn [set_objs objs]. now rewrite E. Qed.
Lemma calm_in2 k t : calm (fun _ => True) (put_in2 (A:=A) k t).
Proof. apply calm_obj; [reflexivity|]. intros s s0 E. cbn [set_objs objs]. now rewrite E. Qed.
Lemma calm_out k t : calm (fun _ => True) (put_out (A:=A) k t).
Proof. apply calm_obj; [reflexivity|]. intros s s0 E. cbn [set_objs objs]. now rewrite E. Qed.

Lemma calm_query n : calm (fun q => forall t, q = Some t -> clear t) (query (A:=A) n).
Proof.
  intros s s0 v s' L E. unfold query in *. injection E as <- <-. exists s0. pose proof L as [Kh Kc Kb Ko Kr Kf Kv Kd Kw Kt Ke Ka Kz].
  rewrite Kc. split; [|split; [exact L|]]; [|split; [apply later_refl|split; [apply later_refl|]]].
  - destruct (cache s n) as [t|] eqn:C; [|reflexivity]. destruct Kh as (_ & Q & _). specialize (Q _ (Ka n t C)).
    pose proof (nth_error_len (hp s) (hp s0) (ref t) Q) as Ln. destruct (nth (ref t) (hp s) []), (nth (ref t) (hp s0) []); try discriminate; reflexivity.
  - intros t. destruct (cache s n) as [t'|] eqn:C; [|discriminate]. destruct (nth (ref t') (hp s) []); [discriminate|]. intros [= <-]. exact (Ka n _ C).
Qed.
Lemma calm_update n t : clear t -> calm (fun _ => True) (update (A:=A) n t).
Proof.
  intros N s s0 v s' L E. unfold update, modify in *. injection E as <- <-. eexists. split; [reflexivity|]. destruct L as [Kh Kc Kb Ko Kr Kf Kv Kd Kw Kt Ke Ka Kz].
  split; [constructor; auto; cbn [set_cache cache]|split; [|split; [|exact I]]; (constructor; cbn [set_cache hp]; [lia|intros j; auto|auto])].
  - now rewrite Kc.
  - intros m u. unfold fupd. destruct (m =? n); [intros [= <-]; exact N|apply Ka].
Qed.
Lemma calm_ran n : calm (fun _ => True) (modify (A:=A) (fun s => set_ran s (n :: ran s))).
Proof.
  intros s s0 v s' L E. unfold modify in *. injection E as <- <-. eexists. split; [reflexivity|]. destruct L as [Kh Kc Kb Ko Kr Kf Kv Kd Kw Kt Ke Ka Kz].
  split; [constructor; auto; cbn [set_ran ran]; now rewrite Kr|split; [|split; [|exact I]]; (constructor; cbn [set_ran hp]; [lia|intros j; auto|auto])].
Qed.
Lemma calm_new v : calm (fun t => clear t) (new_tensor (A:=A) v).
Proof. apply calm_heaply, tame_alloc. Qed.

Lemma calm_own n v : calm (fun t => clear t) (into_own (A:=A) n v).
Proof.
  intros s s0 t s' L E. unfold into_own in *. destruct L as [Kh Kc Kb Ko Kr Kf Kv Kd Kw Kt Ke Ka Kz]. rewrite Ko. destruct (own s n) as [u|] eqn:O.
  - injection E as <- <-. destruct (Kz n u O) as [N Lu]. destruct (tame_store u (snd v) N (hp s) (hp s0) tt _ Kh eq_refl) as (h0' & E0 & S' & [L1 S1] & [L2 S2] & _).
    unfold store in E0. injection E0 as <-. eexists. split; [reflexivity|]. cbn [ref].
    split; [constructor; auto; cbn [set_own set_hp own hp]|split; [|split; [|exact N]]; (constructor; cbn [set_own set_hp hp]; [lia|intros j; auto|auto])].
    + intros m t. unfold fupd. destruct (m =? n); [intros [= <-]; cbn [ref]; split; [exact N|lia]|]. intros Hm. destruct (Kz m t Hm). split; [assumption|lia].
    + intros r Hr. apply nth_error_len. auto.
  - injection E as <- <-. destruct (tame_alloc (fst v) (snd v) (hp s) (hp s0) _ _ Kh eq_refl) as (h0' & E0 & S' & [L1 S1] & [L2 S2] & N).
    unfold alloc in E0. injection E0 as E0 <-. cbn [ref] in N. eexists. split; [rewrite E0; reflexivity|].
    split; [constructor; auto; cbn [set_own set_hp own hp]|split; [|split; [|exact N]]; (constructor; cbn [set_own set_hp hp]; [lia|intros j; auto|auto])].
    + intros m t. unfold fupd. destruct (m =? n); [intros [= <-]; cbn [ref]; split; [exact N|rewrite app_length; cbn [length]; lia]|]. intros Hm. destruct (Kz m t Hm). split; [assumption|lia].
    + intros r Hr. apply nth_error_len. auto.
Qed.

Lemma calm_read {T} (P : T -> Prop) t (f : val A -> G (A:=A) T) : clear t -> (forall x, calm P (f x)) -> calm P (gbind (get hp) (fun h => f (val_of h t))).
Proof.
  intros N H s s0 v s' L E. unfold gbind, get in *. destruct (H _ _ _ _ _ L E) as (s0' & E0 & Q). exists s0'. split; [|exact Q]. rewrite <- E0. f_equal.
  unfold val_of. f_equal. destruct L as [(Ln & Q' & _) _ _ _ _ _ _ _ _ _ _ _ _]. specialize (Q' _ N). destruct (nth_error (hp s) (ref t)) as [d|] eqn:D.
  - now rewrite (nth_error_nth _ _ [] Q'), (nth_error_nth _ _ [] D).
  - apply nth_error_None in D. rewrite !nth_overflow by lia. reflexivity.
Qed.
Lemma calm_read2 {T} (P : T -> Prop) t u (f : val A -> val A -> G (A:=A) T) : clear t -> clear u -> (forall x y, calm P (f x y)) -> calm P (gbind (get hp) (fun h => f (val_of h t) (val_of h u))).
Proof.
  intros N N' H s s0 v s' L E. unfold gbind, get in *. destruct (H _ _ _ _ _ _ L E) as (s0' & E0 & Q). exists s0'. split; [|exact Q]. rewrite <- E0.
  assert (V : forall t, clear t -> val_of (hp s0) t = val_of (hp s) t).
  { intros w Nw. unfold val_of. f_equal. destruct L as [(Ln & Q' & _) _ _ _ _ _ _ _ _ _ _ _ _]. specialize (Q' _ Nw). destruct (nth_error (hp s) (ref w)) as [d|] eqn:D.
    - now rewrite (nth_error_nth _ _ [] Q'), (nth_error_nth _ _ [] D).
    - apply nth_error_None in D. rewrite !nth_overflow by lia. reflexivity. }
  now rewrite !V.
Qed.

Lemma calm_un n o i : clear i -> calm (fun t => clear t) (un_forward n o i).
Proof.
  intros N. destruct o as [w f m b|f]; cbn [un_forward].
  - apply calm_read with (f := fun x => gbind (the (f x)) (fun v => if w then into_own n v else new_tensor v)); [exact N|]. intros x. eapply calm_bind; [apply calm_the|]. intros v _. destruct w; [apply calm_own|apply calm_new].
  - eapply calm_bind; [apply calm_the|]. intros v _. now apply calm_ret.
Qed.
Lemma calm_bin n o l r : clear l -> clear r -> calm (fun t => clear t) (bin_forward zero add dbg n o l r).
Proof.
  intros Nl Nr. destruct o as [|w f m b]; cbn [bin_forward].
  - apply calm_heaply. now apply tame_zip.
  - apply calm_read2 with (f := fun x y => gbind (the (f x y)) (fun v => if w then into_own n v else new_tensor v)); [exact Nl|exact Nr|]. intros x y. eapply calm_bind; [apply calm_the|]. intros v _. destruct w; [apply calm_own|apply calm_new].
Qed.
Lemma calm_value c t : calm (fun t => clear t) (value_forward one mul c t).
Proof. apply calm_new. Qed.

(** a variable: only the learning phase resets the gradient *)
Lemma calm_var k v : X (ref (vgrad (vs v))) -> clear (vdata (vs v)) -> calm (fun t => clear t) (var_forward zero k v).
Proof.
  intros Hx N s s0 t s' L E. pose proof L as [Kh Kc Kb Ko Kr Kf [Kv Kv0] Kd Kw Kt Ke Ka Kz]. unfold var_forward, gbind, get in *. rewrite Kt, Kv in E. rewrite Ke, Kv0.
  cbv beta iota in *. unfold heaply, reset, map_inplace, bind, data, store in E. destruct (nth_error (hp s) (ref (vgrad (vs v)))) as [d|] eqn:D; [|discriminate].
  unfold modify, gret in *. cbv beta iota in E. injection E as <- <-. exists s0. split; [reflexivity|]. split; [|split; [|split; [apply later_refl|exact N]]].
  - constructor; auto; cbn [set_vobjs set_hp hp vobjs own].
    + destruct Kh as (L1 & Q & B). split; [now rewrite upd_length|]. split; [|intros r Hr; rewrite upd_length; auto]. intros r Hr. rewrite nth_error_upd_ne; [auto|]. congruence.
    + intros j. cbn [set_vobjs set_hp vobjs]. unfold supd. destruct (slot_eqb_spec j k) as [->|_]; cbn [trainable l1 l2 vobjs set_hp]; exact (Kf _).
    + intros n t Hn. rewrite upd_length. now apply (Kz n).
  - constructor; cbn [set_vobjs set_hp hp vobjs].
    + now rewrite upd_length.
    + intros j. unfold supd. cbn [set_vobjs set_hp vobjs]. unfold supd. destruct (slot_eqb_spec j k) as [->|_]; auto.
    + intros r Hr. destruct (Nat.eq_dec r (ref (vgrad (vs v)))) as [->|Ne]; [|apply nth_error_len; now rewrite nth_error_upd_ne].
      assert (Rl : ref (vgrad (vs v)) < length (hp s)) by (apply nth_error_Some; rewrite D; discriminate).
      rewrite (nth_error_nth _ _ [] (nth_error_upd_same (hp s) _ (map (fun _ => zero) d) Rl)), map_length. now rewrite (nth_error_nth _ _ [] D).
Qed.

(** the leaves of an expression keep clear of X, and the gradients are X *)
Fixpoint aloof (e : expr A) : Prop :=
  match e with
  | EVar v => X (ref (vgrad (vs v))) /\ clear (vdata (vs v))
  | EHold p => match hs p with Some t => clear t | None => True end
  | EConst t => clear t
  | EVal _ => True
  | EUn _ _ e => aloof e
  | EBin _ _ l r => aloof l /\ aloof r
  end.

Lemma calm_hold p : (match hs p with Some t => clear t | None => True end) -> calm (fun t => clear t) (hold_forward dbg p).
Proof.
  intros N s s0 t s' L E. pose proof L as [Kh Kc Kb Ko Kr Kf Kv [Kd Kd0] Kw Kt Ke Ka Kz]. unfold hold_forward, gbind, get in *. rewrite Kd in E. rewrite Kd0. cbv beta iota in *.
  destruct (hs p) as [u|]; [now apply (calm_ret (fun t => clear t) u N s s0)|]. destruct dbg; [discriminate|]. now apply (calm_heaply (fun t => clear t) new_empty (tame_alloc [] []) s s0).
Qed.

Theorem calm_forward e : forall k, aloof e -> calm (fun t => clear t) (forward k e).
Proof.
  induction e as [v|p|t|c|n o e IH|n o l IHl r IHr]; intros k Al; cbn [GraphModel.forward aloof] in *.
  - now apply calm_var.
  - now apply calm_hold.
  - now apply calm_ret.
  - apply calm_ub.
  - eapply calm_bind; [apply calm_query|]. intros q Hq. eapply calm_bind; [apply calm_out|]. intros _ _. destruct q as [t|]; [now apply calm_ret, Hq|].
    eapply calm_bind; [now apply IH|]. intros i Ni. cbv beta in Ni. eapply calm_bind; [apply calm_in1|]. intros _ _. eapply calm_bind; [now apply calm_un|]. intros t Nt. cbv beta in Nt.
    eapply calm_bind; [apply calm_out|]. intros _ _. eapply calm_bind; [now apply calm_update|]. intros _ _. eapply calm_bind; [apply calm_ran|]. intros _ _. now apply calm_ret.
  - destruct Al as [Al Ar]. eapply calm_bind; [apply calm_query|]. intros q Hq. eapply calm_bind; [apply calm_out|]. intros _ _. destruct q as [t|]; [now apply calm_ret, Hq|].
    eapply calm_bind with (Q := fun lr => clear (fst lr) /\ clear (snd lr)).
    + assert (C1 : forall c, calm (fun lr => clear (fst lr) /\ clear (snd lr)) (gbind (forward (Some (n, true)) r) (fun rt => gbind (put_in2 k (Some rt)) (fun _ => gbind (value_forward one mul c rt) (fun lt => gbind (put_in1 k (Some lt)) (fun _ => gret (lt, rt))))))).
      { intros c. eapply calm_bind; [now apply IHr|]. intros rt Nr. cbv beta in Nr. eapply calm_bind; [apply calm_in2|]. intros _ _. eapply calm_bind; [apply calm_value|]. intros lt Nl. cbv beta in Nl.
        eapply calm_bind; [apply calm_in1|]. intros _ _. now apply calm_ret. }
      assert (C2 : forall c, calm (fun lr => clear (fst lr) /\ clear (snd lr)) (gbind (forward (Some (n, false)) l) (fun lt => gbind (put_in1 k (Some lt)) (fun _ => gbind (value_forward one mul c lt) (fun rt => gbind (put_in2 k (Some rt)) (fun _ => gret (lt, rt))))))).
      { intros c. eapply calm_bind; [now apply IHl|]. intros lt Nl. cbv beta in Nl. eapply calm_bind; [apply calm_in1|]. intros _ _. eapply calm_bind; [apply calm_value|]. intros rt Nr. cbv beta in Nr.
        eapply calm_bind; [apply calm_in2|]. intros _ _. now apply calm_ret. }
      assert (C3 : calm (fun lr => clear (fst lr) /\ clear (snd lr)) (gbind (forward (Some (n, false)) l) (fun lt => gbind (put_in1 k (Some lt)) (fun _ => gbind (forward (Some (n, true)) r) (fun rt => gbind (put_in2 k (Some rt)) (fun _ => gret (lt, rt))))))).
      { eapply calm_bind; [now apply IHl|]. intros lt Nl. cbv beta in Nl. eapply calm_bind; [apply calm_in1|]. intros _ _. eapply calm_bind; [now apply IHr|]. intros rt Nr. cbv beta in Nr.
        eapply calm_bind; [apply calm_in2|]. intros _ _. now apply calm_ret. }
      destruct l; try exact (C1 _); destruct r; try exact (C2 _); exact C3.
    + intros [lt rt] [Nl Nr]. cbn [fst snd] in *. eapply calm_bind; [now apply calm_bin|]. intros t Nt. cbv beta in Nt.
      eapply calm_bind; [apply calm_out|]. intros _ _. eapply calm_bind; [now apply calm_update|]. intros _ _. eapply calm_bind; [apply calm_ran|]. intros _ _. now apply calm_ret.
Qed.

(** ** A backward pass writes in the storages Y only *)
Variables (Y : nat -> Prop) (gref : nat -> nat) (base : nat).
Hypothesis (Yn : forall r, base <= r -> Y r).

Definition untouched (h h' : list (list A)) : Prop := length h <= length h' /\ forall r, ~ Y r -> nth_error h' r = nth_error h r.

Record wild (s : st A) : Prop := {
  w_len : base <= length (hp s);
  w_grad : forall v, ref (vgrad (vars s v)) = gref v;
  w_ownb : forall n b t, ownb s n b = Some t -> Y (ref t)
}.
Record kept (s s' : st A) : Prop := {
  kp_heap : untouched (hp s) (hp s');
  kp_own : own s' = own s;
  kp_hold : holders s' = holders s
}.
Lemma untouched_refl h : untouched h h. Proof. now split. Qed.
Lemma untouched_trans h1 h2 h3 : untouched h1 h2 -> untouched h2 h3 -> untouched h1 h3.
Proof. intros [L1 S1] [L2 S2]. split; [lia|]. intros r Hr. now rewrite S2, S1. Qed.
Lemma kept_refl s : kept s s. Proof. constructor; auto using untouched_refl. Qed.
Lemma kept_trans s1 s2 s3 : kept s1 s2 -> kept s2 s3 -> kept s1 s3.
Proof. intros [H1 O1 D1] [H2 O2 D2]. constructor; [eapply untouched_trans; eassumption|congruence|congruence]. Qed.

Definition writes {T} (P : T -> Prop) (m : G (A:=A) T) : Prop := forall s v s', wild s -> m s = Ok (v, s') -> wild s' /\ kept s s' /\ P v.

Lemma writes_ret {T} (P : T -> Prop) v : P v -> writes P (gret v).
Proof. intros H s v' s' Wi [= <- <-]. auto using kept_refl. Qed.
Lemma writes_ub {T} (P : T -> Prop) : writes P (fun _ => UB).
Proof. intros s v s' Wi H. discriminate. Qed.
Lemma writes_bind {S T} (Q : S -> Prop) (P : T -> Prop) (m : G (A:=A) S) f : writes Q m -> (forall v, Q v -> writes P (f v)) -> writes P (gbind m f).
Proof.
  intros Hm Hf s v s' Wi H. unfold gbind in *. destruct (m s) as [[a s1]| |] eqn:E; try discriminate.
  destruct (Hm _ _ _ Wi E) as (W1 & K1 & Qa). destruct (Hf a Qa _ _ _ W1 H) as (W2 & K2 & Pv). split; [exact W2|]. split; [eapply kept_trans; eassumption|exact Pv].
Qed.
Lemma writes_get {T S} (P : S -> Prop) (g : st A -> T) (f : T -> G (A:=A) S) : (forall x, writes P (f x)) -> writes P (gbind (get g) f).
Proof. intros H s v s' Wi E. unfold gbind, get in E. exact (H _ s v s' Wi E). Qed.
Lemma writes_the {T} (o : option T) : writes (fun _ => True) (the (A:=A) o).
Proof. destruct o; [now apply writes_ret|apply writes_ub]. Qed.
Lemma writes_heaply {T} (P : T -> Prop) m : (forall h v h', base <= length h -> m h = Ok (v, h') -> untouched h h' /\ P v) -> writes P (heaply (A:=A) m).
Proof.
  intros H s v s' [Wl Wg Wo] E. unfold heaply in E. destruct (m (hp s)) as [[a h1]| |] eqn:Em; try discriminate. injection E as <- <-. destruct (H _ _ _ Wl Em) as [[U1 U2] Pa].
  split; [constructor; auto; cbn [set_hp hp]; lia|]. split; [constructor; auto; now split|exact Pa].
Qed.
Lemma writes_new v : writes (fun t => Y (ref t)) (new_tensor (A:=A) v).
Proof.
  apply writes_heaply. intros h t h' Lb E. unfold alloc in E. injection E as <- <-. cbn [ref]. split; [|auto]. split; [rewrite app_length; lia|]. intros r Hr. apply nth_error_app1.
  destruct (Nat.lt_ge_cases r (length h)); [assumption|]. destruct Hr. apply Yn. lia.
Qed.
Lemma untouched_upd h a d : Y a -> untouched h (upd h a d).
Proof. intros Ha. split; [rewrite upd_length; lia|]. intros r Hr. apply nth_error_upd_ne. congruence. Qed.
Lemma writes_ownb n b v : writes (fun t => Y (ref t)) (into_ownb (A:=A) n b v).
Proof.
  intros s t s' [Wl Wg Wo] E. unfold into_ownb in E. destruct (ownb s n b) as [u|] eqn:O; injection E as <- <-; cbn [ref].
  - pose proof (Wo _ _ _ O) as Yu. split; [|split; [constructor; cbn [set_ownb set_hp hp own holders]; auto using untouched_upd|exact Yu]].
    constructor; cbn [set_ownb set_hp hp vars ownb]; [now rewrite upd_length|exact Wg|]. intros n' b' t. unfold fupd. destruct (n' =? n); [|apply Wo].
    destruct (Bool.eqb b' b); [intros [= <-]; exact Yu|apply Wo].
  - assert (Yh : Y (length (hp s))) by auto. split; [|split; [|exact Yh]].
    + constructor; cbn [set_ownb set_hp hp vars ownb]; [rewrite app_length; lia|exact Wg|]. intros n' b' t. unfold fupd. destruct (n' =? n); [|apply Wo].
      destruct (Bool.eqb b' b); [intros [= <-]; exact Yh|apply Wo].
    + constructor; cbn [set_ownb set_hp hp own holders]; auto. split; [rewrite app_length; lia|]. intros r Hr. apply nth_error_app1. destruct (Nat.lt_ge_cases r (length (hp s))); [assumption|]. destruct Hr. apply Yn. lia.
Qed.

Lemma writes_un n o i y g : Y (ref g) -> writes (fun t => Y (ref t)) (un_backward n o i y g).
Proof.
  intros Hg. unfold un_backward. apply writes_get. intros h. destruct o as [w f m b|f]; [|now apply writes_ret]. eapply writes_bind; [apply writes_the|]. intros v _.
  destruct m; [apply writes_new|apply writes_ownb|]. eapply writes_bind with (Q := fun _ => True); [|intros _ _; now apply writes_ret].
  apply writes_heaply. intros h1 u h2 _ E. unfold store in E. injection E as <- <-. split; [now apply untouched_upd|exact I].
Qed.
Lemma writes_bin n o i j y g : Y (ref g) -> writes (fun p => Y (ref (fst p)) /\ Y (ref (snd p))) (bin_backward zero add dbg n o i j y g).
Proof.
  intros Hg. unfold bin_backward. apply writes_get. intros h. destruct o as [|w f m b].
  - eapply writes_bind; [apply writes_the|]. intros gl _. eapply writes_bind; [apply writes_new|]. intros tl Hl. cbv beta in Hl. eapply writes_bind; [apply writes_the|]. intros gr _.
    eapply writes_bind; [apply writes_new|]. intros tr Hr. cbv beta in Hr. now apply writes_ret.
  - eapply writes_bind; [apply writes_the|]. intros p _. destruct m.
    + eapply writes_bind; [apply writes_ownb|]. intros tl Hl. cbv beta in Hl. eapply writes_bind; [apply writes_ownb|]. intros tr Hr. cbv beta in Hr. now apply writes_ret.
    + eapply writes_bind; [apply writes_new|]. intros tl Hl. cbv beta in Hl. eapply writes_bind; [apply writes_new|]. intros tr Hr. cbv beta in Hr. now apply writes_ret.
Qed.

Lemma resize_writes t sh h v h' : Y (ref t) -> resize zero t sh h = Ok (v, h') -> untouched h h' /\ ref v = ref t.
Proof.
  intros Hy E. unfold resize, bind, data in E. destruct (nth_error h (ref t)) as [d|]; [|discriminate]. destruct (length d =? prod sh).
  - injection E as <- <-. split; [apply untouched_refl|reflexivity].
  - unfold store in E. injection E as <- <-. split; [now apply untouched_upd|reflexivity].
Qed.
Lemma zip_writes t g h v h' : Y (ref t) -> zip_inplace dbg add t g h = Ok (v, h') -> untouched h h'.
Proof.
  intros Hy E. unfold zip_inplace, bind, better_assert, data in E.
  match type of E with match ?x with _ => _ end = _ => assert (Ex : forall a h1, x = Ok (a, h1) -> h1 = h) by (intros a h1; destruct (list_eqb _ _); [|destruct dbg]; congruence); destruct x as [[a h1]| |]; try discriminate end.
  rewrite (Ex a h1 eq_refl) in E. destruct (nth_error h (ref t)); [|discriminate]. destruct (nth_error h (ref g)); [|discriminate]. destruct (_ <=? _); [|discriminate].
  unfold store in E. injection E as _ <-. now apply untouched_upd.
Qed.

Lemma writes_var k v g : Y (gref v) -> writes (fun _ => True) (var_backward zero one add mul opp leb eps dbg k v g).
Proof.
  intros Hy. unfold var_backward. apply writes_get. intros o. destruct (trainable o); cbn [negb]; [|now apply writes_ret].
  intros s u s' Wi E. unfold gbind at 1, get at 1 in E. pose proof (w_grad _ Wi v) as Gv. revert E.
  set (q := vars s v) in *. clearbody q. revert s u s' Wi.
  assert (G : writes (fun _ : unit => True) (gbind (if list_eqb (shape (vgrad q)) (shape (vdata q)) then gret (vgrad q) else heaply (resize zero (vgrad q) (shape (vdata q))))
    (fun gt => gbind (modify (fun s => set_vars s (fupd (vars s) v (VState (vdata q) gt)))) (fun _ => gbind (heaply (zip_inplace dbg add gt g)) (fun _ =>
      if synced o then gret tt else gbind (get hp) (fun h => gbind (heaply (store gt (map2 (fun d x => l2_term one add mul leb eps o d (l1_term zero add opp leb eps o d x)) (nth (ref (vdata q)) h []) (nth (ref gt) h []))))
        (fun _ => modify (fun s => set_vobjs s (supd (vobjs s) k (VObj true true (l1 o) (l2 o))))))))))).
  { eapply writes_bind with (Q := fun t => ref t = gref v).
    - destruct (list_eqb _ _); [now apply writes_ret|]. apply writes_heaply. intros h t h' _ E. destruct (resize_writes _ _ _ _ _ (eq_ind_r Y Hy Gv) E) as [U R]. split; [exact U|congruence].
    - intros gt Hgt. cbv beta in Hgt. eapply writes_bind with (Q := fun _ => True).
      + intros s u s' [Wl Wg Wo] E. unfold modify in E. injection E as <- <-. split; [|split; [constructor; auto using untouched_refl|exact I]].
        constructor; auto. cbn [set_vars vars]. intros v'. unfold fupd. destruct (Nat.eqb_spec v' v) as [->|_]; [exact Hgt|apply Wg].
      + intros _ _. eapply writes_bind with (Q := fun _ => True).
        * apply writes_heaply. intros h u h' _ E. split; [|exact I]. eapply zip_writes; [|exact E]. now rewrite Hgt.
        * intros _ _. destruct (synced o); [now apply writes_ret|]. apply writes_get. intros h. eapply writes_bind with (Q := fun _ => True).
          -- apply writes_heaply. intros h1 u h2 _ E. unfold store in E. injection E as <- <-. split; [apply untouched_upd; now rewrite Hgt|exact I].
          -- intros _ _ s u s' [Wl Wg Wo] E. unfold modify in E. injection E as <- <-. split; [constructor; auto|]. split; [constructor; auto using untouched_refl|exact I]. }
  intros s u s' Wi E. exact (G s u s' Wi E).
Qed.

Fixpoint known (e : expr A) : Prop :=
  match e with EVar v => Y (gref v) | EUn _ _ e => known e | EBin _ _ l r => known l /\ known r | _ => True end.

Theorem writes_backward e : forall k g, known e -> Y (ref g) -> writes (fun _ => True) (backward k e g).
Proof.
  induction e as [v|p|t|c|n o e IH|n o l IHl r IHr]; intros k g Kn Hg; cbn [GraphModel.backward known] in *; try now apply writes_ret.
  - now apply writes_var.
  - apply writes_get. intros b. eapply writes_bind; [now apply writes_un|]. intros g1 H1. now apply IH.
  - destruct Kn as [Kl Kr]. apply writes_get. intros b. eapply writes_bind; [now apply writes_bin|]. intros gs [H1 H2]. eapply writes_bind; [now apply IHl|]. intros _ _. now apply IHr.
Qed.
End Frame.
