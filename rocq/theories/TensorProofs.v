From Coq Require Import List Arith Lia Bool PeanoNat.
From Verif Require Import ListBase TensorModel TensorSpec.
Import ListNotations.

Lemma list_eqb_spec a b : reflect (a = b) (list_eqb a b).
Proof.
  revert b. induction a as [|x a IH]; intros [|y b]; cbn [list_eqb]; try (constructor; congruence).
  destruct (Nat.eqb_spec x y) as [->|N]; cbn [andb]; [|constructor; congruence].
  destruct (IH b) as [->|N]; constructor; congruence.
Qed.

Lemma list_eqb_refl a : list_eqb a a = true.
Proof. now destruct (list_eqb_spec a a). Qed.

(** ** shapes *)

Lemma dimr_at s j : dim_at s j = dimr s j.
Proof.
  unfold dim_at, dimr. destruct (Nat.ltb_spec j (length s)).
  - rewrite rev_nth by assumption. rewrite (nth_indep s 0 1) by lia. f_equal. lia.
  - rewrite nth_overflow; [reflexivity|]. rewrite rev_length. assumption.
Qed.

Lemma dimr_rev r j d : j < length r -> dimr (rev r) j = nth j r d.
Proof. intros. unfold dimr. rewrite rev_involutive. now apply nth_indep. Qed.

Lemma dimr_over s j : length s <= j -> dimr s j = 1.
Proof. intros. unfold dimr. apply nth_overflow. now rewrite rev_length. Qed.

Lemma list_eq_dimr a b : length a = length b -> (forall j, j < length a -> dimr a j = dimr b j) -> a = b.
Proof.
  intros Hl H. rewrite <- (rev_involutive a), <- (rev_involutive b). f_equal.
  apply (list_eq_nth_d 1); rewrite !rev_length; [assumption|]. exact H.
Qed.

Definition bd_ok (x y z : nat) : Prop := (x = y /\ z = x) \/ (x = 1 /\ z = y) \/ (y = 1 /\ z = x).

Lemma bd_ok_fun x y z z' : bd_ok x y z -> bd_ok x y z' -> z = z'.
Proof. unfold bd_ok. lia. Qed.

Lemma Broadcasts_all a b r j : Broadcasts a b r -> bd_ok (dimr a j) (dimr b j) (dimr r j).
Proof.
  intros [Hl H]. destruct (Nat.lt_ge_cases j (length r)); [now apply H|].
  rewrite !dimr_over by lia. unfold bd_ok. lia.
Qed.

Lemma Broadcasts_fun a b r r' : Broadcasts a b r -> Broadcasts a b r' -> r = r'.
Proof.
  intros H H'. apply list_eq_dimr; [destruct H, H'; lia|]. intros j _.
  exact (bd_ok_fun _ _ _ _ (Broadcasts_all a b r j H) (Broadcasts_all a b r' j H')).
Qed.

Lemma Broadcasts_sym a b r : Broadcasts a b r -> Broadcasts b a r.
Proof. intros [Hl H]. split; [lia|]. intros j Hj. specialize (H j Hj). lia. Qed.

Lemma Broadcasts_refl a : Broadcasts a a a.
Proof. split; [lia|]. intros. lia. Qed.

Lemma Broadcasts_nil a : Broadcasts [] a a.
Proof. split; [cbn; lia|]. intros. right; left. split; [apply dimr_over; cbn; lia|reflexivity]. Qed.

Lemma bd_ok_assoc x y z xy r : bd_ok x y xy -> bd_ok xy z r -> exists yz, bd_ok y z yz /\ bd_ok x yz r.
Proof.
  unfold bd_ok. intros H1 H2.
  destruct (Nat.eq_dec y 1) as [->|Hy]; [exists z; lia|].
  exists y. destruct (Nat.eq_dec z 1); lia.
Qed.

(** existence of the broadcast, dimension by dimension *)
Lemma Broadcasts_build a b :
  (forall j, j < Nat.max (length a) (length b) -> exists z, bd_ok (dimr a j) (dimr b j) z) -> exists r, Broadcasts a b r.
Proof.
  intros H. set (n := Nat.max (length a) (length b)) in *.
  set (f j := if dimr a j =? 1 then dimr b j else dimr a j).
  exists (rev (tab n f)). split; [now rewrite rev_length, tab_length|].
  rewrite rev_length, tab_length. intros j Hj. rewrite (dimr_rev _ _ 0) by (now rewrite tab_length).
  rewrite nth_tab by assumption. destruct (H j Hj) as [z Hz]. subst f. cbn beta.
  destruct (Nat.eqb_spec (dimr a j) 1); unfold bd_ok in Hz; lia.
Qed.

Lemma Broadcasts_assoc a b c ab r :
  Broadcasts a b ab -> Broadcasts ab c r -> exists bc, Broadcasts b c bc /\ Broadcasts a bc r.
Proof.
  intros H1 H2.
  destruct (Broadcasts_build b c) as [bc Hbc].
  { intros j _. destruct (bd_ok_assoc _ _ _ _ _ (Broadcasts_all _ _ _ j H1) (Broadcasts_all _ _ _ j H2)) as (yz & ? & _). eauto. }
  exists bc. split; [assumption|]. split.
  - destruct H1 as [L1 _], H2 as [L2 _], Hbc as [L3 _]. lia.
  - intros j _. fold (bd_ok (dimr a j) (dimr bc j) (dimr r j)).
    destruct (bd_ok_assoc _ _ _ _ _ (Broadcasts_all _ _ _ j H1) (Broadcasts_all _ _ _ j H2)) as (yz & Hyz & Hr).
    pose proof (Broadcasts_all _ _ _ j Hbc) as Hj. rewrite (bd_ok_fun _ _ _ _ Hj Hyz). assumption.
Qed.

Section Shape.
Variable dbg : bool.

Lemma bdim_ok a b j z : bd_ok (dimr a j) (dimr b j) z -> bdim dbg a b j = Ok z.
Proof.
  unfold bdim. rewrite !dimr_at. unfold bd_ok. intros H.
  destruct (Nat.eqb_spec (dimr a j) 1); [f_equal; lia|].
  destruct (Nat.eqb_spec (dimr b j) 1); [f_equal; lia|].
  destruct (Nat.eqb_spec (dimr a j) (dimr b j)); [f_equal; lia|]. exfalso. lia.
Qed.

Lemma bdim_bad a b j : (forall z, ~ bd_ok (dimr a j) (dimr b j) z) -> bdim true a b j = Abort.
Proof.
  unfold bdim. rewrite !dimr_at. intros H.
  destruct (Nat.eqb_spec (dimr a j) 1). { exfalso. apply (H (dimr b j)). unfold bd_ok. lia. }
  destruct (Nat.eqb_spec (dimr b j) 1). { exfalso. apply (H (dimr a j)). unfold bd_ok. lia. }
  destruct (Nat.eqb_spec (dimr a j) (dimr b j)). { exfalso. apply (H (dimr a j)). unfold bd_ok. lia. }
  reflexivity.
Qed.

Lemma bdims_ok a b r : Broadcasts a b r -> forall n, bdims dbg a b (seq n (length r - n)) = Ok (skipn n (rev r)).
Proof.
  intros H n. remember (length r - n) as k eqn:Hk. revert n Hk. induction k as [|k IH]; intros n Hk.
  - cbn. rewrite skipn_all2; [reflexivity|]. rewrite rev_length. lia.
  - cbn [seq bdims]. rewrite (bdim_ok a b n (dimr r n)) by now apply Broadcasts_all.
    cbn [obind]. rewrite (IH (S n)) by lia. cbn [obind]. f_equal.
    unfold dimr. assert (Hn : n < length (rev r)) by (rewrite rev_length; lia).
    clear -Hn. revert n Hn. generalize (rev r). induction l as [|x l IH]; intros n Hn; cbn [length] in Hn; [lia|].
    destruct n; [reflexivity|]. cbn [nth]. rewrite !skipn_cons. apply IH. lia.
Qed.

Lemma broadcast_shape_ok a b r : Broadcasts a b r -> broadcast_shape dbg a b = Ok r.
Proof.
  intros H. unfold broadcast_shape. destruct (list_eqb_spec a b) as [->|_].
  - f_equal. apply (Broadcasts_fun b b); [apply Broadcasts_refl|assumption].
  - pose proof (bdims_ok a b r H 0) as E. rewrite Nat.sub_0_r in E. destruct H as [<- _]. rewrite E. cbn [obind skipn].
    now rewrite rev_involutive.
Qed.
End Shape.

Lemma bdims_bad a b idxs j : In j idxs -> (forall z, ~ bd_ok (dimr a j) (dimr b j) z) -> bdims true a b idxs = Abort.
Proof.
  intros Hin Hb. induction idxs as [|i idxs IH]; [destruct Hin|]. cbn [bdims].
  destruct Hin as [->|Hin].
  - now rewrite bdim_bad.
  - destruct (bdim true a b i) eqn:E; cbn [obind]; [now rewrite IH|reflexivity|].
    exfalso. revert E. unfold bdim. repeat (destruct (_ =? _)); discriminate.
Qed.

Lemma bd_ok_dec x y : (exists z, bd_ok x y z) \/ (forall z, ~ bd_ok x y z).
Proof.
  unfold bd_ok. destruct (Nat.eq_dec x y); [left; exists x; lia|]. destruct (Nat.eq_dec x 1); [left; exists y; lia|].
  destruct (Nat.eq_dec y 1); [left; exists x; lia|]. right. lia.
Qed.

Lemma find_bad a b n :
  (forall j, j < n -> exists z, bd_ok (dimr a j) (dimr b j) z) \/ (exists j, j < n /\ forall z, ~ bd_ok (dimr a j) (dimr b j) z).
Proof.
  induction n as [|n [IH|IH]].
  - left. lia.
  - destruct (bd_ok_dec (dimr a n) (dimr b n)) as [H|H].
    + left. intros j Hj. destruct (Nat.eq_dec j n) as [->|]; [assumption|apply IH; lia].
    + right. exists n. split; [lia|assumption].
  - right. destruct IH as (j & Hj & H). exists j. split; [lia|assumption].
Qed.

Lemma broadcast_shape_bad a b : (forall r, ~ Broadcasts a b r) -> broadcast_shape true a b = Abort.
Proof.
  intros H. unfold broadcast_shape. destruct (list_eqb_spec a b) as [->|_].
  { exfalso. exact (H b (Broadcasts_refl b)). }
  destruct (find_bad a b (Nat.max (length a) (length b))) as [G|(j & Hj & G)].
  { exfalso. destruct (Broadcasts_build a b G) as [r Hr]. exact (H r Hr). }
  rewrite (bdims_bad a b _ j); [reflexivity| |assumption]. apply in_seq. lia.
Qed.

Lemma broadcast_shape_iff a b r : broadcast_shape true a b = Ok r <-> Broadcasts a b r.
Proof.
  split; [|apply broadcast_shape_ok]. intros H.
  destruct (find_bad a b (Nat.max (length a) (length b))) as [G|(j & Hj & G)].
  - destruct (Broadcasts_build a b G) as [r' Hr]. rewrite (broadcast_shape_ok true a b r' Hr) in H. congruence.
  - rewrite broadcast_shape_bad in H; [discriminate|]. intros r' Hr. exact (G _ (Broadcasts_all a b r' j Hr)).
Qed.

(** ** positional form of stretching *)

Definition str1 (d D : nat) : Prop := d = D \/ d = 1.


Lemma Forall2_nth {X Y} (R : X -> Y -> Prop) dx dy l m :
  length l = length m -> (forall i, i < length l -> R (nth i l dx) (nth i m dy)) -> Forall2 R l m.
Proof.
  revert m. induction l as [|x l IH]; intros [|y m] Hl H; cbn [length] in *; try lia; constructor.
  - exact (H 0 ltac:(lia)).
  - apply IH; [lia|]. intros i Hi. exact (H (S i) ltac:(lia)).
Qed.

Lemma Forall2_nth_inv {X Y} (R : X -> Y -> Prop) dx dy l m :
  Forall2 R l m -> forall i, i < length l -> R (nth i l dx) (nth i m dy).
Proof.
  intros F. induction F; intros i Hi; cbn [length] in Hi; [lia|]. destruct i; [assumption|]. apply IHF. lia.
Qed.

Lemma Forall2_len {X Y} (R : X -> Y -> Prop) l m : Forall2 R l m -> length l = length m.
Proof. induction 1; cbn; auto. Qed.

Lemma nth_dimr s i : i < length s -> nth i s 1 = dimr s (length s - 1 - i).
Proof. intros. unfold dimr. rewrite rev_nth by lia. f_equal. lia. Qed.

Lemma padded_length n s : length s <= n -> length (padded n s) = n.
Proof. intros. unfold padded. rewrite app_length, repeat_length. lia. Qed.

Lemma nth_repeat_same {X} (x : X) n i : nth i (repeat x n) x = x.
Proof. revert i. induction n; intros [|i]; cbn; auto. Qed.

Lemma rev_repeat_1 {X} (x : X) n : rev (repeat x n) = repeat x n.
Proof.
  apply (list_eq_nth_d x); rewrite rev_length; [reflexivity|]. intros i Hi. rewrite nth_repeat_same.
  rewrite rev_length in Hi || idtac. rewrite rev_nth by assumption. apply nth_repeat_same.
Qed.

Lemma dimr_padded n s j : dimr (padded n s) j = dimr s j.
Proof.
  unfold padded, dimr. rewrite rev_app_distr, rev_repeat_1.
  destruct (Nat.lt_ge_cases j (length s)) as [Hs|Hs].
  - rewrite app_nth1 by (now rewrite rev_length). reflexivity.
  - rewrite app_nth2 by (now rewrite rev_length). rewrite nth_repeat_same. symmetry. apply nth_overflow. now rewrite rev_length.
Qed.

Lemma Stretches_padded s S : Stretches s S <-> length s <= length S /\ Forall2 str1 (padded (length S) s) S.
Proof.
  split; intros [Hl H]; (split; [assumption|]).
  - apply (Forall2_nth _ 1 1); rewrite padded_length by assumption; [reflexivity|]. intros i Hi.
    rewrite (nth_dimr (padded _ _)) by (now rewrite padded_length). rewrite (nth_dimr S) by assumption.
    rewrite padded_length by assumption. rewrite dimr_padded.
    destruct (Nat.lt_ge_cases (length S - 1 - i) (length s)) as [G|G]; [now apply H|].
    right. now apply dimr_over.
  - intros j Hj.
    pose proof (Forall2_nth_inv _ 1 1 _ _ H (length S - 1 - j)) as G.
    rewrite padded_length in G by assumption. specialize (G ltac:(lia)).
    rewrite (nth_dimr (padded _ _)) in G by (rewrite padded_length by assumption; lia).
    rewrite (nth_dimr S) in G by lia. rewrite padded_length in G by assumption.
    replace (length S - 1 - (length S - 1 - j)) with j in G by lia. now rewrite dimr_padded in G.
Qed.

Lemma Broadcasts_stretches a b r : Broadcasts a b r -> Stretches a r /\ Stretches b r.
Proof.
  intros H. pose proof (proj1 H) as L. split; (split; [lia|]); intros j Hj;
    pose proof (Broadcasts_all a b r j H) as G; unfold bd_ok in G; lia.
Qed.

Definition clamp (u idx : list nat) : list nat := map2 (fun d i => if d =? 1 then 0 else i) u idx.

Lemma clamp_length u idx : length u = length idx -> length (clamp u idx) = length u.
Proof. intros. unfold clamp. rewrite map2_length. lia. Qed.

Lemma clamp_valid u S idx : Forall2 str1 u S -> valid S idx -> valid u (clamp u idx).
Proof.
  unfold valid, clamp. intros H. revert idx. induction H as [|d D u S Hd H IH]; intros idx V; inversion V; subst; cbn [map2]; constructor.
  - destruct (Nat.eqb_spec d 1); [lia|]. destruct Hd; [congruence|lia].
  - now apply IH.
Qed.

Lemma clamp_self s idx : valid s idx -> clamp s idx = idx.
Proof.
  unfold valid, clamp. intros H. induction H as [|i d idx s Hi H IH]; [reflexivity|]. cbn [map2]. rewrite IH.
  destruct (Nat.eqb_spec d 1); f_equal. lia.
Qed.

Lemma clamp_app u1 u2 i1 i2 : length u1 = length i1 -> clamp (u1 ++ u2) (i1 ++ i2) = clamp u1 i1 ++ clamp u2 i2.
Proof.
  unfold clamp. revert i1. induction u1; intros [|i i1] H; cbn [length] in H; try lia; [reflexivity|].
  cbn [app map2]. f_equal. apply IHu1. lia.
Qed.

Lemma last_diff_None u n : length u = length n -> last_diff u n = None -> u = n.
Proof.
  revert n. induction u as [|x u IH]; intros [|y n] Hl H; cbn [length] in *; try lia; [reflexivity|].
  cbn [last_diff] in H. destruct (last_diff u n) eqn:E; [discriminate|].
  destruct (Nat.eqb_spec x y); [|discriminate]. subst. f_equal. apply IH; [lia|assumption].
Qed.

Lemma last_diff_refl u : last_diff u u = None.
Proof. induction u; cbn [last_diff]; [reflexivity|]. rewrite IHu, Nat.eqb_refl. reflexivity. Qed.

Lemma last_diff_Some u n d :
  length u = length n -> last_diff u n = Some d ->
  exists p x q P y, u = p ++ x :: q /\ n = P ++ y :: q /\ length p = d /\ length P = d /\ x <> y.
Proof.
  revert n d. induction u as [|x u IH]; intros [|y n] d Hl H; cbn [length last_diff] in *; try lia; try discriminate.
  destruct (last_diff u n) as [d'|] eqn:E.
  - injection H as <-. destruct (IH n d' ltac:(lia) E) as (p & x' & q & P & y' & -> & -> & H1 & H2 & H3).
    exists (x :: p), x', q, (y :: P), y'. cbn [app length]. intuition congruence.
  - destruct (Nat.eqb_spec x y); [discriminate|]. injection H as <-. apply last_diff_None in E; [|lia]. subst.
    exists [], x, n, [], y. cbn. auto.
Qed.

Lemma last_diff_app p P q : length p = length P -> last_diff (p ++ q) (P ++ q) = last_diff p P.
Proof.
  revert P. induction p as [|x p IH]; intros [|y P] H; cbn [length] in H; try lia.
  - cbn [app]. apply last_diff_refl.
  - cbn [app last_diff]. rewrite IH by lia. reflexivity.
Qed.

Lemma last_diff_lt p P d : last_diff p P = Some d -> d < length p.
Proof.
  revert P d. induction p as [|x p IH]; intros [|y P] d H; cbn [last_diff] in H; try discriminate.
  cbn [length]. destruct (last_diff p P) eqn:E; [injection H as <-; specialize (IH _ _ E); lia|].
  destruct (x =? y); [discriminate|]. injection H as <-. lia.
Qed.

Definition fuel_of (u n : list nat) : nat := match last_diff u n with Some d => S (S d) | None => 1 end.

Lemma upd_middle {X} (p : list X) x q v : upd (p ++ x :: q) (length p) v = p ++ v :: q.
Proof. induction p; cbn; [reflexivity|]. now rewrite IHp. Qed.

Lemma firstn_middle {X} (p : list X) q : firstn (length p) (p ++ q) = p.
Proof. induction p; cbn; [reflexivity|]. now rewrite IHp. Qed.

Lemma skipn_middle {X} (p : list X) q : skipn (length p) (p ++ q) = q.
Proof. induction p; cbn; auto. Qed.

Lemma nth_middle' {X} (p : list X) x q d : nth (length p) (p ++ x :: q) d = x.
Proof. induction p; cbn; auto. Qed.

Lemma all_known_map s : all_known (map Some s) = Some s.
Proof. induction s; cbn [map all_known]; [reflexivity|]. now rewrite IHs. Qed.

Lemma removelast_map {X Y} (f : X -> Y) l : removelast (map f l) = map f (removelast l).
Proof. induction l as [|x [|y l] IH]; [reflexivity..|]. cbn [map removelast] in *. now rewrite IH. Qed.

Lemma last_map {X Y} (f : X -> Y) l d e : l <> [] -> last (map f l) d = f (last l e).
Proof. induction l as [|x [|y l] IH]; [easy|reflexivity|]. intros _. cbn [map last] in *. now apply IH. Qed.

Section Tensor.
Context {A : Type} (zero : A).
Variable dbg : bool.
Notation heap := (list (list A)).

Lemma zeros_length n : length (zeros zero n) = n.
Proof. apply repeat_length. Qed.

Lemma reshape_resize t s h d :
  s <> [] -> nth_error h (ref t) = Some d -> reshape zero t s h = resize zero t s h.
Proof.
  intros Hs Hd. unfold reshape, reshape_req, bind, data. rewrite Hd.
  destruct (map Some s) eqn:E. { destruct s; [easy|discriminate]. }
  rewrite <- E. rewrite removelast_map, all_known_map. rewrite (last_map Some s None 0) by assumption.
  now rewrite <- (app_removelast_last 0 Hs).
Qed.

Lemma resize_same t s (h : heap) d :
  nth_error h (ref t) = Some d -> length d = prod s -> resize zero t s h = Ok (mkT s (ref t), h).
Proof. intros Hd Hl. unfold resize, bind, data. rewrite Hd, Hl, Nat.eqb_refl. reflexivity. Qed.

Lemma reshape_same t s (h : heap) d :
  s <> [] -> nth_error h (ref t) = Some d -> length d = prod s -> reshape zero t s h = Ok (mkT s (ref t), h).
Proof. intros. rewrite (reshape_resize t s h d) by assumption. now apply (resize_same t s h d). Qed.

Lemma stretch_length a b c (src : list A) : length (stretch zero a b c src) = a * (b * c).
Proof. apply tab2_length. Qed.

Lemma stretch_elem p D q (src : list A) idx :
  length src = prod p * prod q -> valid (p ++ D :: q) idx ->
  nth_error (stretch zero (prod p) D (prod q) src) (offset (p ++ D :: q) idx)
  = nth_error src (offset (p ++ 1 :: q) (upd idx (length p) 0)).
Proof.
  intros Hl V.
  pose proof (valid_length _ _ V) as VL. rewrite app_length in VL. cbn [length] in VL.
  assert (Ei : exists i1 c i2, idx = i1 ++ c :: i2 /\ length i1 = length p).
  { exists (firstn (length p) idx), (nth (length p) idx 0), (skipn (S (length p)) idx). split.
    - rewrite <- (firstn_skipn (length p) idx) at 1. f_equal.
      assert (HH : length p < length idx) by lia. clear -HH. revert HH. generalize (length p) as n.
      induction idx as [|x l IH]; intros n HH; cbn [length] in HH; [lia|]. destruct n; [reflexivity|]. cbn. apply IH. lia.
    - rewrite firstn_length. lia. }
  destruct Ei as (i1 & c & i2 & -> & L1). rewrite <- L1, upd_middle.
  apply valid_app in V; [|assumption]. destruct V as [V1 V2]. unfold valid in V2. inversion V2 as [|? ? ? ? Hc V3]; subst.
  rewrite !offset_app by assumption. cbn [offset]. rewrite !prod_cons.
  pose proof (valid_offset_lt _ _ V1). pose proof (valid_offset_lt _ _ V3).
  unfold stretch. rewrite nth_error_tab2; [|assumption|nia].
  rewrite (Nat.add_comm (c * prod q)), Nat.mod_add by lia. rewrite Nat.mod_small by assumption.
  rewrite nth_error_nth' with (d := zero) by (rewrite Hl; nia). do 2 f_equal. lia.
Qed.

Lemma bind_ok {S T} (m : M S) (f : S -> M T) (h h' : heap) v : m h = Ok (v, h') -> bind m f h = f v h'.
Proof. intros E. unfold bind. now rewrite E. Qed.

Lemma copy_front_exact (src dst : list A) h : length src = length dst -> copy_front src dst h = Ok (src, h).
Proof.
  intros E. unfold copy_front. rewrite E, Nat.leb_refl. unfold ret. rewrite skipn_all, app_nil_r. reflexivity.
Qed.

Lemma nth_error_alloc (h : heap) d : nth_error (h ++ [d]) (length h) = Some d.
Proof. rewrite nth_error_app2 by lia. now rewrite Nat.sub_diag. Qed.

Lemma nth_error_ext (h ext : heap) r d : nth_error h r = Some d -> nth_error (h ++ ext) r = Some d.
Proof. intros H. rewrite nth_error_app1; [assumption|]. apply nth_error_Some. congruence. Qed.

Lemma clamp_step p P D q idx :
  Forall2 str1 p P -> length p = length P -> D <> 1 -> valid (P ++ D :: q) idx ->
  clamp (p ++ 1 :: q) idx = upd (clamp (p ++ D :: q) idx) (length p) 0.
Proof.
  intros F HL HD V. pose proof (valid_length _ _ V) as VL. rewrite app_length in VL. cbn [length] in VL.
  revert idx V VL. clear F. revert P HL. induction p as [|x p IH]; intros [|y P] HL idx V VL; cbn [length] in HL; try lia.
  - destruct idx as [|i idx]; cbn [length] in VL; [lia|]. cbn [app clamp map2 length upd]. unfold clamp. cbn [map2 upd].
    destruct (Nat.eqb_spec D 1); [lia|]. reflexivity.
  - destruct idx as [|i idx]; cbn [length] in VL; [lia|]. unfold clamp in *. cbn [app map2 length upd].
    f_equal. unfold valid in V. cbn [app] in V. inversion V; subst. apply (IH P); [lia|assumption|cbn [length] in *; lia].
Qed.

Lemma broadcast_loop_eq fuel : forall t S (h : heap) d,
  nth_error h (ref t) = Some d -> length d = prod (shape t) -> Forall2 str1 (shape t) S -> fuel_of (shape t) S <= fuel ->
  exists t' ext d', broadcast_loop zero dbg fuel t S h = Ok (t', h ++ ext) /\ shape t' = S /\
    nth_error (h ++ ext) (ref t') = Some d' /\ length d' = prod S /\
    (forall idx, valid S idx -> nth_error d' (offset S idx) = nth_error d (offset (shape t) (clamp (shape t) idx))) /\
    (shape t = S -> t' = t /\ ext = []) /\ (shape t <> S -> length h <= ref t').
Proof.
  induction fuel as [|fuel IH]; intros t S h d Hd Hl F Hf.
  { unfold fuel_of in Hf. destruct (last_diff (shape t) S); lia. }
  cbn [broadcast_loop]. destruct (list_eqb_spec (shape t) S) as [E|NE].
  - exists t, [], d. rewrite app_nil_r. split; [reflexivity|]. split; [assumption|]. split; [assumption|].
    split; [now rewrite <- E|]. split; [|split; [auto|congruence]].
    intros idx V. rewrite E. now rewrite clamp_self.
  - pose proof (Forall2_len _ _ _ F) as HL. rewrite HL, Nat.ltb_irrefl, Nat.sub_diag. cbn [repeat app].
    rewrite (bind_ok _ _ _ _ _ (eq_refl : ret t h = Ok (t, h))).
    destruct (list_eqb_spec (shape t) S); [congruence|]. rewrite HL, Nat.ltb_irrefl.
    destruct (last_diff (shape t) S) as [k|] eqn:LD; [|apply last_diff_None in LD; [congruence|assumption]].
    destruct (last_diff_Some _ _ _ HL LD) as (p & x & q & P & y & Ep & ES & L1 & L2 & Hxy). subst k.
    assert (FF := F). rewrite Ep, ES in FF. apply Forall2_app_inv_l in FF.
    destruct FF as (P' & Q' & F1 & F2 & EE).
    assert (EP : P = P' /\ y :: q = Q').
    { pose proof (Forall2_len _ _ _ F1).       assert (length P = length P') by lia. clear -EE H0. revert P' EE H0. induction P; intros [|] EE H0; cbn in *; try lia; auto.
      injection EE as -> EE. destruct (IHP l EE) as [-> ->]; auto. }
    destruct EP as [<- <-]. inversion F2 as [|? ? ? ? Hx F3]; subst. destruct Hx as [Hx|Hx]; [congruence|]. subst x.
    rewrite Ep. replace (nth (length p) (P ++ y :: q) 0) with y by (rewrite <- L2; symmetry; apply nth_middle').
    rewrite !nth_middle', firstn_middle, skipn_middle, upd_middle.
    rewrite (bind_ok _ _ _ _ _ (eq_refl : better_assert dbg true h = Ok (tt, h))).
    assert (Ed : data t h = Ok (d, h)) by (unfold data; now rewrite Hd). rewrite (bind_ok _ _ _ _ _ Ed).
    assert (Hlq : length d = prod p * prod q). { rewrite Hl, Ep, prod_app, prod_cons. lia. }
    rewrite prod_cons, Nat.mul_1_l. rewrite prod_app, prod_cons.
    destruct (Nat.leb_spec (prod p * prod q) (length d)); [|lia].
    destruct (Nat.leb_spec (prod p * (y * prod q)) (prod p * (y * prod q))); [|lia]. cbn [andb].
    rewrite (bind_ok _ _ _ _ _ (copy_front_exact _ _ h ltac:(rewrite stretch_length, zeros_length; reflexivity))).
    set (src' := stretch zero (prod p) y (prod q) d).
    assert (Hs' : length src' = prod (p ++ y :: q)) by (unfold src'; rewrite stretch_length, prod_app, prod_cons; reflexivity).
    rewrite (bind_ok _ _ _ _ _ (eq_refl : alloc (p ++ y :: q) src' h = Ok (mkT (p ++ y :: q) (length h), h ++ [src']))).
    assert (Ne : p ++ y :: q <> []) by (destruct p; discriminate).
    rewrite (bind_ok _ _ _ _ _ (reshape_same (mkT (p ++ y :: q) (length h)) _ (h ++ [src']) src' Ne (nth_error_alloc h src') Hs')).
    cbn [ref].
    destruct (IH (mkT (p ++ y :: q) (length h)) (P ++ y :: q) (h ++ [src']) src') as (t' & ext & d' & R1 & R2 & R3 & R4 & R5 & R6 & R7).
    + cbn [ref]. apply nth_error_alloc.
    + exact Hs'.
    + cbn [shape]. apply Forall2_app; [assumption|]. constructor; [now left|]. clear. induction q; constructor; auto. now left.
    + cbn [shape]. unfold fuel_of in *. rewrite LD in Hf. rewrite last_diff_app by lia.
      destruct (last_diff p P) eqn:E2; [apply last_diff_lt in E2; lia|lia].
    + exists t', (src' :: ext), d'. rewrite <- app_assoc in R1, R3. cbn [app] in R1, R3.
      split; [exact R1|]. split; [exact R2|]. split; [exact R3|]. split; [exact R4|]. split; [|split].
      * intros idx V. rewrite (R5 idx V). cbn [shape].
        assert (Fe : Forall2 str1 (p ++ y :: q) (P ++ y :: q)).
        { apply Forall2_app; [assumption|]. constructor; [now left|]. clear. induction q; constructor; auto. now left. }
        unfold src'. rewrite stretch_elem; [|assumption|now apply clamp_valid with (S := P ++ y :: q)].
        rewrite (clamp_step p P y q idx); [reflexivity|assumption|lia|congruence|assumption].
      * intros E. exfalso. congruence.
      * intros _. destruct (list_eq_dec Nat.eq_dec (p ++ y :: q) (P ++ y :: q)) as [E|N].
        -- destruct (R6 E) as [-> _]. cbn. lia.
        -- specialize (R7 N). rewrite app_length in R7. lia.
Qed.


Lemma padded_same s : padded (length s) s = s.
Proof. unfold padded. now rewrite Nat.sub_diag. Qed.

Lemma prod_padded n s : prod (padded n s) = prod s.
Proof. unfold padded. rewrite prod_app, prod_repeat_1. lia. Qed.

Lemma offset_clamp_padded n s idx :
  length idx = n -> length s <= n -> offset (padded n s) (clamp (padded n s) idx) = offset s (source_index s idx).
Proof.
  intros Hn Hs. unfold padded, source_index. rewrite Hn.
  rewrite <- (firstn_skipn (n - length s) idx) at 1.
  rewrite clamp_app by (rewrite repeat_length, firstn_length; lia).
  rewrite offset_app by (rewrite clamp_length; rewrite repeat_length, ?firstn_length; lia).
  fold (clamp s (skipn (n - length s) idx)).
  assert (Z : forall k l, offset (repeat 1 k) (clamp (repeat 1 k) l) = 0).
  { induction k; intros [|i l]; cbn [repeat clamp map2 offset]; auto. unfold clamp in *. cbn [map2 offset]. rewrite IHk. reflexivity. }
  rewrite Z. reflexivity.
Qed.

(** the first round pads the shape in place (the storage is untouched) *)
Lemma broadcast_loop_pad fuel t S (h : heap) d :
  nth_error h (ref t) = Some d -> length d = prod (shape t) -> length (shape t) < length S ->
  broadcast_loop zero dbg (Datatypes.S fuel) t S h
  = broadcast_loop zero dbg (Datatypes.S fuel) (mkT (padded (length S) (shape t)) (ref t)) S h.
Proof.
  intros Hd Hl Hlt. cbn [broadcast_loop shape ref].
  destruct (list_eqb_spec (shape t) S) as [E|_]; [rewrite E in Hlt; lia|].
  destruct (Nat.ltb_spec (length (shape t)) (length S)); [|lia].
  fold (padded (length S) (shape t)).
  assert (Ne : padded (length S) (shape t) <> []).
  { intros E. apply (f_equal (@length nat)) in E. rewrite padded_length in E by lia. cbn in E. lia. }
  rewrite (bind_ok _ _ _ _ _ (reshape_same t _ h d Ne Hd ltac:(now rewrite prod_padded))).
  rewrite padded_length by lia. rewrite Nat.ltb_irrefl, Nat.sub_diag. cbn [repeat app].
  unfold bind at 6. cbn [ret].
  destruct (list_eqb_spec (padded (length S) (shape t)) S); [reflexivity|].
  rewrite padded_length by lia. rewrite Nat.ltb_irrefl. reflexivity.
Qed.

Lemma fuel_of_le u n : length u = length n -> fuel_of u n <= S (length n).
Proof.
  intros H. unfold fuel_of. destruct (last_diff u n) eqn:E; [|lia]. apply last_diff_lt in E. lia.
Qed.

Lemma broadcast_tensor_full t S (h : heap) d :
  nth_error h (ref t) = Some d -> length d = prod (shape t) -> Stretches (shape t) S ->
  exists t' ext d', broadcast_tensor zero dbg t S h = Ok (t', h ++ ext) /\ shape t' = S /\
    nth_error (h ++ ext) (ref t') = Some d' /\ length d' = prod S /\
    (forall idx, valid S idx -> nth_error d' (offset S idx) = nth_error d (offset (shape t) (source_index (shape t) idx))) /\
    (padded (length S) (shape t) = S -> ref t' = ref t /\ ext = []) /\
    (padded (length S) (shape t) <> S -> length h <= ref t').
Proof.
  intros Hd Hl St. apply Stretches_padded in St. destruct St as [HL F]. unfold broadcast_tensor.
  assert (E : broadcast_loop zero dbg (Datatypes.S (length S)) t S h
              = broadcast_loop zero dbg (Datatypes.S (length S)) (mkT (padded (length S) (shape t)) (ref t)) S h).
  { destruct (Nat.lt_ge_cases (length (shape t)) (length S)) as [Hlt|Hge].
    - now apply (broadcast_loop_pad _ _ _ _ d).
    - assert (E : length (shape t) = length S) by lia. rewrite <- E at 3. rewrite padded_same. now destruct t. }
  rewrite E.
  destruct (broadcast_loop_eq (Datatypes.S (length S)) (mkT (padded (length S) (shape t)) (ref t)) S h d)
    as (t' & ext & d' & R1 & R2 & R3 & R4 & R5 & R6 & R7).
  - exact Hd.
  - cbn [shape]. now rewrite prod_padded.
  - exact F.
  - cbn [shape]. apply fuel_of_le. now apply padded_length.
  - exists t', ext, d'. cbn [shape] in *. split; [exact R1|]. split; [exact R2|]. split; [exact R3|]. split; [exact R4|].
    split; [|split].
    + intros idx V. rewrite (R5 idx V). f_equal. apply offset_clamp_padded; [now apply valid_length|assumption].
    + intros EE. destruct (R6 EE) as [-> ->]. auto.
    + exact R7.
Qed.

End Tensor.

(** ** rejected broadcasts in a debug build *)
Section Reject.
Context {A : Type} (zero : A).
Notation heap := (list (list A)).

Lemma str1_refl q : Forall2 str1 q q.
Proof. induction q; constructor; auto. now left. Qed.

Lemma broadcast_loop_bad fuel : forall t S (h : heap) d,
  nth_error h (ref t) = Some d -> length d = prod (shape t) -> length (shape t) = length S ->
  ~ Forall2 str1 (shape t) S -> fuel_of (shape t) S <= fuel -> broadcast_loop zero true fuel t S h = Abort.
Proof.
  induction fuel as [|fuel IH]; intros t S h d Hd Hl HL F Hf.
  { unfold fuel_of in Hf. destruct (last_diff (shape t) S); lia. }
  cbn [broadcast_loop]. destruct (list_eqb_spec (shape t) S) as [E|NE].
  { exfalso. apply F. rewrite E. apply str1_refl. }
  rewrite HL, Nat.ltb_irrefl, Nat.sub_diag. cbn [repeat app].
  rewrite (bind_ok _ _ _ _ _ (eq_refl : ret t h = Ok (t, h))).
  destruct (list_eqb_spec (shape t) S); [congruence|]. rewrite HL, Nat.ltb_irrefl.
  destruct (last_diff (shape t) S) as [k|] eqn:LD; [|apply last_diff_None in LD; [congruence|assumption]].
  destruct (last_diff_Some _ _ _ HL LD) as (p & x & q & P & y & Ep & ES & L1 & L2 & Hxy). subst k S.
  rewrite Ep. replace (nth (length p) (P ++ y :: q) 0) with y by (rewrite <- L2; symmetry; apply nth_middle').
  rewrite !nth_middle', firstn_middle, skipn_middle, upd_middle.
  destruct (Nat.eqb_spec x 1) as [->|Nx]; [|reflexivity].
  rewrite (bind_ok _ _ _ _ _ (eq_refl : better_assert true true h = Ok (tt, h))).
  assert (Ed : data t h = Ok (d, h)) by (unfold data; now rewrite Hd). rewrite (bind_ok _ _ _ _ _ Ed).
  assert (Hlq : length d = prod p * prod q). { rewrite Hl, Ep, prod_app, prod_cons. lia. }
  rewrite prod_cons, Nat.mul_1_l. rewrite prod_app, prod_cons.
  destruct (Nat.leb_spec (prod p * prod q) (length d)); [|lia].
  destruct (Nat.leb_spec (prod p * (y * prod q)) (prod p * (y * prod q))); [|lia]. cbn [andb].
  rewrite (bind_ok _ _ _ _ _ (copy_front_exact _ _ h ltac:(rewrite stretch_length, zeros_length; reflexivity))).
  set (src' := stretch zero (prod p) y (prod q) d).
  assert (Hs' : length src' = prod (p ++ y :: q)) by (unfold src'; rewrite stretch_length, prod_app, prod_cons; reflexivity).
  rewrite (bind_ok _ _ _ _ _ (eq_refl : alloc (p ++ y :: q) src' h = Ok (mkT (p ++ y :: q) (length h), h ++ [src']))).
  assert (Ne : p ++ y :: q <> []) by (destruct p; discriminate).
  rewrite (bind_ok _ _ _ _ _ (reshape_same zero (mkT (p ++ y :: q) (length h)) _ (h ++ [src']) src' Ne (nth_error_alloc h src') Hs')).
  cbn [ref]. apply (IH _ _ _ src').
  - cbn [ref]. apply nth_error_alloc.
  - exact Hs'.
  - cbn [shape]. rewrite !app_length. cbn. lia.
  - cbn [shape]. intros G. apply F. rewrite Ep. apply Forall2_app_inv_l in G. destruct G as (P' & Q' & G1 & G2 & EE).
    assert (EP : P = P' /\ y :: q = Q').
    { pose proof (Forall2_len _ _ _ G1). assert (H2 : length P = length P') by lia.
      clear -EE H2. revert P' EE H2. induction P; intros [|] EE H2; cbn in *; try lia; auto.
      injection EE as -> EE. destruct (IHP l EE) as [-> ->]; auto. }
    destruct EP as [<- <-]. apply Forall2_app; [assumption|]. constructor; [now right|]. apply str1_refl.
  - cbn [shape]. unfold fuel_of in *. rewrite LD in Hf. rewrite last_diff_app by lia.
    destruct (last_diff p P) eqn:E2; [apply last_diff_lt in E2; lia|lia].
Qed.

Lemma broadcast_tensor_reject t S (h : heap) d :
  nth_error h (ref t) = Some d -> length d = prod (shape t) -> length (shape t) <= length S -> ~ Stretches (shape t) S ->
  broadcast_tensor zero true t S h = Abort.
Proof.
  intros Hd Hl HL St. unfold broadcast_tensor.
  assert (E : broadcast_loop zero true (Datatypes.S (length S)) t S h
              = broadcast_loop zero true (Datatypes.S (length S)) (mkT (padded (length S) (shape t)) (ref t)) S h).
  { destruct (Nat.lt_ge_cases (length (shape t)) (length S)) as [Hlt|Hge].
    - now apply (broadcast_loop_pad zero true _ _ _ _ d).
    - assert (E : length (shape t) = length S) by lia. rewrite <- E at 3. rewrite padded_same. now destruct t. }
  rewrite E. apply (broadcast_loop_bad _ _ _ _ d); cbn [shape ref].
  - assumption.
  - now rewrite prod_padded.
  - now apply padded_length.
  - intros F. apply St. apply Stretches_padded. auto.
  - apply fuel_of_le. now apply padded_length.
Qed.

Lemma broadcast_tensor_long dbg t S (h : heap) :
  length S < length (shape t) -> broadcast_tensor zero dbg t S h = UB.
Proof.
  intros HL. unfold broadcast_tensor. cbn [broadcast_loop].
  destruct (list_eqb_spec (shape t) S) as [E|_]; [rewrite E in HL; lia|].
  replace (length S - length (shape t)) with 0 by lia. cbn [repeat app].
  destruct (Nat.ltb_spec (length (shape t)) (length S)); [lia|].
  rewrite (bind_ok _ _ _ _ _ (eq_refl : ret t h = Ok (t, h))).
  destruct (list_eqb_spec (shape t) S) as [E|_]; [rewrite E in HL; lia|].
  destruct (Nat.ltb_spec (length S) (length (shape t))); [reflexivity|lia].
Qed.

End Reject.

(** ** sums and differences *)
Section Zip.
Context {A : Type} (zero : A) (dbg : bool) (f : A -> A -> A).
Notation heap := (list (list A)).

Lemma zip_broadcast_full lhs rhs r (h : heap) dl dr :
  nth_error h (ref lhs) = Some dl -> length dl = prod (shape lhs) ->
  nth_error h (ref rhs) = Some dr -> length dr = prod (shape rhs) ->
  Broadcasts (shape lhs) (shape rhs) r ->
  exists t h' res, zip_broadcast zero dbg f lhs rhs h = Ok (t, h') /\ shape t = r /\
    nth_error h' (ref t) = Some res /\ length res = prod r /\
    (forall idx, valid r idx -> exists x y,
        nth_error dl (offset (shape lhs) (source_index (shape lhs) idx)) = Some x /\
        nth_error dr (offset (shape rhs) (source_index (shape rhs) idx)) = Some y /\
        nth_error res (offset r idx) = Some (f x y)) /\
    (padded (length r) (shape lhs) = r -> ref t = ref lhs) /\
    (padded (length r) (shape lhs) <> r -> length h <= ref t) /\
    (forall s, s < length h -> s <> ref t -> nth_error h' s = nth_error h s).
Proof.
  intros Hl Ll Hr Lr B. destruct (Broadcasts_stretches _ _ _ B) as [Sl Sr].
  unfold zip_broadcast. unfold bind at 1. unfold lift. rewrite (broadcast_shape_ok dbg _ _ _ B).
  destruct (broadcast_tensor_full zero dbg lhs r h dl Hl Ll Sl) as (tl & e1 & dl' & L1 & L2 & L3 & L4 & L5 & L6 & L7).
  rewrite (bind_ok _ _ _ _ _ L1).
  destruct (broadcast_tensor_full zero dbg rhs r (h ++ e1) dr (nth_error_ext _ _ _ _ Hr) Lr Sr)
    as (tr & e2 & dr' & R1 & R2 & R3 & R4 & R5 & R6 & R7).
  rewrite (bind_ok _ _ _ _ _ R1).
  assert (Ed1 : data tl ((h ++ e1) ++ e2) = Ok (dl', (h ++ e1) ++ e2)).
  { unfold data. now rewrite (nth_error_ext _ _ _ _ L3). }
  rewrite (bind_ok _ _ _ _ _ Ed1).
  assert (Ed2 : data tr ((h ++ e1) ++ e2) = Ok (dr', (h ++ e1) ++ e2)) by (unfold data; now rewrite R3).
  rewrite (bind_ok _ _ _ _ _ Ed2).
  destruct (Nat.leb_spec (length dl') (length dr')); [|lia].
  exists tl, (upd ((h ++ e1) ++ e2) (ref tl) (map2 f dl' dr')), (map2 f dl' dr').
  split; [reflexivity|]. split; [assumption|]. split; [|split; [|split; [|split; [|split]]]].
  - apply nth_error_upd_same. apply nth_error_Some. rewrite (nth_error_ext _ _ _ _ L3). discriminate.
  - rewrite map2_length. lia.
  - intros idx V. pose proof (valid_offset_lt _ _ V) as Ho.
    destruct (nth_error dl' (offset r idx)) as [x|] eqn:Ex; [|apply nth_error_None in Ex; lia].
    destruct (nth_error dr' (offset r idx)) as [y|] eqn:Ey; [|apply nth_error_None in Ey; lia].
    exists x, y. rewrite <- (L5 idx V), <- (R5 idx V). split; [assumption|]. split; [assumption|]. now apply nth_error_map2.
  - intros E. now apply L6.
  - exact L7.
  - intros s Hs Hne. rewrite nth_error_upd_other by congruence. rewrite !nth_error_app1; try reflexivity; rewrite ?app_length; lia.
Qed.

End Zip.
