(** Lemmas about the statistics. *)
From Coq Require Import List Arith Lia Bool PeanoNat Reals Lra.
From Verif Require Import ListBase Loops TensorModel TensorSpec TensorProofs TensorProofs2 ArrayModel ArrayProofs ArrayProps StatModel StatSpec.
Import ListNotations.
Local Open Scope nat_scope.

Lemma total_rsum l : total l = rsum l.
Proof. induction l; cbn [total rsum]; congruence. Qed.

Lemma fold_total l a : (fold_left Rplus l a = a + total l)%R.
Proof. revert a. induction l as [|x l IH]; intros a; cbn [fold_left total]; [ring|]. rewrite IH. ring. Qed.

Lemma fold_squares l a : (fold_left (fun x y => x + y * y) l a = a + total (map (fun x => x ^ 2) l))%R.
Proof. revert a. induction l as [|x l IH]; intros a; cbn [fold_left total map]; [ring|]. rewrite IH. ring. Qed.

Lemma squares_nonneg l : (0 <= total (map (fun x => x ^ 2) l))%R.
Proof. induction l as [|x l IH]; cbn [map total]; [lra|]. pose proof (pow2_ge_0 x). lra. Qed.

Lemma squares_zero l : total (map (fun x => x ^ 2)%R l) = 0%R <-> forall x, In x l -> x = 0%R.
Proof.
  induction l as [|y l IH]; cbn [map total]; [split; [intros _ x []|reflexivity]|].
  pose proof (pow2_ge_0 y) as Y. pose proof (squares_nonneg l) as L. split.
  - intros E x [<-|I]; [apply Rsqr_0_uniq; unfold Rsqr; lra|]. apply (proj1 IH); [lra|assumption].
  - intros H. rewrite (proj2 IH); [|intros x I; apply H; now right]. rewrite (H y) by now left. ring.
Qed.

Lemma deviations_squares l : squared_deviations l = map (fun x => x ^ 2)%R (map (fun x => x - average l)%R l).
Proof. unfold squared_deviations. now rewrite map_map. Qed.

(** ** the axis functions *)

Lemma elem_arr (h : list (list R)) (t : tensor) d idx : nth_error h (ref t) = Some d -> elem h t idx = at_index (Arr (shape t) d) idx.
Proof. intros H. unfold elem, at_index. rewrite H. reflexivity. Qed.

Lemma line_fibre h t d ip iq n l : nth_error h (ref t) = Some d -> line h t ip iq n l <-> fibre (Arr (shape t) d) ip iq n l.
Proof.
  intros H. unfold line, fibre. split; (intros [L E]; split; [exact L|]; intros k Hk; specialize (E k Hk)).
  - now rewrite <- (elem_arr h t d).
  - now rewrite (elem_arr h t d).
Qed.

Lemma line_exists h t p n q ip iq :
  well_formed h t -> shape t = p ++ n :: q -> valid p ip -> valid q iq -> exists l, line h t ip iq n l.
Proof.
  intros (d & Hd & Ld) Hs Vp Vq. eexists. apply (line_fibre h t d _ _ _ _ Hd). now apply (fibre_strided 0%R) with (p := p) (q := q).
Qed.

Lemma line_unique (h : list (list R)) t ip iq n l m : line h t ip iq n l -> line h t ip iq n m -> l = m.
Proof. intros [Ll Hl] [Lm Hm]. apply list_eq_nth; [congruence|]. intros i Hi. rewrite <- Hl, <- Hm by lia. reflexivity. Qed.

(** mean_t on a well-formed tensor: a fresh tensor behind an unchanged heap *)
Lemma mean_t_ok dbg t axis keepdims p n q (h : list (list R)) :
  well_formed h t -> shape t = p ++ n :: q -> prod (shape t) <> 0 -> axis_is axis (length (shape t)) (length p) ->
  (keepdims = true \/ p ++ q <> []) ->
  exists m e, mean_t dbg t axis keepdims h = Ok (m, h ++ e) /\ shape m = left_over keepdims p q /\ length h <= ref m /\
    well_formed (h ++ e) m /\
    forall ip iq l, valid p ip -> valid q iq -> line h t ip iq n l ->
      elem (h ++ e) m (left_index keepdims ip iq) = Some (average l).
Proof.
  intros (d & Hd & Ld) Hs Hn Hax Hk.
  assert (Nd : d <> []) by (intros ->; cbn in Ld; congruence).
  rewrite Hs in Hax.
  destruct (C19_mean_axis dbg (Arr (shape t) d) axis keepdims p n q) as (r & E & Es & Wr & H); auto.
  unfold mean_axis in E. cbn [ashape adata] in E.
  destruct (reduce 0%R dbg (Arr (shape t) d) axis 0%R Rplus keepdims) as [r0| |] eqn:Er; try discriminate E. cbn [obind] in E.
  unfold mean_t. rewrite (pick_axis_names axis (length (shape t)) (length p)) in * by (rewrite Hs; exact Hax).
  destruct (length (shape t) <=? length p) eqn:Le; [discriminate E|]. injection E as <-.
  unfold reduce_t. unfold bind at 1. unfold bind at 1. unfold data at 1. rewrite Hd.
  assert (X : (match d with [] => ret t | _ :: _ => bind (lift (reduce 0%R dbg (Arr (shape t) d) axis 0%R Rplus keepdims))
                 (fun r => alloc (ashape r) (adata r)) end) h = Ok (mkT (ashape r0) (length h), h ++ [adata r0])).
  { destruct d as [|x d']; [congruence|]. unfold bind, lift. rewrite Er. reflexivity. }
  rewrite X. clear X.
  assert (W0 : length (adata r0) = prod (ashape r0)) by (unfold wf in Wr; cbn [ashape adata] in Wr; now rewrite map_length in Wr).
  rewrite (scalar_op_ok 0%R _ (mkT (ashape r0) (length h)) (h ++ [adata r0]) (adata r0) (nth_error_alloc h (adata r0)) W0).
  cbn [shape]. eexists _, ([adata r0] ++ [_]). rewrite (app_assoc h). split; [reflexivity|].
  cbn [ashape adata] in Es. cbn [shape ref]. split; [exact Es|]. split; [rewrite app_length; lia|]. split.
  - exists (map (fun v => v / INR (nth (length p) (shape t) 0%nat))%R (adata r0)). cbn [shape ref].
    split; [apply nth_error_alloc|]. now rewrite map_length.
  - intros ip iq l Vp Vq Hl. apply (line_fibre h t d _ _ _ _ Hd) in Hl. specialize (H ip iq l Vp Vq Hl).
    unfold elem. cbn [shape ref]. rewrite nth_error_alloc. unfold at_index in H. cbn [ashape adata] in H.
    etransitivity; [exact H|]. unfold average. destruct Hl as [Ll _]. now rewrite Ll.
Qed.

Lemma frame_length {A} (h h' : list (list A)) :
  (forall s, s < length h -> nth_error h' s = nth_error h s) -> length h <= length h'.
Proof.
  intros F. destruct (Nat.le_gt_cases (length h) (length h')) as [|L]; [assumption|]. specialize (F (length h') L).
  rewrite (proj2 (nth_error_None h' (length h')) (Nat.le_refl _)) in F. symmetry in F. apply nth_error_None in F. lia.
Qed.

Lemma reduced_broadcasts p n q : Broadcasts (p ++ 1 :: q) (p ++ n :: q) (p ++ n :: q).
Proof.
  split; [rewrite !app_length; cbn [length]; lia|]. intros j Hj. unfold dimr. rewrite !rev_app_distr. cbn [rev].
  rewrite <- !app_assoc. destruct (Nat.lt_trichotomy j (length (rev q))) as [L|[->|L]].
  - left. rewrite !app_nth1 by assumption. split; reflexivity.
  - right; left. rewrite !app_nth2, Nat.sub_diag by lia. split; reflexivity.
  - left. assert (G : forall x, nth j (rev q ++ [x] ++ rev p) 1 = nth (j - length (rev q) - 1) (rev p) 1).
    { intros x. rewrite app_nth2 by lia. destruct (j - length (rev q)) eqn:E; [lia|]. cbn [app nth]. f_equal. lia. }
    rewrite !G. split; reflexivity.
Qed.

Lemma source_self s idx : valid s idx -> source_index s idx = idx.
Proof.
  intros V. unfold source_index. rewrite (valid_length _ _ V), Nat.sub_diag. cbn [skipn]. now apply clamp_self.
Qed.

Lemma source_reduced p n q ip k iq : valid p ip -> valid q iq -> k < n ->
  source_index (p ++ 1 :: q) (ip ++ k :: iq) = ip ++ 0 :: iq.
Proof.
  intros Vp Vq Hk. unfold source_index. pose proof (valid_length _ _ Vp) as Lp. pose proof (valid_length _ _ Vq) as Lq.
  replace (length (ip ++ k :: iq) - length (p ++ 1 :: q)) with 0 by (rewrite !app_length; cbn [length]; lia). cbn [skipn].
  change (clamp (p ++ 1 :: q) (ip ++ k :: iq) = ip ++ 0 :: iq). rewrite clamp_app by lia. rewrite (clamp_self _ _ Vp).
  f_equal. change (0 :: clamp q iq = 0 :: iq). now rewrite clamp_self.
Qed.

Lemma valid_middle p n q ip k iq : valid p ip -> valid q iq -> k < n -> valid (p ++ n :: q) (ip ++ k :: iq).
Proof. intros Vp Vq Hk. apply valid_app; [now apply valid_length|]. split; [assumption|]. now constructor. Qed.
