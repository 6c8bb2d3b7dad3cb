(** C69: argmax and argmin. *)
From Coq Require Import List Arith Lia Bool PeanoNat Reals Lra.
From Verif Require Import ListBase Loops TensorModel TensorProofs ArrayModel ArrayProofs LayerSpec LayerProofs3 ArgModel ArgSpec ArgProofs.
Import ListNotations.
Local Open Scope nat_scope.

(** argmax along an axis: the axis disappears, and every element is the index of the first of the largest elements of its
    line, for any strict weak order; the announced shape is the shape of the result. *)
Theorem C69_argmax : forall (A : Type) (zero : A) ltb of_nat dbg (x : arr A) p n q,
  strict_weak ltb -> wf x -> ashape x = p ++ n :: q -> n <> 0 ->
  exists y, argmax_fwd zero ltb of_nat dbg (length p) x = Ok y /\ ashape y = p ++ q /\ wf y /\
    argmax_shape (length p) (ashape x) = Ok (ashape y) /\
    forall ip iq l, valid p ip -> valid q iq -> fibre x ip iq n l ->
      exists m, first_largest ltb l m /\ at_index y (ip ++ iq) = Some (of_nat m).
Proof.
  intros A zero ltb of_nat dbg x p n q SW W E Hn. eexists. split; [ apply (argmax_ok zero ltb of_nat dbg x p n q); assumption | ]. cbn [ashape].
  split; [ reflexivity | ]. split; [ | split ].
  - unfold wf. cbn [ashape adata]. unfold loop2. now rewrite tab2_length, prod_app.
  - unfold argmax_shape, without. rewrite E, app_length. cbn [length]. rewrite (proj2 (Nat.leb_gt _ _)) by lia.
    now rewrite firstn_at, skipn_S_at.
  - intros ip iq l Vp Vq F.
    rewrite (fibre_unique x ip iq n l _ F (fibre_strided zero x p n q ip iq W E Vp Vq)).
    exists (arg_loop ltb (fun r => nth (offset p ip * prod q * n + offset q iq + r * prod q) (adata x) zero) n). split.
    + apply (arg_loop_first ltb SW). assumption.
    + unfold at_index. cbn [ashape adata]. rewrite offset_app by now apply valid_length. now rewrite loop2_at.
Qed.
Print Assumptions C69_argmax.

(** argmin: the first of the smallest elements, if negation reverses the order *)
Theorem C69_argmin : forall (A : Type) (zero : A) ltb of_nat opp dbg (x : arr A) p n q,
  strict_weak ltb -> (forall a b, ltb (opp a) (opp b) = ltb b a) -> wf x -> ashape x = p ++ n :: q -> n <> 0 ->
  exists y, argmin_fwd zero ltb of_nat opp dbg (length p) x = Ok y /\ ashape y = p ++ q /\ wf y /\
    forall ip iq l, valid p ip -> valid q iq -> fibre x ip iq n l ->
      exists m, first_smallest ltb l m /\ at_index y (ip ++ iq) = Some (of_nat m).
Proof.
  intros A zero ltb of_nat opp dbg x p n q SW O W E Hn.
  destruct (C69_argmax A zero ltb of_nat dbg (Arr (ashape x) (map opp (adata x))) p n q SW) as (y & Ey & Sy & Wy & _ & Hy).
  { unfold wf in *. cbn [ashape adata]. now rewrite map_length. }
  { exact E. }
  { exact Hn. }
  exists y. split; [ exact Ey | ]. split; [ exact Sy | ]. split; [ exact Wy | ]. intros ip iq l Vp Vq (Ll & Hl).
  destruct (Hy ip iq (map opp l) Vp Vq) as (m & (v & F1 & F2 & F3) & Hm).
  { split; [ now rewrite map_length | ]. intros k Hk. specialize (Hl k Hk). unfold at_index in *. cbn [ashape adata].
    now rewrite !nth_error_map, Hl. }
  exists m. split; [ | exact Hm ]. rewrite nth_error_map in F1. destruct (nth_error l m) as [ w | ] eqn:Ew; [ | discriminate ].
  cbn in F1. injection F1 as <-. exists w. split; [ exact Ew | ]. split.
  - intros k u Ek. rewrite <- O. apply (F2 k). now rewrite nth_error_map, Ek.
  - intros k u Ek L. rewrite <- O. apply (F3 k); [ now rewrite nth_error_map, Ek | exact L ].
Qed.
Print Assumptions C69_argmin.

(** an axis of extent 0 between non-empty ones: the first element of each line is read all the same *)
Theorem C69_empty_axis : forall (A : Type) (zero : A) ltb of_nat dbg (x : arr A) p q,
  wf x -> ashape x = p ++ 0 :: q -> prod p <> 0 -> prod q <> 0 -> argmax_fwd zero ltb of_nat dbg (length p) x = UB.
Proof.
  intros A zero ltb of_nat dbg x p q W E Hp Hq. unfold argmax_fwd. rewrite E, app_length. cbn [length].
  rewrite (proj2 (Nat.ltb_lt _ _)) by lia. cbn [check]. rewrite (proj2 (Nat.leb_gt _ _)) by lia.
  rewrite firstn_at, skipn_S_at, nth_at. cbv zeta.
  rewrite (proj2 (Nat.eqb_neq _ _)) by (apply Nat.neq_mul_0; auto). reflexivity.
Qed.
Print Assumptions C69_empty_axis.

(** backward returns zeros of the input's shape; this is the derivative exactly where every line has one largest element:
    there, and only there, the result stays the same under all small changes of the input. *)
Theorem C69_backward : forall dbg (x g : arr R) p n q,
  wf x -> ashape x = p ++ n :: q -> n <> 0 ->
  (wf (argmax_bwd 0%R x g) /\ ashape (argmax_bwd 0%R x g) = ashape x /\ Forall (fun v => v = 0%R) (adata (argmax_bwd 0%R x g))) /\
  ((forall ip iq l, valid p ip -> valid q iq -> fibre x ip iq n l -> unique_largest rltb l) <->
   exists e, (0 < e)%R /\ forall x', wf x' -> ashape x' = ashape x ->
     (forall k, Rabs (nth k (adata x') 0 - nth k (adata x) 0) < e)%R ->
     argmax_fwd 0%R rltb INR dbg (length p) x' = argmax_fwd 0%R rltb INR dbg (length p) x).
Proof.
  intros dbg x g p n q W E Hn. split.
  { split; [ unfold wf, argmax_bwd; cbn [ashape adata]; apply repeat_length | ]. split; [ reflexivity | ].
    unfold argmax_bwd. cbn [adata]. apply Forall_forall. intros v Hv. now apply repeat_spec in Hv. }
  set (col := fun (y : arr R) b c r => nth (b * prod q * n + c + r * prod q) (adata y) 0%R).
  split.
  - intro U.
    assert (St : forall b c, b < prod p -> c < prod q -> exists e, (0 < e)%R /\ forall get',
      (forall r, r < n -> (Rabs (get' r - col x b c r) < e)%R) -> arg_loop rltb get' n = arg_loop rltb (col x b c) n).
    { intros b c Hb Hc. apply (arg_stable (col x b c) n Hn).
      pose proof (fibre_strided 0%R x p n q (unoffset p b) (unoffset q c) W E (unoffset_valid p b Hb) (unoffset_valid q c Hc)) as F.
      rewrite !offset_unoffset in F by assumption. apply (U _ _ _ (unoffset_valid p b Hb) (unoffset_valid q c Hc) F). }
    destruct (finite_eps (fun b e => forall c, c < prod q -> forall get',
      (forall r, r < n -> (Rabs (get' r - col x b c r) < e)%R) -> arg_loop rltb get' n = arg_loop rltb (col x b c) n) (prod p)) as (e & He & HP).
    { intros b e e' Hee H c Hc get' Hg. apply H; [ assumption | ]. intros r Hr. specialize (Hg r Hr). lra. }
    { intros b Hb. destruct (finite_eps (fun c e => forall get',
      (forall r, r < n -> (Rabs (get' r - col x b c r) < e)%R) -> arg_loop rltb get' n = arg_loop rltb (col x b c) n) (prod q)) as (e & He & HP).
      { intros c e e' Hee H get' Hg. apply H. intros r Hr. specialize (Hg r Hr). lra. }
      { intros c Hc. now apply St. }
      exists e. split; [ assumption | ]. intros c Hc. now apply HP. }
    exists e. split; [ assumption | ]. intros x' W' E' Hx.
    rewrite (argmax_ok 0%R rltb INR dbg x p n q W E Hn), (argmax_ok 0%R rltb INR dbg x' p n q W' (eq_trans E' E) Hn).
    f_equal. f_equal. apply list_eq_nth; [ unfold loop2; now rewrite !tab2_length | ]. intros i Hi. unfold loop2 in *.
    rewrite tab2_length in Hi. destruct (divmod_lt _ _ _ Hi) as (Hb & Hc & Ei). rewrite Ei.
    rewrite !nth_error_tab2 by assumption. f_equal. f_equal. apply (HP _ Hb _ Hc). intros r Hr. apply Hx.
  - intros (e & He & H) ip iq l Vp Vq F.
    pose proof (fibre_unique x ip iq n l _ F (fibre_strided 0%R x p n q ip iq W E Vp Vq)) as El. subst l. clear F.
    set (b := offset p ip). set (c := offset q iq).
    assert (Hb : b < prod p) by now apply valid_offset_lt. assert (Hc : c < prod q) by now apply valid_offset_lt.
    change (strided 0%R (adata x) (b * prod q * n + c) (prod q) n) with (tab n (col x b c)).
    pose proof (arg_loop_first rltb rltb_sw (col x b c) n Hn) as (v & Em & H1 & H2).
    set (m := arg_loop rltb (col x b c) n) in *. exists m, v. split; [ assumption | ]. intros k u Ek Ne.
    assert (Hk : k < n) by (apply nth_error_Some_lt in Ek; now rewrite tab_length in Ek).
    assert (Hm : m < n) by (apply nth_error_Some_lt in Em; now rewrite tab_length in Em).
    rewrite nth_error_tab in Em by assumption. rewrite nth_error_tab in Ek by assumption. injection Em as <-. injection Ek as <-.
    destruct (rltb (col x b c k) (col x b c m)) eqn:L; [ reflexivity | ]. apply rltb_false in L. exfalso.
    set (pos := b * prod q * n + c + k * prod q).
    assert (Hpos : pos < length (adata x)).
    { unfold wf in W. rewrite W, E, prod_app, prod_cons. unfold pos. assert (k * prod q + c < n * prod q) by nia.
      assert ((b + 1) * (n * prod q) <= prod p * (n * prod q)) by (apply Nat.mul_le_mono_r; lia). lia. }
    set (x' := Arr (ashape x) (upd (adata x) pos (nth pos (adata x) 0 + e / 2)%R)).
    assert (W' : wf x') by (unfold wf, x' in *; cbn [ashape adata]; now rewrite upd_length).
    specialize (H x' W' eq_refl).
    assert (Hx : forall j, (Rabs (nth j (adata x') 0 - nth j (adata x) 0) < e)%R).
    { intro j. unfold x'. cbn [adata]. rewrite nth_upd by assumption. destruct (Nat.eqb_spec pos j) as [ <- | N ].
      - replace (nth pos (adata x) 0 + e / 2 - nth pos (adata x) 0)%R with (e / 2)%R by ring. rewrite Rabs_right; lra.
      - rewrite Rminus_diag_eq by reflexivity. rewrite Rabs_R0. exact He. }
    specialize (H Hx). rewrite (argmax_ok 0%R rltb INR dbg x p n q W E Hn), (argmax_ok 0%R rltb INR dbg x' p n q W' E Hn) in H.
    injection H as H.
    assert (H0 : nth_error (loop2 (prod p) (prod q) (fun b c => INR (arg_loop rltb (col x' b c) n))) (b * prod q + c)
               = nth_error (loop2 (prod p) (prod q) (fun b c => INR (arg_loop rltb (col x b c) n))) (b * prod q + c)) by (f_equal; exact H).
    unfold loop2 in H0. rewrite !nth_error_tab2 in H0 by assumption. injection H0 as H0. apply INR_eq in H0. fold m in H0.
    apply (arg_tie (col x b c) n k (e / 2) Hn Hk Ne L); [ lra | ]. fold m. rewrite <- H0. apply arg_loop_ext; [ assumption | ].
    intros r Hr. unfold col at 3, x'. cbn [adata]. rewrite nth_upd by assumption. fold (col x b c r).
    destruct (Nat.eqb_spec r k) as [ -> | N ].
    + unfold pos. rewrite Nat.eqb_refl. reflexivity.
    + destruct (Nat.eqb_spec pos (b * prod q * n + c + r * prod q)) as [ X | X ]; [ | reflexivity ].
      exfalso. apply N. unfold pos in X. assert (k * prod q = r * prod q) by lia.
      apply Nat.mul_cancel_r in H3; [ now symmetry | lia ].
Qed.
Print Assumptions C69_backward.

Module Case.
Definition x : arr nat := Arr [2; 3; 2] [1; 5; 7; 5; 7; 2;  0; 0; 0; 9; 1; 3].
(* along the middle axis: columns (1 7 7), (5 5 2), (0 0 1), (0 9 3) *)
Example argmax_case : argmax_fwd 0 Nat.ltb (fun n => n) true (length [2]) x = Ok (Arr [2; 2] [1; 0; 2; 1]).
Proof. reflexivity. Qed.
Example empty_case : argmax_fwd 0 Nat.ltb (fun n => n) true (length [2]) (Arr [2; 0; 2] []) = UB.
Proof. reflexivity. Qed.
Lemma nat_sw : strict_weak Nat.ltb.
Proof.
  split; [ apply Nat.ltb_irrefl | ]. split.
  - intros a b c. rewrite !Nat.ltb_lt. lia.
  - intros a b c. rewrite !Nat.ltb_ge. lia.
Qed.
End Case.
