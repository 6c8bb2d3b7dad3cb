(** C70: the operator broadcast( new_shape ). *)
From Coq Require Import List Arith Lia Bool PeanoNat Reals Lra.
From Verif Require Import ListBase Loops TensorModel TensorSpec TensorProofs TensorProps ArrayModel ArrayProofs LayerModel LayerSpec LayerProofs LayerProofs2 BcastOpModel BcastOpProofs.
Import ListNotations.
Local Open Scope nat_scope.

(** forward never fails on a non-empty input and has the announced shape; the elements are those of the input, over and over,
    as long as whole copies fit; what remains at the end is what the cache held there (zeros if the cache was of another
    size). *)
Theorem C70_forward : forall (A : Type) (zero : A) dbg t cache (x : arr A),
  wf x -> prod (ashape x) <> 0 ->
  exists c y, bc_fwd zero dbg t cache x = Ok (c, y) /\ ashape y = t /\ bc_shape t (ashape x) = ashape y /\ wf y /\
    forall k, k < prod t ->
      nth_error (adata y) k =
      (if k <? prod t / prod (ashape x) * prod (ashape x) then nth_error (adata x) (k mod prod (ashape x))
       else if length cache =? prod t then nth_error cache k else Some zero).
Proof.
  intros A zero dbg t cache x W Hs. unfold bc_fwd. rewrite (proj2 (Nat.eqb_neq _ _)) by (unfold wf in W; congruence).
  cbn [negb]. replace (check dbg true) with (fun k : outcome (list A * arr A) => k) by (destruct dbg; reflexivity). cbv beta.
  destruct (list_eqb_spec t (ashape x)) as [ E | N ].
  - exists cache, x. split; [ reflexivity | ]. split; [ now symmetry | ]. split; [ exact E | ]. split; [ exact W | ]. intros k Hk. rewrite E in *.
    rewrite Nat.div_same by assumption. rewrite Nat.mul_1_l, (proj2 (Nat.ltb_lt _ _)) by assumption. now rewrite Nat.mod_small.
  - rewrite (proj2 (Nat.eqb_neq _ _)) by assumption. cbv zeta.
    assert (L := resized_length zero cache (prod t)). unfold wf in W. rewrite W.
    assert (D : prod t / prod (ashape x) * prod (ashape x) <= prod t) by (rewrite Nat.mul_comm; now apply Nat.mul_div_le).
    rewrite fill_ok.
    2:{ intros w Hw. apply in_loop2 in Hw. destruct Hw as (r & c & Hr & Hc & ->). cbn [fst]. rewrite L.
        assert ((r + 1) * prod (ashape x) <= prod t / prod (ashape x) * prod (ashape x)) by (apply Nat.mul_le_mono_r; lia). lia. }
    eexists. eexists. split; [ reflexivity | ]. cbn [ashape adata]. split; [ reflexivity | ]. split; [ reflexivity | ].
    split; [ unfold wf; cbn [ashape adata]; now rewrite writes_length | ]. intros k Hk.
    rewrite copies_at by (rewrite ?L; assumption).
    destruct (Nat.ltb_spec k (prod t / prod (ashape x) * prod (ashape x))) as [ Hk' | Hk' ].
    + symmetry. apply nth_error_nth'. rewrite W. now apply Nat.mod_upper_bound.
    + unfold resized. destruct (length cache =? prod t); [ reflexivity | ]. now apply nth_error_repeat.
Qed.
Print Assumptions C70_forward.

(** For shapes NumPy would broadcast, the result is NumPy's, for all contents and whatever the cache held, exactly when the
    old shape is, after leading ones, a tail of the new one. *)
Theorem C70_numpy_iff : forall s t, Stretches s t -> prod t <> 0 ->
  ((forall (A : Type) (zero : A) dbg cache (x : arr A), wf x -> ashape x = s ->
      exists c y, bc_fwd zero dbg t cache x = Ok (c, y) /\ ashape y = t /\
        forall idx, valid t idx -> at_index y idx = at_index x (source_index s idx))
   <-> TailOf s t).
Proof.
  intros s t St Ht. destruct (Stretches_prod s t St) as (m & Em).
  assert (Hs : prod s <> 0) by (intro Z; rewrite Z in Em; lia).
  rewrite <- (C17_tiling_is_broadcasting_iff s t St) by lia.
  assert (G : forall (A : Type) (zero : A) dbg cache (x : arr A), wf x -> ashape x = s ->
    exists c y, bc_fwd zero dbg t cache x = Ok (c, y) /\ ashape y = t /\
      forall idx, valid t idx -> at_index y idx = nth_error (adata x) (offset t idx mod prod s)).
  { intros A zero dbg cache x W E. destruct (C70_forward A zero dbg t cache x W) as (c & y & Ey & Sy & _ & Wy & H); [ now rewrite E | ].
    exists c, y. split; [ exact Ey | ]. split; [ exact Sy | ]. intros idx V. unfold at_index. rewrite Sy.
    assert (O := valid_offset_lt t idx V). rewrite H by assumption. rewrite E, Em, Nat.div_mul by assumption. rewrite <- Em.
    now rewrite (proj2 (Nat.ltb_lt _ _)). }
  split.
  - intros H idx V. set (x := Arr s (seq 0 (prod s))).
    assert (W : wf x) by (unfold wf, x; cbn [ashape adata]; apply seq_length).
    destruct (G nat 0 true [] x W eq_refl) as (c & y & Ey & Sy & Hy). destruct (H nat 0 true [] x W eq_refl) as (c' & y' & Ey' & Sy' & Hy').
    rewrite Ey in Ey'. injection Ey' as <- <-. specialize (Hy idx V). specialize (Hy' idx V). rewrite Hy in Hy'. unfold at_index, x in Hy'. cbn [ashape adata] in Hy'.
    assert (M : offset t idx mod prod s < prod s) by now apply Nat.mod_upper_bound.
    assert (SN : forall k, k < prod s -> nth_error (seq 0 (prod s)) k = Some k).
    { intros k Hk. rewrite (nth_error_nth' _ 0) by now rewrite seq_length. now rewrite seq_nth. }
    rewrite SN in Hy' by assumption. symmetry in Hy'.
    assert (B : offset s (source_index s idx) < prod s).
    { rewrite <- (seq_length (prod s) 0). apply nth_error_Some. congruence. }
    rewrite SN in Hy' by assumption. congruence.
  - intros H A zero dbg cache x W E. destruct (G A zero dbg cache x W E) as (c & y & Ey & Sy & Hy). exists c, y. split; [ exact Ey | ]. split; [ exact Sy | ].
    intros idx V. rewrite Hy, H by assumption. unfold at_index. now rewrite E.
Qed.
Print Assumptions C70_numpy_iff.

(** If the new size is a multiple of the old one, the backward pass is the adjoint of the forward pass. *)
Theorem C70_backward_adjoint : forall dbg s t m cache output,
  prod s <> 0 -> prod t <> 0 -> prod t = m * prod s -> wf output -> ashape output = t ->
  adjoint s t (fun x => obind (bc_fwd 0%R dbg t cache x) (fun r => Ok (snd r))) (fun x g => bc_bwd 0%R Rplus dbg x output g).
Proof.
  intros dbg s t m cache output Hs Ht Em Wo Eo x0 g W0 E0 Wg Eg.
  set (bd := if list_eqb s t then adata g else accumulate Rplus 0%R (loop2 m (prod s) (fun i j => (j, nth (i * prod s + j) (adata g) 0%R))) (repeat 0%R (prod s))).
  assert (Lg : length (adata g) = prod t) by (unfold wf in Wg; congruence).
  assert (Lb : length bd = prod s).
  { unfold bd. destruct (list_eqb_spec s t) as [ -> | N ]; [ assumption | ]. now rewrite accumulate_length, repeat_length. }
  exists (Arr s bd). split.
  { unfold bc_bwd. unfold wf in *. rewrite W0, Wo, Wg, E0, Eo, Eg. rewrite !(proj2 (Nat.eqb_neq _ _)) by assumption. cbn [negb].
    assert (CT : forall (B : Type) (k : outcome B), check dbg true k = k) by (intros; destruct dbg; reflexivity). rewrite !CT.
    unfold bd. destruct (list_eqb_spec s t) as [ E | N ].
    - destruct g as [ gs gd ]. cbn [ashape adata] in *. congruence.
    - destruct (list_eqb_spec t t) as [ _ | C ]; [ | congruence ]. rewrite CT. cbv zeta. rewrite Em, Nat.div_mul by assumption. now rewrite Nat.ltb_irrefl. }
  split; [ exact Lb | ]. split; [ reflexivity | ]. intros x W E.
  destruct (C70_forward R 0%R dbg t cache x W) as (c & y & Ey & Sy & _ & Wy & Hy); [ now rewrite E | ].
  exists y. rewrite Ey. split; [ reflexivity | ]. split; [ exact Wy | ]. split; [ exact Sy | ]. cbn [adata].
  unfold wf in *. rewrite E in *. rewrite Sy in Wy.
  assert (Hy' : forall k, k < prod t -> nth k (adata y) 0%R = nth (k mod prod s) (adata x) 0%R).
  { intros k Hk. specialize (Hy k Hk). rewrite Em, Nat.div_mul in Hy by assumption. rewrite <- Em, (proj2 (Nat.ltb_lt _ _)) in Hy by assumption.
    rewrite (nth_error_nth' _ 0%R), (nth_error_nth' _ 0%R) in Hy. 2: rewrite W; now apply Nat.mod_upper_bound. 2: now rewrite Wy. congruence. }
  unfold bd. destruct (list_eqb_spec s t) as [ Est | N ].
  { f_equal. apply list_eq_nth; [ congruence | ]. intros i Hi. rewrite W in Hi. rewrite Est in Hi. specialize (Hy' i Hi).
    rewrite (nth_error_nth' _ 0%R), (nth_error_nth' _ 0%R) by congruence. rewrite Hy'. rewrite Nat.mod_small; congruence. }
  apply (adjoint_gather (fun k => Some (k mod prod s)) (fun i => map (fun q => q * prod s + i) (seq 0 m)) (prod s) (prod t)).
  - assumption.
  - assumption.
  - assumption.
  - now rewrite accumulate_length, repeat_length.
  - assumption.
  - intros i Hi. assert (Hi2 : i < length (repeat 0%R (prod s))) by now rewrite repeat_length.
    erewrite nth_error_nth by (apply accumulate_at; exact Hi2).
    rewrite filter_copies by assumption. rewrite nth_repeat. rewrite map_map. rewrite fold_left_Rplus. apply Rplus_0_l.
  - intros k i Hk [= <-]. now apply Nat.mod_upper_bound.
  - intros i Hi. apply FinFun.Injective_map_NoDup; [ | apply seq_NoDup ]. intros a b Eab. nia.
  - intros i k Hi. rewrite in_map_iff. split.
    + intros (q & <- & Hq). apply in_seq in Hq. split; [ nia | ]. f_equal. rewrite Nat.add_comm, Nat.mod_add by assumption. now apply Nat.mod_small.
    + intros (Hk & [= Hm]). exists (k / prod s). rewrite Em in Hk. destruct (divmod_lt _ _ _ Hk) as (Hq & Hr & Ek). split; [ rewrite <- Hm; now symmetry | apply in_seq; lia ].
Qed.
Print Assumptions C70_backward_adjoint.

(** If it is not, two runs of one operator can differ although the input is the same. *)
Theorem C70_remainder_refuted :
  exists c1 y1 c2 y2 c3 y3,
    bc_fwd 0 true [4] [] (Arr [2] [7; 8]) = Ok (c1, y1) /\ bc_fwd 0 true [4] c1 (Arr [3] [1; 2; 3]) = Ok (c2, y2) /\
    bc_fwd 0 true [4] [] (Arr [3] [1; 2; 3]) = Ok (c3, y3) /\ adata y2 = [1; 2; 3; 8] /\ adata y3 = [1; 2; 3; 0].
Proof. do 6 eexists. split; [ reflexivity | ]. split; [ reflexivity | ]. split; [ reflexivity | ]. split; reflexivity. Qed.
Print Assumptions C70_remainder_refuted.

(** An empty input: a debug build stops; a release build divides by zero, unless the shape is the same. *)
Theorem C70_empty : forall (A : Type) (zero : A) t cache (x : arr A), wf x -> prod (ashape x) = 0 ->
  bc_fwd zero true t cache x = Abort /\
  (bc_fwd zero false t cache x = UB <-> t <> ashape x).
Proof.
  intros A zero t cache x W Hs. unfold bc_fwd, check. unfold wf in W. rewrite W, Hs. cbn [Nat.eqb negb]. split; [ reflexivity | ].
  destruct (list_eqb_spec t (ashape x)) as [ E | N ]; split; intros H; try congruence; reflexivity.
Qed.
Print Assumptions C70_empty.

Module Case.
(* a bias of shape (1 3) over two rows *)
Example forward_case : bc_fwd 0 true [2; 3] [] (Arr [1; 3] [1; 2; 3]) = Ok ([1; 2; 3; 1; 2; 3], Arr [2; 3] [1; 2; 3; 1; 2; 3]).
Proof. reflexivity. Qed.
Example backward_case : bc_bwd 0 Nat.add true (Arr [1; 3] [1; 2; 3]) (Arr [2; 3] [1; 2; 3; 1; 2; 3]) (Arr [2; 3] [1; 2; 3; 10; 20; 30]) = Ok (Arr [1; 3] [11; 22; 33]).
Proof. reflexivity. Qed.
(* a column over three columns: not what NumPy gives *)
Example column_case : bc_fwd 0 true [2; 3] [] (Arr [2; 1] [1; 2]) = Ok ([1; 2; 1; 2; 1; 2], Arr [2; 3] [1; 2; 1; 2; 1; 2]).
Proof. reflexivity. Qed.
Example tail_case : TailOf [1; 3] [2; 3].
Proof. exists 1. reflexivity. Qed.
End Case.
