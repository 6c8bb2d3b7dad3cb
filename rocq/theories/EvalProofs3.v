(** Proofs about fit and evaluate: the tensors they bind, and counting the batches trained on. *)
From Coq Require Import List Arith Lia Bool PeanoNat NArith ZArith Reals Lra.
From Coquelicot Require Import Rcomplements Rbar Hierarchy Derive.
From Verif Require Import FitModel FitSpec.
From Verif Require Import ListBase Loops TensorModel TensorSpec ArrayModel GraphModel GraphSpec GraphProofs GraphProofs3 GradSpec OpModel CalcSpec DeclModel NetModel LearnModel OptModel OptSpec OptProofs2 OptProps TrainSpec TrainProofs.
From Verif Require Import FittingSpec FittingProofs EpochModel EpochProofs EpochProofs2 EvalModel EvalProofs EvalProofs2.
Import ListNotations.
Local Open Scope nat_scope.

Lemma filter_all {A} (f : A -> bool) l : (forall x, In x l -> f x = true) -> filter f l = l.
Proof. induction l as [|a l IH]; intros H; [reflexivity|]. cbn. rewrite (H a) by now left. f_equal. apply IH. intros x Hx. apply H. now right. Qed.
Lemma filter_none {A} (f : A -> bool) l : (forall x, In x l -> f x = false) -> filter f l = [].
Proof. induction l as [|a l IH]; intros H; [reflexivity|]. cbn. rewrite (H a) by now left. apply IH. intros x Hx. apply H. now right. Qed.

Lemma early k tr : filter (fun i => i <=? tr) (seq 0 k) = seq 0 (Nat.min k (S tr)).
Proof.
  replace (seq 0 k) with (seq 0 (Nat.min k (S tr)) ++ seq (Nat.min k (S tr)) (k - Nat.min k (S tr))).
  - rewrite filter_app, filter_all, filter_none, app_nil_r; [reflexivity| |]; intros x Hx; apply in_seq in Hx; [apply Nat.leb_gt|apply Nat.leb_le]; lia.
  - pose proof (seq_app (Nat.min k (S tr)) (k - Nat.min k (S tr)) 0) as E. cbn [Nat.add] in E. rewrite <- E. f_equal. lia.
Qed.
Lemma late k tr : filter (fun i => tr <? i) (seq 0 k) = seq (S tr) (k - S tr).
Proof.
  replace (seq 0 k) with (seq 0 (Nat.min k (S tr)) ++ seq (Nat.min k (S tr)) (k - Nat.min k (S tr))).
  - rewrite filter_app, filter_none, filter_all; [|intros x Hx; apply in_seq in Hx; apply Nat.ltb_lt; lia|intros x Hx; apply in_seq in Hx; apply Nat.ltb_ge; lia].
    cbn [app]. destruct (Nat.le_gt_cases k (S tr)) as [C|C].
    + replace (k - Nat.min k (S tr)) with 0 by lia. replace (k - S tr) with 0 by lia. reflexivity.
    + now rewrite Nat.min_r by lia.
  - pose proof (seq_app (Nat.min k (S tr)) (k - Nat.min k (S tr)) 0) as E. cbn [Nat.add] in E. rewrite <- E. f_equal. lia.
Qed.

Lemma lessons_closed samples b training k : 0 < samples / b ->
  lessons_before samples b training k = k / (samples / b) * Nat.min (samples / b) (S training) + Nat.min (k mod (samples / b)) (S training).
Proof.
  set (n := samples / b). intros Hn. induction k as [|k IH].
  - unfold lessons_before. cbn [seq filter length]. rewrite Nat.div_0_l, Nat.mod_0_l by lia. reflexivity.
  - rewrite lessons_S, IH. fold n. pose proof (Nat.div_mod k n ltac:(lia)) as E. pose proof (Nat.mod_upper_bound k n ltac:(lia)) as U.
    set (q := k / n) in *. set (r := k mod n) in *. destruct (Nat.eq_dec (S r) n) as [C|C].
    + assert (D : S k / n = S q) by (symmetry; apply (Nat.div_unique _ _ _ 0); nia). assert (D' : S k mod n = 0) by (symmetry; apply (Nat.mod_unique _ _ (S q)); nia).
      rewrite D, D'. destruct (Nat.leb_spec r training); cbn [Nat.min]; nia.
    + assert (D : S k / n = q) by (symmetry; apply (Nat.div_unique _ _ _ (S r)); nia). assert (D' : S k mod n = S r) by (symmetry; apply (Nat.mod_unique _ _ q); nia).
      rewrite D, D'. destruct (Nat.leb_spec r training); lia.
Qed.

(** fit and evaluate bind two new tensors and set the phase *)
Lemma started act s ts ns n0 p sess w who o b (out := graph act n0 (last ns (Leaf 0))) (t := last ts []) : p <> 0 -> ready sess out (W (set_training (gr w) true) (ctx w)) who -> (forall v, In (v, true) sess -> stocked (alg o) w v) ->
  exists tx ty w0, shape tx = b :: s /\ shape ty = b :: t /\ EpochProofs2.state act s ts ns n0 p sess b tx ty w0 o w0 /\ ctx w0 = ctx w /\
    (forall v, vars (gr w0) v = vars (gr w) v) /\ vobjs (gr w0) = vobjs (gr w) /\
    (forall v f, In (v, f) sess -> weights w0 v = weights w v /\ forall i, memory w0 v i = memory w v i) /\
    forall T bt (f : tensor -> tensor -> O T), (do tx' <- new_bound 0 (b :: s); do ty' <- new_bound p (b :: t); do _ <- on_graph (modify (fun s => set_training s bt)); f tx' ty') w = f tx ty (phased bt w0).
Proof.
  intros Hp Rd St.
  set (zs := [(0, (b :: s, repeat 0%R (prod (b :: s)))); (p, (b :: t, repeat 0%R (prod (b :: t))))] : list (nat * val R)).
  set (s0 := set_training (gr w) true) in *. set (w0 := OptModel.W (bound zs s0) (ctx w)).
  set (h := length (hp (gr w))). set (tx := mkT (b :: s) h). set (ty := mkT (b :: t) (S h)).
  assert (Ll : forall v f r, In (v, f) sess -> In r (foot w v) -> r < h) by (intros v f r Hv Hr; exact (proj1 (t_live _ _ (o_tidy _ _ (r_ord _ _ _ _ Rd) v f Hv) r Hr))).
  destruct (bound_keeps zs s0) as (BV & BO & BT & BL & BF).
  exists tx, ty, w0. split; [reflexivity|]. split; [reflexivity|]. split; [|split; [reflexivity|split; [|split; [|split]]]].
  - constructor; [|exact St|reflexivity|auto].
    exists (who_new (who_new who h OLeaf) (S h) OLeaf), (repeat 0%R (prod (b :: s))), (repeat 0%R (prod (b :: t))).
    pose proof (ready_bound1 sess out s0 (ctx w) who 0 (b :: s, repeat 0%R (prod (b :: s))) Rd) as R1.
    pose proof (ready_bound1 sess out _ (ctx w) _ p (b :: t, repeat 0%R (prod (b :: t))) R1) as R2.
    assert (Eh : length (hp s0) = h) by reflexivity.
    assert (E1 : length (hp s0 ++ [repeat 0%R (prod (b :: s))]) = S h) by (rewrite app_length, Eh; cbn [length]; lia).
    cbn [set_holders set_hp hp fst snd] in R2. rewrite E1, Eh in R2.
    split; [|split].
    + unfold w0, zs. cbn [bound fst snd]. unfold w0, zs. cbn [set_holders set_hp hp]. rewrite E1, Eh. exact R2.
    + constructor; unfold w0, zs; cbn [gr ctx bound set_holders set_hp holders hp fst snd tx ty ref]; fold s0.
      * unfold fupd. rewrite (proj2 (Nat.eqb_neq 0 p)) by lia. cbn [Nat.eqb]. reflexivity.
      * unfold fupd. rewrite Nat.eqb_refl, E1. reflexivity.
      * rewrite nth_error_app1 by (rewrite E1; lia). rewrite nth_error_app2, Eh, Nat.sub_diag by (rewrite Eh; lia). reflexivity.
      * rewrite nth_error_app2, E1, Nat.sub_diag by (rewrite E1; lia). reflexivity.
      * lia.
      * unfold who_new. rewrite (proj2 (Nat.ltb_lt h (S h))), Nat.ltb_irrefl by lia. reflexivity.
      * unfold who_new. rewrite Nat.ltb_irrefl. reflexivity.
      * intros v f Hv Q. apply (Ll v f _ Hv) in Q. lia.
      * intros v f Hv Q. apply (Ll v f _ Hv) in Q. lia.
    + rewrite !repeat_length. split; reflexivity.
  - intros v. unfold w0. cbn [gr]. now rewrite BV.
  - exact BO.
  - intros v f Hv. assert (Eh : forall r, In r (foot w v) -> nth r (hp (gr w0)) [] = nth r (hp (gr w)) []) by (intros r Hr; apply BF; exact (Ll v f r Hv Hr)).
    split.
    + unfold weights, OptSpec.elements. replace (vars (gr w0) v) with (vars (gr w) v) by (unfold w0; cbn [gr]; now rewrite BV). apply Eh. right. now left.
    + intros i. unfold memory, OptSpec.elements. apply map_ext_in. intros t0 Ht0. f_equal. apply Eh. right. right. now apply in_map.
  - intros T bt f. unfold obnd, new_bound, obnd, on_graph, new_tensor, heaply, alloc, modify, oret. cbn [gr ctx set_hp set_holders hp holders fst snd].
    rewrite app_length. cbn [length]. rewrite Nat.add_1_r. fold h. unfold w0, zs, phased. cbn [bound fst snd set_hp set_holders hp holders gr ctx]. rewrite app_length. cbn [length]. rewrite Nat.add_1_r. reflexivity.
Qed.
