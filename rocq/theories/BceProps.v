(** Property C62: binary_cross_entropy_loss. *)
From Coq Require Import List Arith Lia Bool PeanoNat Reals Lra.
From Verif Require Import ListBase TensorModel TensorSpec GraphModel GraphSpec GraphProofs GraphProofs2 GradSpec LayerSpec CalcSpec GraphProps OpModel OpSpec LossModel LossSpec
  PairSpec PairProofs BceSpec BceProofs.
Import ListNotations.
Local Open Scope nat_scope.

(** A model out that is an operator, compared with a target in place holder p for the first time; the loss has fresh ids. *)
Definition first_comparison (n p : nat) (tgt : tensor) (out : expr R) (s : st R) (who : nat -> owner) (target pred : list R) : Prop :=
  (exists m, node_id out = Some m) /\ consistent out /\ runnable 0%R 1%R Rplus Rmult out s /\ separate out s who /\
  (forall i, i < 12 -> ~ In (i + n) (ids out) /\ own s (i + n) = None) /\
  holders s p = Some tgt /\ who (ref tgt) = OLeaf /\ nth_error (hp s) (ref tgt) = Some target /\ length target = prod (shape tgt) /\
  evalR (env_of s) out = Some (shape tgt, pred).

(** C62.  The two differences ones - ground_truth and ones - prediction end up in one storage, with 1 - t - y in it.  Its logarithm is the
    one taken, and the loss is the mean of - (t ln y + (1 - t - y) ln (1 - t - y)), where logarithms of positive numbers are taken. *)
Theorem C62_value dbg n p tgt out s who target pred : first_comparison n p tgt out s who target pred ->
  exists t t6 s', run 0%R 1%R Rplus Rmult dbg (binary_cross_entropy_loss dbg n (EHold p) out) s = Ok (t, s') /\
    (* the argument of the second logarithm *)
    cache s' (6 + n) = Some t6 /\ val_of (hp s') t6 = (shape tgt, map2 (fun t y => 1 - t - y)%R target pred) /\
    ((forall i, i < length target -> (0 < nth i pred 0 /\ nth i target 0 + nth i pred 0 < 1)%R) ->
     val_of (hp s') t = ([1], [(/ elements (shape tgt) * summed merged_score target pred)%R])) /\
    nth_error (hp s') (ref tgt) = Some target.
Proof.
  intros ((m & Nid) & Co & Rn & So & Fr & Hh & Hw & Ht & Lt & Ep).
  destruct (bce_run dbg n p tgt out m s who target pred ltac:(intros c ->; discriminate Nid) Nid Co Rn So Fr Hh Hw Ht Lt Ep) as (t & t6 & s' & R1 & C6 & V6 & V & F).
  exists t, t6, s'. split; [exact R1|]. split; [exact C6|]. split; [exact V6|]. split; [intros _; exact V|exact F].
Qed.
Print Assumptions C62_value.

(** So wherever the label is 1, or just exceeds 1 - y, the logarithm of a negative number is taken: for label 1 of - y. *)
Theorem C62_negative_logarithm dbg n p tgt out s who target pred i : first_comparison n p tgt out s who target pred ->
  i < length target -> nth i target 0%R = 1%R -> (0 < nth i pred 0)%R ->
  exists t t6 s', run 0%R 1%R Rplus Rmult dbg (binary_cross_entropy_loss dbg n (EHold p) out) s = Ok (t, s') /\
    cache s' (6 + n) = Some t6 /\ (nth i (snd (val_of (hp s') t6)) 0 = - nth i pred 0 /\ - nth i pred 0 < 0)%R.
Proof.
  intros H Hi Ht Hy. destruct (C62_value dbg _ _ _ _ _ _ _ _ H) as (t & t6 & s' & R1 & C6 & V6 & _).
  exists t, t6, s'. split; [exact R1|]. split; [exact C6|]. rewrite V6. cbn [snd].
  destruct H as (_ & _ & [Zo _] & _ & _ & _ & _ & _ & Lt & Ep).
  assert (Vo : forall c, out <> EVal c) by (intros c ->; discriminate Ep).
  destruct (Zo None out (At_root out) Vo) as (w & Ew & Lw & _). assert (w = (shape tgt, pred)) by (unfold evalR in Ep; congruence). subst w. unfold sized in Lw. cbn [fst snd] in Lw.
  rewrite (nth_map2 _ _ _ _ 0%R 0%R 0%R) by lia. rewrite Ht. split; lra.
Qed.
Print Assumptions C62_negative_logarithm.

(** With labels 0, a loss that is meant to grow without bound as the predictions go to 1 never exceeds 1/e. *)
Lemma entropy_term_bound u : (0 < u -> - (u * ln u) <= exp (-1))%R.
Proof.
  intros Hu. set (v := ln u). assert (E : u = exp v) by (unfold v; now rewrite exp_ln). pose proof (exp_ineq1_le (-1 - v)) as B.
  assert (P : exp (-1) = (exp (-1 - v) * u)%R) by (rewrite E, <- exp_plus; f_equal; lra).
  rewrite P. replace (- (u * v))%R with (- v * u)%R by ring. apply Rmult_le_compat_r; lra.
Qed.

Theorem C62_bounded_for_label_0 dbg n p tgt out s who target pred : first_comparison n p tgt out s who target pred ->
  (forall i, i < length target -> (nth i target 0 = 0 /\ 0 < nth i pred 0 < 1)%R) ->
  exists t s' x, run 0%R 1%R Rplus Rmult dbg (binary_cross_entropy_loss dbg n (EHold p) out) s = Ok (t, s') /\ val_of (hp s') t = ([1], [x]) /\
    (x = / elements (shape tgt) * summed (fun _ y => - ((1 - y) * ln (1 - y))) target pred /\ x <= exp (-1))%R.
Proof.
  intros H Hl. destruct (C62_value dbg _ _ _ _ _ _ _ _ H) as (t & _ & s' & R1 & _ & _ & V & _).
  exists t, s', (/ elements (shape tgt) * summed merged_score target pred)%R. split; [exact R1|].
  split; [apply V; intros i Hi; destruct (Hl i Hi) as [-> ?]; lra|].
  destruct H as (_ & _ & [Zo _] & _ & _ & _ & _ & _ & Lt & Ep).
  assert (Vo : forall c, out <> EVal c) by (intros c ->; discriminate Ep).
  destruct (Zo None out (At_root out) Vo) as (w & Ew & Lw & Nw). assert (w = (shape tgt, pred)) by (unfold evalR in Ep; congruence). subst w. unfold sized in Lw. cbn [fst snd] in Lw, Nw.
  assert (G : forall target pred, (forall i, i < length target -> (nth i target 0 = 0 /\ 0 < nth i pred 0 < 1)%R) ->
    (summed merged_score target pred = summed (fun _ y => - ((1 - y) * ln (1 - y))) target pred /\ summed merged_score target pred <= INR (length target) * exp (-1))%R).
  { clear. pose proof (exp_pos (-1)) as E0. induction target as [|x l IH]; intros [|y pred] Hl; [unfold summed; cbn; split; [reflexivity|lra]|unfold summed; cbn; split; [reflexivity|lra]|exfalso; specialize (Hl 0 ltac:(cbn; lia)); cbn in Hl; lra|].
    destruct (IH pred) as [E B]; [intros i Hi; exact (Hl (S i) ltac:(cbn [length]; lia))|]. destruct (Hl 0 ltac:(cbn [length]; lia)) as [H0 Hy]. cbn [nth] in H0, Hy. subst x.
    unfold summed in *. cbn [map2 rsum length]. rewrite E, S_INR. assert (M : merged_score 0 y = (- ((1 - y) * ln (1 - y)))%R) by (unfold merged_score; replace (1 - 0 - y)%R with (1 - y)%R by ring; ring).
    split; [now rewrite M|]. rewrite M. rewrite E in B. pose proof (entropy_term_bound (1 - y) ltac:(lra)). lra. }
  destruct (G target pred Hl) as [E B]. split; [now rewrite E|]. rewrite Lt in B. unfold elements.
  assert (Pp : (0 < INR (prod (shape tgt)))%R). { apply lt_0_INR. rewrite <- Lw. destruct pred; [easy|cbn; lia]. }
  apply (Rmult_le_reg_l (INR (prod (shape tgt)))); [exact Pp|]. rewrite <- Rmult_assoc, Rinv_r by lra. lra.
Qed.
Print Assumptions C62_bounded_for_label_0.

(** A model with outputs 1/2 and 1/4, compared with labels 0 and 0, and with labels 1 and 0. *)
Module Case.
Definition out : expr R := EUn 0 op_negative (EVar 0).
Definition s (labels : list R) : st R :=
  St [[-(1/2); -(1/4)]; [0; 0]; labels]%R (fun _ => None) (fun _ => Obj None None None) (fun _ => VObj true true 0%R 0%R)
     (fun _ => VState (mkT [1; 2] 0) (mkT [1; 2] 1)) (fun _ => Some (mkT [1; 2] 2)) (fun _ => None) (fun _ _ => None) true [].
Definition who (r : nat) : owner := match r with 1 => OGrad 0 | _ => OLeaf end.
Lemma ready labels : length labels = 2 -> first_comparison 1 0 (mkT [1; 2] 2) out (s labels) who labels [- - (1/2); - - (1/4)]%R.
Proof.
  intros L. unfold first_comparison. split; [now exists 0|]. split; [|split; [|split; [|split]]].
  - intros k1 k2 x y n A1 A2. apply At_all in A1, A2. cbn in A1, A2.
    repeat (destruct A1 as [A1|A1]; [injection A1 as <- <-|]); [..|destruct A1]; (repeat (destruct A2 as [A2|A2]; [injection A2 as <- <-|]); [..|destruct A2]); cbn; congruence.
  - split.
    + intros k x H _. apply At_all in H. cbn in H.
      repeat (destruct H as [H|H]; [injection H as <- <-; eexists; (split; [cbv -[Rplus Rmult Ropp IZR Rinv Rdiv]; reflexivity|]); (split; [reflexivity|discriminate])|]). destruct H.
    + intros k n l r H. apply At_all in H. cbn in H. repeat (destruct H as [H|H]; [discriminate H|]). destruct H.
  - split; [|split; [|split; [|split]]]; try discriminate.
    + intros k v H. apply At_all in H. cbn in H. repeat (destruct H as [H|H]; [try discriminate H; injection H as <- <-; cbn; repeat split; lia|]). destruct H.
    + intros k p t H. apply At_all in H. cbn in H. repeat (destruct H as [H|H]; [discriminate H|]). destruct H.
    + intros k t H. apply At_all in H. cbn in H. repeat (destruct H as [H|H]; [discriminate H|]). destruct H.
  - intros i _. split; [|reflexivity]. cbn. lia.
  - split; [reflexivity|]. split; [reflexivity|]. split; [reflexivity|]. split; [exact L|]. cbv -[Rplus Rmult Ropp IZR Rinv Rdiv]. reflexivity.
Qed.

(** label 1, prediction 1/2: the logarithm of -1/2 *)
Example negative_logarithm : exists t t6 s', run 0%R 1%R Rplus Rmult true (binary_cross_entropy_loss true 1 (EHold 0) out) (s [1; 0]%R) = Ok (t, s') /\
    cache s' 7 = Some t6 /\ (nth 0 (snd (val_of (hp s') t6)) 0 = - - - (1/2) /\ - - - (1/2) < 0)%R.
Proof. apply (C62_negative_logarithm true 1 0 (mkT [1; 2] 2) out (s [1; 0]%R) who [1; 0]%R [- - (1/2); - - (1/4)]%R 0 (ready [1; 0]%R eq_refl)); cbn; [lia|reflexivity|lra]. Qed.
Example bounded : exists t s' x, run 0%R 1%R Rplus Rmult true (binary_cross_entropy_loss true 1 (EHold 0) out) (s [0; 0]%R) = Ok (t, s') /\ val_of (hp s') t = ([1], [x]) /\
    (x = / elements [1; 2]%nat * summed (fun _ y => - ((1 - y) * ln (1 - y))) [0; 0] [- - (1/2); - - (1/4)] /\ x <= exp (-1))%R.
Proof. apply (C62_bounded_for_label_0 true 1 0 (mkT [1; 2] 2) out (s [0; 0]%R) who [0; 0]%R [- - (1/2); - - (1/4)]%R (ready [0; 0]%R eq_refl)). intros [|[|i]] Hi; cbn [length] in Hi; try (exfalso; lia); cbn [nth]; lra. Qed.
End Case.

(** binary_cross_entropy_loss is not the mean binary cross entropy: for the outputs 1/2 and 1/4 and labels 0 it is less. *)
Theorem C62_cross_entropy_refuted : exists n p tgt out s who target pred t s' x,
  first_comparison n p tgt out s who target pred /\ (forall i, i < length target -> (nth i target 0 = 0 /\ 0 < nth i pred 0 < 1)%R) /\
  run 0%R 1%R Rplus Rmult true (binary_cross_entropy_loss true n (EHold p) out) s = Ok (t, s') /\ val_of (hp s') t = ([1], [x]) /\
  (x < / elements (shape tgt) * summed binary_score target pred)%R.
Proof.
  destruct Case.bounded as (t & s' & x & R1 & V & E & _).
  exists 1, 0, (mkT [1; 2] 2), Case.out, (Case.s [0; 0]%R), Case.who, [0; 0]%R, [- - (1/2); - - (1/4)]%R, t, s', x.
  split; [exact (Case.ready [0; 0]%R eq_refl)|]. split; [intros [|[|i]] Hi; cbn [length] in Hi; try (exfalso; lia); cbn [nth]; lra|]. split; [exact R1|]. split; [exact V|].
  rewrite E. change (shape (mkT [1; 2] 2)) with [1; 2]. unfold elements. apply Rmult_lt_compat_l; [cbn; lra|]. unfold summed, binary_score. cbn [map2 rsum].
  pose proof (ln_increasing (1 - - - (1 / 2)) 1 ltac:(lra) ltac:(lra)) as A1. pose proof (ln_increasing (1 - - - (1 / 4)) 1 ltac:(lra) ltac:(lra)) as A2. rewrite ln_1 in A1, A2. nra.
Qed.
Print Assumptions C62_cross_entropy_refuted.
