(** Proofs about fitting: the losses of FittingSpec.v obey the law of FittingProofs.v. *)
From Coq Require Import List Arith Lia Bool PeanoNat NArith ZArith Reals Lra.
From Coquelicot Require Import Rcomplements Rbar Hierarchy Derive.
From Coquelicot Require AutoDerive.
From Verif Require Import PairSpec PairProps XentSpec XentProps.
From Verif Require Import ListBase Loops TensorModel TensorSpec ArrayModel LayerModel LayerSpec LayerProofs GraphModel GraphSpec GraphProofs GraphProofs3 GradSpec GradProofs OpModel CalcSpec
  OpProofs OpProps GradProps ComplexModel LossModel LossSpec LossProps DeclModel NetModel NetSpec ValueModel ValueSpec NetProofs3 NetProps ValueProofs3
  ValueProps LearnModel LearnSpec LearnProofs LearnProofs2 LearnProofs3 LearnProps OptModel OptSpec OptProofs2 OptProps TrainSpec TrainProofs.
From Verif Require Import FittingSpec FittingProofs.
Import ListNotations.
Local Open Scope nat_scope.

Lemma spread_pred h target y : spread_of h target y = spread h target (pred_of y).
Proof. destruct y as [w|]; [reflexivity|]. unfold spread. now destruct target. Qed.
Lemma summed_pred h target y : summed_of h target y = summed h target (pred_of y).
Proof. destruct y as [w|]; [reflexivity|]. unfold summed. now destruct target. Qed.
Lemma entry_pred y j : entry y j = nth j (pred_of y) 0%R.
Proof. destruct y as [w|]; [reflexivity|]. now destruct j. Qed.

Lemma entropy_ext rows n lab y y' : (forall i, y i = y' i) -> entropy rows n lab y = entropy rows n lab y'.
Proof.
  intros H. unfold entropy. do 2 f_equal. unfold tab. apply map_ext. intros i. unfold share, row_exp. rewrite H. do 4 f_equal. unfold tab. apply map_ext. intros j. now rewrite H.
Qed.

Ltac fresh_ids act e := intros act e p; pose proof (graph_tree act e 10) as T;
  assert (I : forall i, In i (ids (graph act 10 e)) -> 10 <= i) by (intros i Hi; apply (graph_ids act e 10 i) in Hi; lia);
  cbn [ids app Nat.add];
  repeat (constructor; [cbn [In app]; intros Q; repeat (destruct Q as [Q|Q]; [lia|]); try (apply I in Q; lia); contradiction|]); exact T.
Ltac found := intros l r; let H := fresh in match goal with |- exists k, At ?e k _ => assert (H := At_root e) end; repeat (first [apply At_un in H|apply At_right in H]); eexists; exact H.

Lemma difference_law dbg eps loss h wgt c : In (loss, h, wgt, c) difference_losses -> law dbg eps 10 (of_differences loss h wgt c).
Proof.
  intros Hin. constructor; cbn [of_differences term value objective near domain].
  - cbn [difference_losses In] in Hin. destruct Hin as [E|[E|[E|[E|[]]]]]; injection E as <- _ _ _; unfold squared_loss, mean_squared_error, abs_loss, mean_absolute_error, e_minus; fresh_ids act e.
  - cbn [difference_losses In] in Hin. destruct Hin as [E|[E|[E|[E|[]]]]]; injection E as <- _ _ _; unfold squared_loss, mean_squared_error, abs_loss, mean_absolute_error, e_minus; found.
  - intros sh f f' x g l _ H. exact H.
  - intros p tgt out s who target pred Tt So Go Ro Tr Hids Hh Hw As Ht Lt Ns Ep Dm. exists (map2 Rminus target pred). split; [intros El; rewrite map2_length; lia|].
    eapply XentProps.trained_ext; [|apply (C58_training dbg eps loss h wgt c 0 p tgt out s who target pred); assumption].
    intros y. cbv beta. now rewrite spread_pred.
Qed.

Lemma pair_law dbg eps lo up loss h wgt c dom : (0 < lo < up)%R -> In (loss, h, wgt, c, dom) (pair_losses dbg lo up) -> law dbg eps 10 (of_pairs loss h wgt c dom).
Proof.
  intros Hlo Hin. constructor; cbn [of_pairs term value objective near domain].
  - cbn [pair_losses In] in Hin. destruct Hin as [E|[E|[E|[]]]]; injection E as <- _ _ _ _; unfold cross_entropy, hinge_loss, mean_squared_logarithmic_error, e_minus; fresh_ids act e.
  - cbn [pair_losses In] in Hin. destruct Hin as [E|[E|[E|[]]]]; injection E as <- _ _ _ _; unfold cross_entropy, hinge_loss, mean_squared_logarithmic_error, e_minus; found.
  - intros sh f f' x g l _ H. exact H.
  - intros p tgt out s who target pred Tt So Go Ro Tr Hids Hh Hw As Ht Lt Ns Ep Dm. exists target. split; [reflexivity|].
    eapply XentProps.trained_ext; [|apply (C61_training dbg eps lo up loss h wgt c dom 0 p tgt out s who target pred); assumption].
    intros y. cbv beta. now rewrite summed_pred.
Qed.

Lemma score_law dbg eps smooth : (0 < eps)%R -> law dbg eps 10 (of_scores dbg eps smooth).
Proof.
  intros He. constructor; cbn [of_scores term value objective near domain].
  - unfold cross_entropy_loss. fresh_ids act e.
  - unfold cross_entropy_loss. found.
  - intros sh f f' x g l Hf (dy & D & Q). exists dy. split; [|exact Q]. intros j Hj. eapply is_derive_ext; [|exact (D j Hj)]. intros z. cbv beta. now rewrite Hf.
  - intros p tgt out s who target pred Tt So Go Ro Tr Hids Hh Hw As Ht Lt Ns Ep [Hm Oh]. exists target. split; [reflexivity|].
    destruct (shape tgt) as [|q sh] eqn:Es; [congruence|]. rewrite <- Es in *.
    assert (Sh : exists P l, shape tgt = P ++ [classes (shape tgt)] /\ prod P = rows_of (shape tgt) /\ shape tgt = hd 0 (shape tgt) :: l).
    { exists (removelast (shape tgt)), sh. split; [apply app_removelast_last; assumption|]. split; [reflexivity|]. rewrite Es. reflexivity. }
    pose proof (C60_one_hot dbg eps smooth 0 p (rows_of (shape tgt)) (classes (shape tgt)) (hd 0 (shape tgt)) tgt out s who target pred He) as H. cbv zeta in H.
    specialize (H Tt So Go Ro Tr Hids Hh Hw Ht Lt Sh Hm Oh Ep).
    destruct H as (t & s1 & s2 & who2 & R1 & V1 & R2 & HG & Rest). exists t, s1, s2, who2. split; [exact R1|]. split; [exact V1|]. split; [exact R2|]. split; [|exact Rest].
    intros k v i Hk Htr Hi x0 Hx. destruct (HG k v i Hk Htr Hi Hx) as (l & D & dy & D' & N). exists l. split.
    + eapply is_derive_ext; [|exact D]. intros z. cbv beta. f_equal. apply entropy_ext. intros j. apply entry_pred.
    + exists dy. split; [|exact N]. intros j Hj. eapply is_derive_ext; [|exact (D' j Hj)]. intros z. cbv beta. now rewrite entry_pred.
Qed.

Lemma every_law dbg eps smooth lo up L : (0 < eps)%R -> (0 < lo < up)%R -> In L (comparisons dbg eps smooth lo up) -> law dbg eps 10 L.
Proof.
  intros He Hl H. cbn [comparisons In] in H. destruct H as [<-|[<-|[<-|[<-|[<-|[<-|[<-|[<-|[]]]]]]]]].
  1-4: apply difference_law; cbn [difference_losses In]; tauto.
  1-3: apply (pair_law dbg eps lo up); [exact Hl|]; cbn [pair_losses In]; tauto.
  now apply score_law.
Qed.
