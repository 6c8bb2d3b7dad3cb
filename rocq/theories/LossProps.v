(** Properties of training with the losses. *)
From Coq Require Import List Arith Lia Bool PeanoNat Reals Lra.
From Coquelicot Require Import Rcomplements Hierarchy Derive.
From Coquelicot Require AutoDerive.
From Verif Require Import ListBase TensorModel TensorSpec TensorProofs TensorProofs2 ArrayModel GraphModel GraphSpec GraphProofs GraphProofs2
  GraphProofs3 GraphProofs4 GradSpec GradProofs GradProofs2 GradProofs3 LayerSpec CalcSpec CalcProofs CalcProofs2 CalcProofs3 GraphProps OpModel OpSpec OpProofs
  OpRules OpProofs2 OpProofs5 OpProps GradProps ComplexModel LossModel LossSpec LossProofs LossProofs2 LossProofs3 LossProofs4.
Import ListNotations.
Local Open Scope nat_scope.

(** The four losses of a difference: function, what it sums up, the factor of the sum in the value, and the factor of the sum whose
    derivative backward computes. *)
Definition difference_losses : list ((nat -> expr R -> expr R -> expr R) * (R -> R) * (list nat -> R) * (list nat -> R)) :=
  [(squared_loss, fun d => d * d, fun _ => 1, fun _ => 1);
   (mean_squared_error, fun d => d * d, fun s => / elements s, fun s => / samples s);
   (abs_loss, Rabs, fun _ => 1, fun _ => 1);
   (mean_absolute_error, Rabs, fun s => / elements s, fun s => / samples s)]%R.

(** C58.  A model out, compared with a target in place holder p: run returns the loss, backward( 1 ) gives every element of every variable
    the derivative of c times the sum of h( target - output ) plus the regularisers' cost.  Afterwards the user's target tensor holds
    target - output; no other tensor of the user's has changed; and what the theorem needs of the storages holds again. *)
Theorem C58_training dbg eps loss h wgt c n p tgt out s who target pred : In (loss, h, wgt, c) difference_losses ->
  trainable_tree out s -> separate out s who -> graded out s -> right_everywhere dbg (env_of s) out -> training s = true ->
  NoDup (ids (loss n (EHold p) out)) -> holders s p = Some tgt -> who (ref tgt) = OLeaf -> aside s out (ref tgt) ->
  nth_error (hp s) (ref tgt) = Some target -> length target = prod (shape tgt) -> shape tgt <> [] ->
  evalR (env_of s) out = Some (shape tgt, pred) ->
  (forall i, i < length target -> ex_derive h (nth i target 0 - nth i pred 0)%R) ->
  trained dbg eps (loss n (EHold p) out) out s who (ref tgt) (wgt (shape tgt) * spread h target pred)%R (map2 Rminus target pred)
    (fun y => c (shape tgt) * spread_of h target y)%R exactly.
Proof.
  intros Hin Tt So Go Ro Tr Hids Hh Hw As Ht Lt Nsh Ep Hd.
  pose proof Tt as (Vo & _ & Zo & _ & _).
  destruct (Zo None out (At_root out) Vo) as (w & Ew & Lw & Nw). assert (Q : w = (shape tgt, pred)) by (unfold evalR in Ep; congruence). subst w.
  cbn [fst snd] in Lw, Nw.
  set (d := map2 Rminus target pred) in *.
  assert (Ln : length d = prod (shape tgt)) by (unfold d; rewrite map2_length; lia).
  assert (Ld : sized (shape tgt, d)) by exact Ln.
  assert (Fd : Forall (fun x => ex_derive h x) d).
  { apply Forall_forall. intros x Hx. apply In_nth with (d := 0%R) in Hx. destruct Hx as (i & Hi & <-). unfold d in Hi. rewrite map2_length in Hi.
    unfold d. rewrite (nth_map2 _ _ _ _ 0%R 0%R) by lia. apply Hd. lia. }
  assert (Key : forall o own_ m b wgt' c', o = UNew own_ (ew h) m b -> right1 o (shape tgt, d) ->
    loss n (EHold p) out = EUn (3 + n) (UNew false (fun i => Some ([1], [wgt' i])) IntoNew (fill_back (fun i => c' (fst i)))) (EUn (2 + n) o (e_minus n (EHold p) out)) ->
    wgt' (shape tgt, map h d) = (wgt (shape tgt) * spread h target pred)%R -> c' (shape tgt) = c (shape tgt) ->
    trained dbg eps (loss n (EHold p) out) out s who (ref tgt) (wgt (shape tgt) * spread h target pred)%R d
      (fun y => c (shape tgt) * spread_of h target y)%R exactly).
  { intros o own_ m b wgt' c' Eo Rh El Ew' Ec. rewrite El in Hids.
    pose proof (spread_train dbg eps o own_ h m b wgt' c' n p tgt out s who target pred Eo Tt So Go Ro Tr Hids Hh Hw As Ht Lt Nsh Ep Rh) as T.
    cbv zeta in T. rewrite <- El in T. fold d in T. rewrite Ew', Ec in T. exact T. }
  assert (Cl : spread h target pred = sum_all (map h d)) by (rewrite sum_all_rsum; symmetry; apply rsum_map_map2).
  assert (Bt : INR (batch_size (shape tgt)) = samples (shape tgt)).
  { unfold batch_size, samples. destruct (shape tgt) as [|a [|b l]]; reflexivity. }
  assert (Sq : right1 op_square (shape tgt, d)).
  { pose proof (C30_right_everywhere (shape tgt, d) 0%R Ld) as F. rewrite Forall_forall in F. apply F. cbn; tauto. }
  assert (Ab : h = Rabs -> right1 op_abs (shape tgt, d)).
  { intros ->. apply (proj2 (proj1 (C30_exactly (shape tgt, d) Ld))). revert Fd. apply Forall_impl. intros x [l Hl] ->. exact (n_abs l Hl). }
  cbn [difference_losses In] in Hin. destruct Hin as [E|[E|[E|[E|[]]]]]; injection E as <- <- <- <-.
  - apply (Key op_square false IntoNew _ (fun i => sum_all (snd i)) (fun _ => 1%R) eq_refl Sq eq_refl); [rewrite Cl; cbn [snd]; ring|reflexivity].
  - apply (Key op_square false IntoNew _ (fun i => sum_all (snd i) / INR (length (snd i)))%R (fun s => / INR (batch_size s))%R eq_refl Sq eq_refl).
    + rewrite Cl. cbn [snd]. rewrite map_length, Ln. unfold elements, Rdiv. ring.
    + now rewrite Bt.
  - apply (Key op_abs true IntoOwn _ (fun i => sum_all (snd i)) (fun _ => 1%R) eq_refl (Ab eq_refl) eq_refl); [rewrite Cl; cbn [snd]; ring|reflexivity].
  - apply (Key op_abs true IntoOwn _ (fun i => sum_all (snd i) / INR (length (snd i)))%R (fun s => / INR (batch_size s))%R eq_refl (Ab eq_refl) eq_refl).
    + rewrite Cl. cbn [snd]. rewrite map_length, Ln. unfold elements, Rdiv. ring.
    + now rewrite Bt.
Qed.
Print Assumptions C58_training.

(** For the means this is not the derivative of the value that run returns, unless every sample has one element: with a single sample of
    two elements the gradient of mean_squared_error is twice the derivative of the mean. *)
Module Twice.
Definition out : expr R := EVar 0.
Definition s : st R :=
  St [[1; 2]; [7; 7]; [0; 0]]%R (fun _ => None) (fun _ => Obj None None None) (fun _ => VObj true true 0%R 0%R)
     (fun _ => VState (mkT [1; 2] 0) (mkT [1; 2] 1)) (fun _ => Some (mkT [1; 2] 2)) (fun _ => None) (fun _ _ => None) true [].
Definition who (r : nat) : owner := match r with 1 => OGrad 0 | _ => OLeaf end.
Lemma only k x : At out k x -> x = EVar 0 /\ k = None.
Proof. intros H. apply At_all in H. cbn in H. destruct H as [H|[]]. injection H as <- <-. auto. Qed.
Lemma step : trained true 1 (mean_squared_error 0 (EHold 0) out) out s who 2 (/ elements [1; 2]%nat * spread (fun d => d * d) [0; 0] [1; 2])%R
  (map2 Rminus [0; 0] [1; 2])%R (fun y => / samples [1; 2]%nat * spread_of (fun d => d * d) [0; 0] y)%R exactly.
Proof.
  apply (C58_training true 1 mean_squared_error (fun d => d * d)%R (fun s => / elements s)%R (fun s => / samples s)%R 0 0 (mkT [1; 2] 2) out s who [0; 0]%R [1; 2]%R); try reflexivity; try discriminate.
  - cbn; tauto.
  - split; [discriminate|]. split; [constructor|]. split; [|split].
    + intros k x H _. destruct (only k x H) as [-> _]. eexists. split; [reflexivity|]. split; [reflexivity|discriminate].
    + intros k n l r H. destruct (only _ _ H) as [E _]. discriminate E.
    + intros k n l r H. destruct (only _ _ H) as [E _]. discriminate E.
  - split; [|split; [|split; [|split]]]; try discriminate.
    + intros k v H. destruct (only _ _ H) as [E _]. injection E as ->. cbn. repeat split. lia.
    + intros k q t H. destruct (only _ _ H) as [E _]. discriminate E.
    + intros k t H. destruct (only _ _ H) as [E _]. discriminate E.
  - intros k v H. split; reflexivity.
  - split; intros *; intros H; destruct (only _ _ H) as [E _]; discriminate E.
  - cbn. repeat constructor; cbn; intuition discriminate.
  - split; [|split]; intros *; intros H; destruct (only _ _ H) as [E _]; discriminate E || (cbn; lia).
  - intros i _. AutoDerive.auto_derive. trivial.
Qed.
End Twice.

Theorem C58_mean_refuted : exists out s n p t s1 s2 l,
  let loss := mean_squared_error n (EHold p) out in
  run 0%R 1%R Rplus Rmult true loss s = Ok (t, s1) /\ backs 0%R 1%R Rplus Rmult Ropp rleb 1%R true loss [([1], [1%R])] s1 = Ok (tt, s2) /\
  (forall x, cost 1%R (vobjs s) 0 (uses None loss) x = 0%R) /\
  is_derive (fun x => paired [1%R] (evalR (nudge (env_of s) 0 0 x) loss)) (nth 0 (data_of s 0) 0%R) l /\
  nth 0 (grad_of s2 0) 0%R = (2 * l)%R /\ l <> 0%R.
Proof.
  destruct Twice.step as (t & s1 & s2 & who2 & R1 & _ & R2 & G & _).
  exists Twice.out, Twice.s, 0, 0, t, s1, s2, 1%R. cbv zeta. split; [exact R1|]. split; [exact R2|].
  assert (C : forall x, cost 1%R (vobjs Twice.s) 0 (uses None (mean_squared_error 0 (EHold 0) Twice.out)) x = 0%R).
  { intros x. unfold cost. cbn [uses mean_squared_error e_minus Twice.out app map snd fst Nat.eqb rsum]. unfold cost1. cbn [Twice.s vobjs l1 l2]. unfold rleb.
    destruct (Rle_dec 1 0); [lra|]. ring. }
  split; [exact C|].
  destruct (G (Some (0, false)) 0 0) as (l & D & E).
  { eapply At_un. eapply At_right. eapply At_un. eapply At_un. apply At_root. } { reflexivity. } { cbn. lia. } { left. cbn. lra. }
  unfold exactly in E. rewrite E. clear E G R1 R2.
  cbn [data_of Twice.s vars vdata ref hp nth] in D |- *.
  assert (E1 : l = 2%R).
  { refine (eq_trans (eq_sym (is_derive_unique _ _ _ D)) _). apply is_derive_unique.
    apply (is_derive_ext (fun x : R => (x * x + 4)%R)).
    - intros x. rewrite C. cbn [nudge evalR eval Twice.out e_var Nat.eqb spread_of snd fst upd]. unfold evalR. cbn. unfold spread. cbn. unfold Rdiv. 
      match goal with |- ?a = ?b => change (@eq R a b) end. field.
    - AutoDerive.auto_derive; [trivial|ring]. }
  split; [|split; [lra|lra]].
  apply (is_derive_ext (fun x : R => ((x * x + 4) / 2)%R)).
  - intros x. unfold evalR. cbv -[Rplus Rmult Ropp IZR Rinv Rdiv INR Rminus]. replace (INR 2) with 2%R by (cbn; ring).
    match goal with |- ?a = ?b => change (@eq R a b) end. field.
  - AutoDerive.auto_derive; [trivial|field].
Qed.
Print Assumptions C58_mean_refuted.

(** A layer x W + b compared with a target, for concrete values. *)
Module Case.
Definition product : expr R := EBin 0 op_matmul (EHold 0) (EVar 0).
Definition affine : expr R := EBin 1 BPlus product (EVar 1).
Definition s : st R :=
  St [[1; 2]; [3; 5; 0; -1]; [1; 1]; [0; 0; 0; 0]; [7; 7]; [10; 20]]%R (fun _ => None) (fun _ => Obj None None None) (fun _ => VObj true true 0%R 0%R)
     (fun v => match v with 0 => VState (mkT [2; 2] 1) (mkT [2; 2] 3) | _ => VState (mkT [2] 2) (mkT [2] 4) end)
     (fun p => Some (mkT [1; 2] (match p with 0 => 0 | _ => 5 end))) (fun _ => None) (fun _ _ => None) true [].
Definition who (r : nat) : owner := match r with 3 => OGrad 0 | 4 => OGrad 1 | _ => OLeaf end.
Lemma affine_value : evalR (env_of s) affine = Some ([1; 2], [0 + 1 * 3 + 2 * 0 + 1; 0 + 1 * 5 + 2 * -1 + 1]%R).
Proof. cbv -[Rplus Rmult Ropp IZR Rinv]. reflexivity. Qed.

Ltac at_cases H := apply At_all in H; cbn in H; repeat (destruct H as [H|H]; [try discriminate H|]); [..|now destruct H].

Lemma affine_trainable : trainable_tree affine s.
Proof.
  split; [discriminate|]. split; [repeat constructor; cbn; intuition discriminate|]. split; [|split].
  - intros k x H _. apply At_all in H. cbn in H.
    repeat (destruct H as [H|H]; [injection H as <- <-; eexists; (split; [cbv -[Rplus Rmult Ropp IZR Rinv]; reflexivity|]); (split; [reflexivity|discriminate])|]). destruct H.
  - intros k n l r H _ x Hx. at_cases H. injection H as <- <- <- <-. cbn in Hx. destruct Hx as [<-|[]]. split; [reflexivity|].
    intros k1 k2 H1 H2 _. apply At_all in H1, H2. cbn in H1, H2.
    assert (U : forall k', In (k', product) (all_at None affine) -> k' = Some (1, false)).
    { intros k' H'. cbn in H'. repeat (destruct H' as [H'|H']; [try discriminate H'; congruence|]). destruct H'. }
    now rewrite (U k1 H1), (U k2 H2).
  - intros k n l r H _ x Hx. at_cases H. injection H as <- <- <- <-. cbn in Hx. destruct Hx as [<-|[]]. cbn. reflexivity.
Qed.

Lemma affine_separate : separate affine s who.
Proof.
  split; [|split; [|split; [|split]]]; try discriminate.
  - intros k v H. apply At_all in H. cbn in H.
    repeat (destruct H as [H|H]; [try discriminate H; injection H as <- <-; cbn; repeat split; lia|]). destruct H.
  - intros k p t H. apply At_all in H. cbn in H. repeat (destruct H as [H|H]; [try discriminate H; injection H as <- <-; intros [= <-]; reflexivity|]). destruct H.
  - intros k t H. apply At_all in H. cbn in H. repeat (destruct H as [H|H]; [discriminate H|]). destruct H.
Qed.

Lemma affine_right : right_everywhere true (env_of s) affine.
Proof.
  split; [intros k n o x i H Hi; at_cases H|].
  intros k n o l r a b H Hi. at_cases H; injection H as <- <- <- <- <-.
  - assert (Ei : operandsR (env_of s) product (EVar 1) = Some (([1; 2], [0 + 1 * 3 + 2 * 0; 0 + 1 * 5 + 2 * -1]%R), ([2], [1; 1]%R))).
    { cbv -[Rplus Rmult Ropp IZR Rinv]. reflexivity. }
    assert (Ej := eq_trans (eq_sym Ei) Hi). injection Ej as <- <-.
    apply (proj1 (C31_right true ([1; 2], [0 + 1 * 3 + 2 * 0; 0 + 1 * 5 + 2 * -1]%R) ([2], [1; 1]%R) eq_refl eq_refl) [1; 2]); try discriminate.
    cbn [fst]. split; [reflexivity|]. intros j Hj. cbn in Hj. destruct j as [|[|j]]; [left; split; reflexivity| |lia]. left. split; reflexivity.
  - cbn in Hi. injection Hi as <- <-. now apply (proj1 (proj2 (C31_right true ([1; 2], [1; 2]%R) ([2; 2], [3; 5; 0; -1]%R) eq_refl eq_refl)) 1 2 2).
Qed.

Lemma affine_aside : aside s affine 5.
Proof.
  split; [|split].
  - intros k v H. at_cases H; injection H as <- <-; cbn; lia.
  - intros k p t H. at_cases H. injection H as <- <-. intros [= <-]. cbn. lia.
  - intros k t H. at_cases H.
Qed.

(** all four losses *)
Example C58_case loss h wgt c : In (loss, h, wgt, c) difference_losses ->
  trained true 1 (loss 2 (EHold 1) affine) affine s who 5
    (wgt [1; 2]%nat * spread h [10; 20] [0 + 1 * 3 + 2 * 0 + 1; 0 + 1 * 5 + 2 * -1 + 1])%R [10 - (0 + 1 * 3 + 2 * 0 + 1); 20 - (0 + 1 * 5 + 2 * -1 + 1)]%R
    (fun y => c [1; 2]%nat * spread_of h [10; 20] y)%R exactly.
Proof.
  intros H. apply (C58_training true 1 loss h wgt c 2 1 (mkT [1; 2] 5) affine s who); try reflexivity; try discriminate.
  - exact H.
  - exact affine_trainable.
  - exact affine_separate.
  - intros k v Hk. at_cases Hk; injection Hk as <- <-; split; reflexivity.
  - exact affine_right.
  - cbn [difference_losses In] in H. destruct H as [E|[E|[E|[E|[]]]]]; injection E as <- _ _ _; cbn; repeat constructor; cbn; intuition discriminate.
  - exact affine_aside.
  - assert (Sq : forall x, ex_derive (fun d : R => (d * d)%R) x) by (intros x; AutoDerive.auto_derive; trivial).
    assert (Ab : forall x, x <> 0%R -> ex_derive Rabs x) by (intros x Hx; destruct (s_abs x Hx) as (l & D & _); now exists l).
    intros i Hi. cbn [difference_losses In] in H. destruct H as [E|[E|[E|[E|[]]]]]; injection E as _ <- _ _; try apply Sq; apply Ab; destruct i as [|[|i]]; cbn [nth length] in *; try lia; lra.
Qed.
End Case.

(** C59.  Running such a loss k times without binding the target again: run i + 1 compares the target with i + 1 times the output, because
    every run leaves target - output in the target's tensor.  Afterwards the target's tensor holds target - k output, and no other tensor
    of the user's has changed. *)
Theorem C59_runs dbg loss h wgt c n p tgt out s who target pred k : In (loss, h, wgt, c) difference_losses ->
  trainable_tree out s -> separate out s who -> graded out s ->
  NoDup (ids (loss n (EHold p) out)) -> holders s p = Some tgt -> who (ref tgt) = OLeaf -> aside s out (ref tgt) ->
  nth_error (hp s) (ref tgt) = Some target -> length target = prod (shape tgt) ->
  evalR (env_of s) out = Some (shape tgt, pred) ->
  exists s', runs dbg k (loss n (EHold p) out) s =
      Ok (map (fun i => ([1], [(wgt (shape tgt) * spread h target (map (Rmult (INR (i + 1))) pred))%R])) (seq 0 k), s') /\
    nth_error (hp s') (ref tgt) = Some (map2 Rminus target (map (Rmult (INR k)) pred)) /\
    (forall b, b < length (hp s) -> b <> ref tgt -> who b = OLeaf -> nth_error (hp s') b = nth_error (hp s) b).
Proof.
  intros Hin Tt So Go Hids Hh Hw As Ht Lt Ep.
  pose proof Tt as (Vo & _ & Zo & _ & _).
  destruct (Zo None out (At_root out) Vo) as (w & Ew & Lw & Nw). assert (Q : w = (shape tgt, pred)) by (unfold evalR in Ep; congruence). subst w.
  cbn [fst snd] in Lw, Nw.
  assert (Z : map2 Rminus target (map (Rmult (INR 0)) pred) = target).
  { assert (L : length target <= length pred) by lia. clear -L. revert pred L. induction target as [|x target IH]; intros [|y pred] L; cbn [length] in L; try lia; try reflexivity.
    cbn [map map2]. rewrite IH by lia. f_equal. cbn. ring. }
  assert (St : standing out p tgt pred (map2 Rminus target (map (Rmult (INR 0)) pred)) s who) by (rewrite Z; now constructor).
  assert (Key : forall o own_ m b f mm bb wgt', o = UNew own_ (ew h) m b -> (forall i, f i = Some ([1], [wgt' i])) ->
    loss n (EHold p) out = EUn (3 + n) (UNew false f mm bb) (EUn (2 + n) o (e_minus n (EHold p) out)) ->
    (forall d, length d = prod (shape tgt) -> wgt' (shape tgt, map h d) = (wgt (shape tgt) * sum_all (map h d))%R) ->
    exists s', runs dbg k (loss n (EHold p) out) s =
      Ok (map (fun i => ([1], [(wgt (shape tgt) * spread h target (map (Rmult (INR (i + 1))) pred))%R])) (seq 0 k), s') /\
    nth_error (hp s') (ref tgt) = Some (map2 Rminus target (map (Rmult (INR k)) pred)) /\
    (forall b, b < length (hp s) -> b <> ref tgt -> who b = OLeaf -> nth_error (hp s') b = nth_error (hp s) b)).
  { intros o own_ m b f mm bb wgt' Eo Ef El Ew'. rewrite El in Hids.
    destruct (runs_ok dbg o own_ h m b f mm bb wgt' n p tgt out pred Eo Ef Hids k 0 s who target St) as (s' & who' & R1 & S1 & F1).
    rewrite <- El in R1. exists s'. split; [|split; [exact (st_data _ _ _ _ _ _ _ S1)|exact F1]].
    rewrite R1. do 2 f_equal. apply map_ext. intros i. rewrite Ew' by (rewrite map2_length, map_length; lia).
    rewrite Nat.add_1_r. do 4 f_equal. rewrite sum_all_rsum. apply rsum_map_map2. }
  cbn [difference_losses In] in Hin. destruct Hin as [E|[E|[E|[E|[]]]]]; injection E as <- <- <- <-.
  - apply (Key op_square false IntoNew _ _ _ _ (fun i => sum_all (snd i)) eq_refl (fun _ => eq_refl) eq_refl). intros d Hd. cbn [snd]. ring.
  - apply (Key op_square false IntoNew _ _ _ _ (fun i => sum_all (snd i) / INR (length (snd i)))%R eq_refl (fun _ => eq_refl) eq_refl). intros d Hd. cbn [snd]. rewrite map_length, Hd. unfold elements, Rdiv. ring.
  - apply (Key op_abs true IntoOwn _ _ _ _ (fun i => sum_all (snd i)) eq_refl (fun _ => eq_refl) eq_refl). intros d Hd. cbn [snd]. ring.
  - apply (Key op_abs true IntoOwn _ _ _ _ (fun i => sum_all (snd i) / INR (length (snd i)))%R eq_refl (fun _ => eq_refl) eq_refl). intros d Hd. cbn [snd]. rewrite map_length, Hd. unfold elements, Rdiv. ring.
Qed.
Print Assumptions C59_runs.

(** So running a loss twice does not give the same value twice, although nothing was bound in between: a perfect model has loss 0 at first
    and not at the second run. *)
Theorem C59_same_value_refuted : exists out s n p s' v,
  runs true 2 (squared_loss n (EHold p) out) s = Ok ([([1], [0%R]); ([1], [v])], s') /\ v <> 0%R.
Proof.
  pose (s3 := St [[1; 2]; [7; 7]; [1; 2]]%R (fun _ => None) (fun _ => Obj None None None) (fun _ => VObj true true 0%R 0%R)
     (fun _ => VState (mkT [1; 2] 0) (mkT [1; 2] 1)) (fun _ => Some (mkT [1; 2] 2)) (fun _ => None) (fun _ _ => None) true []).
  destruct (C59_runs true squared_loss (fun d => d * d)%R (fun _ => 1%R) (fun _ => 1%R) 0 0 (mkT [1; 2] 2) Twice.out s3 Twice.who [1; 2]%R [1; 2]%R 2) as (s' & R1 & _);
    [try reflexivity..|].
  - cbn; tauto.
  - split; [discriminate|]. split; [constructor|]. split; [|split].
    + intros k x H _. destruct (Twice.only k x H) as [-> _]. eexists. split; [reflexivity|]. split; [reflexivity|discriminate].
    + intros k n l r H. destruct (Twice.only _ _ H) as [E _]. discriminate E.
    + intros k n l r H. destruct (Twice.only _ _ H) as [E _]. discriminate E.
  - split; [|split; [|split; [|split]]]; try discriminate.
    + intros k v H. destruct (Twice.only _ _ H) as [E _]. injection E as ->. cbn. repeat split. lia.
    + intros k q t H. destruct (Twice.only _ _ H) as [E _]. discriminate E.
    + intros k t H. destruct (Twice.only _ _ H) as [E _]. discriminate E.
  - intros k v H. split; reflexivity.
  - cbn. repeat constructor; cbn; intuition discriminate.
  - split; [|split]; intros *; intros H; destruct (Twice.only _ _ H) as [E _]; discriminate E || (cbn; lia).
  - exists Twice.out, s3, 0, 0, s', 5%R. split; [|lra]. rewrite R1. cbn [map seq]. unfold spread. cbn. f_equal. f_equal. f_equal; [|f_equal]; do 2 f_equal; ring.
Qed.
Print Assumptions C59_same_value_refuted.

(** the layer of Module Case, any number of runs *)
Example C59_case loss h wgt c k : In (loss, h, wgt, c) difference_losses ->
  exists s', runs true k (loss 2 (EHold 1) Case.affine) Case.s =
      Ok (map (fun i => ([1], [(wgt [1; 2]%nat * spread h [10; 20] (map (Rmult (INR (i + 1))) [0 + 1 * 3 + 2 * 0 + 1; 0 + 1 * 5 + 2 * -1 + 1]))%R])) (seq 0 k), s') /\
    nth_error (hp s') 5 = Some (map2 Rminus [10; 20] (map (Rmult (INR k)) [0 + 1 * 3 + 2 * 0 + 1; 0 + 1 * 5 + 2 * -1 + 1]))%R.
Proof.
  intros H. destruct (C59_runs true loss h wgt c 2 1 (mkT [1; 2] 5) Case.affine Case.s Case.who [10; 20]%R [0 + 1 * 3 + 2 * 0 + 1; 0 + 1 * 5 + 2 * -1 + 1]%R k H) as (s' & R1 & E1 & _);
    [..|now exists s']; try reflexivity.
  - exact Case.affine_trainable.
  - exact Case.affine_separate.
  - intros j v Hk. Case.at_cases Hk; injection Hk as <- <-; split; reflexivity.
  - cbn [difference_losses In] in H. destruct H as [E|[E|[E|[E|[]]]]]; injection E as <- _ _ _; cbn; repeat constructor; cbn; intuition discriminate.
  - exact Case.affine_aside.
Qed.
