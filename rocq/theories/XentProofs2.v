(** Training with cross_entropy_loss. *)
From Coq Require Import List Arith Lia Bool PeanoNat Reals Lra.
From Coquelicot Require Import Rcomplements Hierarchy Derive.
From Verif Require Import ListBase TensorModel TensorSpec TensorProofs TensorProofs2 ArrayModel GraphModel GraphSpec GraphProofs GraphProofs2
  GraphProofs3 GraphProofs4 GradSpec GradProofs GradProofs2 GradProofs3 LayerSpec LayerProofs BcastAdjoint CalcSpec CalcProofs CalcProofs2 CalcProofs3 GraphProps OpModel OpSpec OpProofs Scalar
  OpRules OpProofs2 OpProofs4 OpProofs5 GradProps ComplexModel ComplexRun LossRun LossRun2 LossModel LossSpec LossProofs LossProofs2 LossProofs3 XentSpec XentProofs.
Import ListNotations.
Local Open Scope nat_scope.

(** ** A place holder compared with a tree *)
Section Build.
Context {A : Type} (zero one : A) (add mul : A -> A -> A).

Lemma At_bin_slot n o p (x : expr A) k y : At (EBin n o (EHold p) x) k y ->
  (k = None /\ y = EBin n o (EHold p) x) \/ y = EHold p \/ exists k', At x k' y /\ k = match k' with None => Some (n, true) | _ => k' end.
Proof.
  intros H. induction H as [|k m o' y H IH|k m o' l r H IH|k m o' l r H IH]; [now left| | |]; right.
  - destruct IH as [[_ E]|[E|(k' & Hk & _)]]; [discriminate E|discriminate E|]. right. exists (Some (m, false)). split; [exact (At_un _ _ _ _ _ Hk)|reflexivity].
  - destruct IH as [[_ E]|[E|(k' & Hk & _)]]; [injection E as _ _ -> _; now left|discriminate E|]. right. exists (Some (m, false)). split; [exact (At_left _ _ _ _ _ _ Hk)|reflexivity].
  - destruct IH as [[_ E]|[E|(k' & Hk & _)]]; [injection E as -> _ _ ->; right; exists None; split; [constructor|reflexivity]|discriminate E|].
    right. exists (Some (m, true)). split; [exact (At_right _ _ _ _ _ _ Hk)|reflexivity].
Qed.

Lemma At_size (x : expr A) k z : At x k z -> size z <= size x.
Proof. intros H. induction H; cbn [size] in *; lia. Qed.

Lemma path_size q (z y : expr A) : In y (path zero one add mul q z) -> size y <= size z.
Proof.
  revert y. induction z as [| | | |m o z IH|m o l IHl r IHr]; intros y Hy; cbn [path] in Hy; destruct Hy as [<-|Hy]; try lia; try destruct Hy.
  - destruct o; [destruct Hy|]. specialize (IH y Hy). cbn [size]. lia.
  - destruct o; [|destruct Hy]. destruct l; try (destruct Hy; fail); try (destruct (inplace _ _ _ _ _ _ _); [|destruct Hy]; specialize (IHl y Hy); cbn [size] in *; lia).
Qed.

Variables (n p : nat) (own_ : bool) (f : val A -> val A -> option (val A)) (ob : bool) (bk : val A -> val A -> val A -> val A -> option (val A * val A)) (x : expr A) (q : env A).
Notation e := (EBin n (BNew own_ f ob bk) (EHold p) x).

Lemma disciplined_new : disciplined zero one add mul q x -> disciplined zero one add mul q e.
Proof.
  intros H k m l r Ha Hi y Hy. destruct (At_bin_slot _ _ _ _ _ _ Ha) as [[_ E]|[E|(k' & Hk & _)]]; [discriminate E|discriminate E|].
  destruct (H k' m l r Hk Hi y Hy) as [L U]. split; [exact L|]. intros k1 k2 H1 H2 Ny.
  pose proof (path_size q l y Hy) as S1. pose proof (At_size _ _ _ Hk) as S2. cbn [size] in S2.
  destruct (At_bin_slot _ _ _ _ _ _ H1) as [[-> E]|[E|(k1' & H1' & ->)]]; [rewrite E in S1; cbn [size] in S1; lia|subst y; discriminate L|].
  destruct (At_bin_slot _ _ _ _ _ _ H2) as [[-> E]|[E|(k2' & H2' & ->)]]; [rewrite E in S1; cbn [size] in S1; lia|subst y; discriminate L|].
  now rewrite (U k1' k2' H1' H2' Ny).
Qed.

Lemma legible_new : legible zero one add mul q x -> legible zero one add mul q e.
Proof.
  intros H k m l r Ha Hi y Hy. destruct (At_bin_slot _ _ _ _ _ _ Ha) as [[_ E]|[E|(k' & Hk & _)]]; [discriminate E|discriminate E|]. exact (H k' m l r Hk Hi y Hy).
Qed.
End Build.

Lemma inner_tab_tab n a (b : list R) : length b = n -> inner (tab n a) b = rsum (tab n (fun i => a i * nth i b 0)%R).
Proof. intros L. rewrite (inner_rsum n) by (rewrite ?tab_length; auto). apply rsum_tab_ext. intros i Hi. now rewrite nth_tab. Qed.

Lemma operands_two q l r a b : evalue l = false -> evalue r = false -> evalR q l = Some a -> evalR q r = Some b -> operandsR q l r = Some (a, b).
Proof.
  intros Vl Vr El Er. rewrite operandsR_cases by (rewrite Vl; reflexivity). destruct l; try discriminate Vl; destruct r; try discriminate Vr; rewrite El; cbn [obind2]; rewrite Er; reflexivity.
Qed.

Lemma rsum_abs_le n (a b : nat -> R) : (forall i, i < n -> (Rabs (a i) <= b i)%R) -> (Rabs (rsum (tab n a)) <= rsum (tab n b))%R.
Proof.
  intros H. induction n as [|n IH]; [cbn; rewrite Rabs_R0; lra|]. rewrite !tab_snoc, !rsum_app. cbn [LayerSpec.rsum].
  specialize (IH ltac:(intros i Hi; apply H; lia)). specialize (H n ltac:(lia)).
  eapply Rle_trans; [apply Rabs_triang|]. rewrite !Rplus_0_r. lra.
Qed.

Section Xent.
Variable dbg : bool.
Variable eps : R.
Hypothesis Heps : (0 < eps)%R.
Notation grads := (grads 0%R 1%R Rplus Rmult dbg).
Notation run := (run 0%R 1%R Rplus Rmult dbg).
Notation sizes_ok := (sizes_ok 0%R 1%R Rplus Rmult).

Theorem xent_train smooth n p P m d0 tgt out s who target pred :
  let loss := cross_entropy_loss dbg eps smooth n (EHold p) out in
  let lab := fun i => given eps smooth m (nth i target 0%R) in
  trainable_tree out s -> separate out s who -> graded out s -> right_everywhere dbg (env_of s) out -> training s = true ->
  NoDup (ids loss) -> holders s p = Some tgt -> who (ref tgt) = OLeaf ->
  nth_error (hp s) (ref tgt) = Some target -> length target = prod (shape tgt) -> shape tgt = P ++ [m] -> (exists l, shape tgt = d0 :: l) ->
  evalR (env_of s) out = Some (shape tgt, pred) ->
  trained dbg eps loss out s who (ref tgt) (reported eps d0 (prod P) m lab (fun i => nth i pred 0%R)) target
    (fun y => logits (prod P) m lab (entry y)) (within eps s out (prod (shape tgt))).
Proof.
  intros loss lab (Vo & To & Zo & Do & Lo) So Go Ro Tr Hids Hh Hw Ht Lt Esh E0 Ep.
  assert (Nv : evalue out = false) by (destruct out; try reflexivity; now destruct (Vo c)).
  destruct (Zo None out (At_root out) Vo) as (w & Ew & Lw & Nw). assert (Q : w = (shape tgt, pred)) by (unfold evalR in Ep; congruence). subst w.
  cbn [fst snd] in Lw, Nw.
  assert (Eh : e_hold (env_of s) p = Some (shape tgt, target)).
  { cbn [env_of e_hold]. rewrite Hh. unfold val_of. now rewrite (nth_error_nth _ _ _ Ht). }
  set (sh := shape tgt) in *.
  assert (Np : prod sh <> 0) by (intros E; apply Nw; apply length_zero_iff_nil; lia).
  assert (Hm : m <> 0) by (rewrite Esh, prod_app in Np; cbn [prod fold_right] in Np; nia).
  assert (Epr : prod sh = prod P * m) by (rewrite Esh, prod_app; cbn [prod fold_right]; lia).
  assert (Eop : operandsR (env_of s) (EHold p) out = Some ((sh, target), (sh, pred))).
  { now apply operands_two. }
  set (rep := reported eps d0 (prod P) m lab (fun i => nth i pred 0%R)).
  assert (Ef : xent_forward dbg eps smooth (sh, target) (sh, pred) = Some ([1], [rep])) by (now apply xent_forward_at).
  assert (El : evalR (env_of s) loss = Some ([1], [rep])).
  { unfold loss, cross_entropy_loss. rewrite evalR_bin, Eop. cbn [obind2 fst snd apply2 op_cross_entropy]. exact Ef. }
  assert (Zh : sizes_ok (env_of s) (EHold p)).
  { intros k z H _. apply At_all in H. cbn in H. destruct H as [H|[]]. injection H as <- <-. cbn [eval]. exists (sh, target). split; [exact Eh|]. split; [exact Lt|].
    cbn. intros E. apply Np. rewrite <- Lt, E. reflexivity. }
  assert (Zl : sizes_ok (env_of s) loss).
  { apply (sizes_bin _ _ _ _ _ _ _ _ _ ([1], [rep])); try assumption; [reflexivity|discriminate]. }
  destruct (nudged_chain dbg (env_of s) out Nv Zo Ro) as (y & Ey & Sy & HG & HC). assert (y = (sh, pred)) by congruence. subst y. cbn [fst snd] in HG, HC.
  set (gb := (sh, tab (prod sh) (fun i => 1 * (damped eps m (fun j => nth j pred 0%R) i - given eps smooth m (nth i target 0%R)))%R)).
  assert (Sgb : sized gb) by (unfold sized, gb; cbn; apply tab_length).
  destruct (HG gb (Some (n, true)) eq_refl Sgb) as (ds & Eds & Fds).
  assert (Gl : grads (env_of s) None loss ([1], [1%R]) = Some ds).
  { unfold loss, cross_entropy_loss. cbn [GradSpec.grads]. unfold operandsR in Eop. rewrite Eop. cbn [obind2 fst snd local2 op_cross_entropy]. rewrite Ef. cbn [obind2].
    rewrite (xent_backward_at dbg eps Heps smooth sh d0 P m target pred _ 1%R Esh E0 Lt Lw Np). cbn [obind2 fst snd]. fold gb. rewrite Eds. reflexivity. }
  assert (I : forall k z, At out k z -> exists k', At loss k' z) by (intros k z H; now apply At_right_in with (k := k)).
  assert (J : forall k z, At loss k z -> is_leaf z = true -> z = EHold p \/ exists k', At out k' z).
  { intros k z H L. destruct (At_bin_slot _ _ _ _ _ _ H) as [[_ E]|[E|(k' & Hk & _)]]; [subst z; discriminate L|now left|right; eauto]. }
  assert (Sl : separate loss s who).
  { destruct So as (S1 & S2 & S3 & S4 & S5). split; [|split; [|split; [|split]]]; try assumption.
    - intros k v H. destruct (J k _ H eq_refl) as [E|(k' & H')]; [discriminate E|exact (S1 k' v H')].
    - intros k u t H Eu. destruct (J k _ H eq_refl) as [E|(k' & H')]; [injection E as ->; rewrite Hh in Eu; injection Eu as <-; exact Hw|exact (S2 k' u t H' Eu)].
    - intros k t H. destruct (J k _ H eq_refl) as [E|(k' & H')]; [discriminate E|exact (S3 k' t H')]. }
  assert (Gr : graded loss s).
  { intros k v H. destruct (J k _ H eq_refl) as [E|(k' & H')]; [discriminate E|exact (Go k' v H')]. }
  destruct (train_ok dbg eps loss s who [([1], [1%R])] [ds]) as (t & s1 & s2 & who2 & R1 & R2 & E1 & S2 & G2 & Vs & Hs & Ts & Ls & Ws & Fr & Vb & HT & _).
  { discriminate. } { exact Hids. } { exact Zl. } { now apply disciplined_new. } { now apply legible_new. } { exact Sl. } { exact Gr. }
  { constructor; [split; assumption|constructor]. }
  exists t, s1, s2, who2. split; [exact R1|]. split; [exact (f_equal (fun o => match o with Some w => w | None => ([], []) end) (eq_trans (eq_sym E1) El))|]. split; [exact R2|]. split.
  2:{ assert (Fr' : forall b, b < length (hp s) -> who b = OLeaf -> nth_error (hp s2) b = nth_error (hp s) b) by (intros b Hb Wb; apply Fr; [exact Hb|congruence..]).
      assert (La : ref tgt < length (hp s)) by (apply nth_error_Some; rewrite Ht; discriminate).
      split; [rewrite Fr' by assumption; exact Ht|]. split; [intros b Hb _ Wb; now apply Fr'|]. split; [exact Vs|]. split; [exact Hs|]. split; [exact Ts|]. split; [exact Vb|].
      split; [exact (separate_sub loss out s2 who2 I S2)|]. split; [exact (graded_sub loss out s2 I G2)|]. split; assumption. }
  intros k v i Hk Htr Hi x0 Hx.
  destruct (J k _ Hk eq_refl) as [E|(k2 & Hk2)]; [discriminate E|].
  destruct (HT Tr k v Hk) as [_ H']. destruct (H' ltac:(discriminate)) as [_ H'']. specialize (H'' i Hi). clear H'.
  destruct (HC k2 v i Hk2 Hi) as (dy & T & Hin). specialize (Hin gb _ ds eq_refl Sgb Eds).
  pose proof (tan_len _ _ _ _ T) as Ldy. cbn [fst] in Ldy.
  set (y0 := fun j => nth j pred 0%R) in *.
  exists (rsum (tab (prod sh) (fun j => (share m y0 j - lab j) * nth j dy 0)%R) + penalty eps (vobjs s) v x0 (uses None loss))%R. split.
  - apply (is_derive_plus (K := R_AbsRing) (V := R_NormedModule) (fun x => logits (prod P) m lab (entry (evalR (nudge (env_of s) v i x) out))) (cost eps (vobjs s) v (uses None loss))).
    + rewrite Epr.
      apply (d_eq _ _ (rsum (tab (prod P * m) (fun j => (share m (entry (evalR (nudge (env_of s) v i x0) out)) j - lab j) * nth j dy 0)%R))).
      * apply (logits_derive (prod P) m lab (fun x => entry (evalR (nudge (env_of s) v i x) out)) x0 (fun j => nth j dy 0%R) Hm).
        intros j Hj. apply (tan_derive _ _ _ _ T). cbn [fst]. lia.
      * pose proof (tan_at _ _ _ _ T) as Ea. cbv beta in Ea. change (nth i (snd (e_var (env_of s) v)) 0%R) with x0 in Ea. rewrite Ea. reflexivity.
    + apply cost_derive.
      * intros k' H. apply Htr. now apply (uses_at loss loss None (At_root loss)).
      * intros k' H Hle. destruct Hx as [Hx|Hx]; [exact Hx|]. specialize (Hx k' (uses_at loss loss None (At_root loss) k' v H)). lra.
  - exists (fun j => nth j dy 0%R). split.
    { intros j Hj. exact (tan_derive _ _ _ _ T j Hj). }
    unfold grad_of. rewrite Vs, H''. cbn [map LayerSpec.rsum]. rewrite Rplus_0_r.
    rewrite (arrived_total (vobjs s) v i ds (uses None loss)).
    2:{ exact (grads_uses dbg (env_of s) loss None _ ds Gl). }
    2:{ intros k' H. apply Htr. now apply (uses_at loss loss None (At_root loss)). }
    rewrite <- Hin. unfold gb. cbn [snd]. rewrite inner_tab_tab by exact Ldy. fold (data_of s v). fold x0.
    match goal with |- (Rabs (?a + ?c - (?b + ?c)) <= _)%R => replace (a + c - (b + c))%R with (a - b)%R by ring end.
    unfold Rminus. rewrite <- (Rmult_1_l (rsum (tab (prod sh) (fun j => (share m y0 j + - lab j) * nth j dy 0)%R))). rewrite Ropp_mult_distr_l, rsum_scal, <- rsum_tab_plus, rsum_scal.
    apply rsum_abs_le. intros j Hj. change (given eps smooth m (nth j target 0%R)) with (lab j).
    match goal with |- (Rabs ?z <= _)%R => replace z with ((damped eps m y0 j - share m y0 j) * nth j dy 0)%R by ring end.
    rewrite Rabs_mult. apply Rmult_le_compat_r; [apply Rabs_pos|]. exact (proj1 (damped_share eps m y0 j Heps Hm)).
Qed.
End Xent.
