(** Building trees that can be trained from trees that can be trained, and training with a loss built over a model in this way. *)
From Coq Require Import List Arith Lia Bool PeanoNat Reals Lra.
From Coquelicot Require Import Rcomplements Hierarchy Derive.
From Verif Require Import ListBase TensorModel TensorSpec TensorProofs TensorProofs2 ArrayModel GraphModel GraphSpec GraphProofs GraphProofs2
  GraphProofs3 GraphProofs4 GradSpec GradProofs GradProofs2 GradProofs3 LayerSpec LayerProofs BcastAdjoint CalcSpec CalcProofs CalcProofs2 CalcProofs3 GraphProps OpModel OpSpec OpProofs Scalar
  OpRules OpProofs2 OpProofs3 OpProofs4 OpProofs5 OpProps GradProps ComplexModel ComplexRun LossRun LossRun2 LossModel LossSpec LossProofs LossProofs2 LossProofs3 XentProofs XentProofs2.
Import ListNotations.
Local Open Scope nat_scope.

(** ** Slots in trees without repetition *)
Section Slots.
Context {A : Type} (zero one : A) (add mul : A -> A -> A).

Definition dn (n : nat) (b : bool) (k : slot) : slot := match k with None => Some (n, b) | _ => k end.

Lemma At_bin_both n o (l r : expr A) k y : At (EBin n o l r) k y ->
  (k = None /\ y = EBin n o l r) \/ (exists k', At l k' y /\ k = dn n false k') \/ (exists k', At r k' y /\ k = dn n true k').
Proof.
  intros H. induction H as [|k m o' y H IH|k m o' a b H IH|k m o' a b H IH]; [now left| | |]; right.
  - destruct IH as [[_ E]|[(k' & Hk & _)|(k' & Hk & _)]]; [discriminate E|left|right]; exists (Some (m, false)); (split; [exact (At_un _ _ _ _ _ Hk)|reflexivity]).
  - destruct IH as [[_ E]|[(k' & Hk & _)|(k' & Hk & _)]]; [injection E as -> _ -> _; left; exists None; split; [constructor|reflexivity]|left|right];
      exists (Some (m, false)); (split; [exact (At_left _ _ _ _ _ _ Hk)|reflexivity]).
  - destruct IH as [[_ E]|[(k' & Hk & _)|(k' & Hk & _)]]; [injection E as -> _ _ ->; right; exists None; split; [constructor|reflexivity]|left|right];
      exists (Some (m, true)); (split; [exact (At_right _ _ _ _ _ _ Hk)|reflexivity]).
Qed.

Lemma At_ids (e : expr A) k x m : At e k x -> node_id x = Some m -> In m (ids e).
Proof.
  revert k. induction e as [| | | |n o y IH|n o l IHl r IHr]; intros k H E; try (apply At_all in H; cbn in H; destruct H as [H|[]]; injection H as _ <-; discriminate E).
  - destruct (At_un_inv _ _ _ _ _ H) as [[_ ->]|(k' & Hk)]; cbn [node_id ids] in *; [injection E as ->; now left|right; eauto].
  - destruct (At_bin_both _ _ _ _ _ _ H) as [[_ ->]|[(k' & Hk & _)|(k' & Hk & _)]]; cbn [node_id ids] in *; [injection E as ->; now left|right; apply in_or_app; eauto..].
Qed.

Lemma nd_app {B} (l m : list B) : NoDup (l ++ m) -> NoDup l /\ NoDup m.
Proof.
  induction l as [|a l IH]; cbn [app]; intros H; [split; [constructor|exact H]|]. apply NoDup_cons_iff in H as [N H]. destruct (IH H) as [Hl Hm].
  split; [|exact Hm]. constructor; [|exact Hl]. intros I. apply N. apply in_or_app. now left.
Qed.

Lemma slot_unique (e : expr A) : NoDup (ids e) -> forall x k1 k2, node_id x <> None -> At e k1 x -> At e k2 x -> k1 = k2.
Proof.
  induction e as [| | | |n o y IH|n o l IHl r IHr]; intros ND x k1 k2 N H1 H2; try (apply At_all in H1; cbn in H1; destruct H1 as [H1|[]]; injection H1 as _ <-; now contradiction N).
  - cbn [ids] in ND. apply NoDup_cons_iff in ND as [Nn ND]. destruct (node_id x) as [m|] eqn:Em; [|contradiction].
    destruct (At_un_slot _ _ _ _ _ H1) as [[-> E1]|(k1' & H1' & ->)]; destruct (At_un_slot _ _ _ _ _ H2) as [[-> E2]|(k2' & H2' & ->)]; try reflexivity.
    + exfalso. rewrite E1 in Em. injection Em as ->. apply Nn. exact (At_ids y k2' x m H2' ltac:(rewrite E1; reflexivity)).
    + exfalso. rewrite E2 in Em. injection Em as ->. apply Nn. exact (At_ids y k1' x m H1' ltac:(rewrite E2; reflexivity)).
    + rewrite (IH ND x k1' k2'); try assumption; [reflexivity|congruence].
  - cbn [ids] in ND. apply NoDup_cons_iff in ND as [Nn ND]. destruct (node_id x) as [m|] eqn:Em; [|contradiction].
    assert (Root : forall k, x = EBin n o l r -> (At l k x \/ At r k x) -> False).
    { intros k E H. rewrite E in Em. injection Em as ->. apply Nn. apply in_or_app. destruct H as [H|H]; [left|right]; apply (At_ids _ k x m H); now rewrite E. }
    assert (Both : forall k k', At l k x -> At r k' x -> False).
    { intros k k' Hl Hr. apply (At_ids _ _ _ m) in Hl, Hr; try assumption. clear -ND Hl Hr. induction (ids l) as [|a t IHt]; [destruct Hl|].
      cbn [app] in ND. apply NoDup_cons_iff in ND as [Na ND]. destruct Hl as [->|Hl]; [apply Na; apply in_or_app; now right|auto]. }
    destruct (nd_app _ _ ND) as [NDl NDr].
    destruct (At_bin_both _ _ _ _ _ _ H1) as [[-> E1]|[(k1' & H1' & ->)|(k1' & H1' & ->)]]; destruct (At_bin_both _ _ _ _ _ _ H2) as [[-> E2]|[(k2' & H2' & ->)|(k2' & H2' & ->)]];
      try reflexivity; try (exfalso; eapply Root; eauto; fail); try (exfalso; eapply Both; eauto; fail).
    + rewrite (IHl NDl x k1' k2'); try assumption; [reflexivity|congruence].
    + rewrite (IHr NDr x k1' k2'); try assumption; [reflexivity|congruence].
Qed.

(** sums are only computed inside operators' results *)
Definition tidy (q : env A) (e : expr A) : Prop :=
  forall k n l r, At e k (EBin n BPlus l r) -> inplace zero one add mul q l r = true -> forall x, In x (path zero one add mul q l) -> is_leaf x = false.

Lemma disciplined_tidy q e : NoDup (ids e) -> disciplined zero one add mul q e <-> tidy q e.
Proof.
  intros ND. split; intros H k n l r Ha Hi x Hx.
  - exact (proj1 (H k n l r Ha Hi x Hx)).
  - split; [exact (H k n l r Ha Hi x Hx)|]. intros k1 k2 H1 H2 N. exact (slot_unique e ND x k1 k2 N H1 H2).
Qed.
End Slots.

Section Trees.
Notation path := (path 0%R 1%R Rplus Rmult).
Notation inplace := (inplace 0%R 1%R Rplus Rmult).

(** an operand: a value, or a tree that can be trained *)
Definition part (e : expr R) (s : st R) : Prop := evalue e = true \/ trainable_tree e s.

Lemma nudge_none (e : expr R) s : trainable_tree e s -> evalue e = false.
Proof. intros (V & _). destruct e; try reflexivity. now destruct (V c). Qed.

Lemma tree_un n o x s w : trainable_tree x s -> evalR (env_of s) (EUn n o x) = Some w -> sized w -> snd w <> [] -> ~ In n (ids x) -> trainable_tree (EUn n o x) s.
Proof.
  intros (V & T & Z & D & L) E Sw Nw Nn. split; [discriminate|]. split; [constructor; assumption|]. split; [|split].
  - exact (sizes_un _ _ _ _ _ _ _ _ w Z E Sw Nw).
  - now apply disciplined_un.
  - now apply legible_un.
Qed.

Lemma value_parts (e : expr R) k x : evalue e = true -> At e k x -> x = e.
Proof. intros V H. destruct e; try discriminate V. apply At_all in H. cbn in H. destruct H as [H|[]]. now injection H as _ <-. Qed.

Lemma tree_bin n o l r s w : part l s -> part r s -> NoDup (ids (EBin n o l r)) -> evalR (env_of s) (EBin n o l r) = Some w -> sized w -> snd w <> [] ->
  (o = BPlus -> inplace (env_of s) l r = true -> forall x, In x (path (env_of s) l) -> is_leaf x = false /\ blind x) -> trainable_tree (EBin n o l r) s.
Proof.
  intros Pl Pr ND E Sw Nw Ho. split; [discriminate|]. split; [exact ND|]. split; [|split].
  - intros k x H V. destruct (At_bin_inv _ _ _ _ _ _ H) as [[_ ->]|[(k' & Hk)|(k' & Hk)]]; [exists w; auto| |].
    + destruct Pl as [Vl|(_ & _ & Z & _)]; [|exact (Z k' x Hk V)]. rewrite (value_parts l k' x Vl Hk) in V. destruct l; try discriminate Vl. now destruct (V c).
    + destruct Pr as [Vr|(_ & _ & Z & _)]; [|exact (Z k' x Hk V)]. rewrite (value_parts r k' x Vr Hk) in V. destruct r; try discriminate Vr. now destruct (V c).
  - apply disciplined_tidy; [exact ND|]. intros k m a b Ha Hi x Hx. destruct (At_bin_inv _ _ _ _ _ _ Ha) as [[_ Q]|[(k' & Hk)|(k' & Hk)]].
    + injection Q as -> Eo -> ->. exact (proj1 (Ho (eq_sym Eo) Hi x Hx)).
    + destruct Pl as [Vl|(_ & _ & _ & D & _)]; [|exact (proj1 (D k' m a b Hk Hi x Hx))]. pose proof (value_parts l k' _ Vl Hk) as Q. destruct l; discriminate.
    + destruct Pr as [Vr|(_ & _ & _ & D & _)]; [|exact (proj1 (D k' m a b Hk Hi x Hx))]. pose proof (value_parts r k' _ Vr Hk) as Q. destruct r; discriminate.
  - intros k m a b Ha Hi x Hx. destruct (At_bin_inv _ _ _ _ _ _ Ha) as [[_ Q]|[(k' & Hk)|(k' & Hk)]].
    + injection Q as -> Eo -> ->. exact (proj2 (Ho (eq_sym Eo) Hi x Hx)).
    + destruct Pl as [Vl|(_ & _ & _ & _ & L)]; [|exact (L k' m a b Hk Hi x Hx)]. pose proof (value_parts l k' _ Vl Hk) as Q. destruct l; discriminate.
    + destruct Pr as [Vr|(_ & _ & _ & _ & L)]; [|exact (L k' m a b Hk Hi x Hx)]. pose proof (value_parts r k' _ Vr Hk) as Q. destruct r; discriminate.
Qed.

Lemma tree_hold p s w : e_hold (env_of s) p = Some w -> sized w -> snd w <> [] -> trainable_tree (EHold p) s.
Proof.
  intros E Sw Nw.
  assert (O : forall k (x : expr R), At (EHold p) k x -> x = EHold p) by (intros k x H; apply At_all in H; cbn in H; destruct H as [H|[]]; now injection H as _ <-).
  split; [discriminate|]. split; [constructor|]. split; [|split].
  - intros k x H _. rewrite (O k x H). exists w. auto.
  - intros k n l r H. discriminate (O _ _ H).
  - intros k n l r H. discriminate (O _ _ H).
Qed.

(** ** Values *)
Lemma v_ew q n o h x sh d : (forall i, apply1 o i = ew h i) -> evalR q x = Some (sh, d) -> evalR q (EUn n o x) = Some (sh, map h d).
Proof. intros Ho E. unfold evalR in *. cbn [eval]. rewrite E. specialize (Ho (sh, d)). unfold apply1 in Ho. destruct o; exact Ho. Qed.

Lemma v_minus q n l r sh x y : evalue l = false -> evalue r = false -> evalR q l = Some (sh, x) -> evalR q r = Some (sh, y) -> length x = prod sh -> length y = prod sh ->
  evalR q (e_minus n l r) = Some (sh, map2 Rminus x y).
Proof.
  intros Vl Vr El Er Lx Ly. unfold e_minus. rewrite evalR_bin.
  rewrite (operands_two q l (EUn n op_negative r) (sh, x) (sh, map Ropp y) Vl eq_refl El) by (apply v_ew; [reflexivity|assumption]).
  cbn [obind2 fst snd apply2]. rewrite plus_same; [now rewrite map2_opp|assumption|now rewrite map_length].
Qed.

(** a value on the left *)
Lemma operands_value q c r sh y : evalue r = false -> evalR q r = Some (sh, y) -> operandsR q (EVal c) r = Some ((sh, repeat c (prod sh)), (sh, y)).
Proof. intros Vr E. rewrite operandsR_cases by (cbn [evalue]; now rewrite Vr). rewrite E. cbn [obind2]. unfold const_like. cbn [fst]. now rewrite Rmult_1_l. Qed.

Lemma map2_repeat (F : R -> R -> R) c y : map2 F (repeat c (length y)) y = map (F c) y.
Proof. induction y as [|a y IH]; cbn [length repeat map2 map]; [reflexivity|]. now rewrite IH. Qed.

Lemma v_value_plus q n c r sh y : evalue r = false -> evalR q r = Some (sh, y) -> length y = prod sh -> evalR q (EBin n BPlus (EVal c) r) = Some (sh, map (Rplus c) y).
Proof.
  intros Vr E L. rewrite evalR_bin, (operands_value q c r sh y Vr E). cbn [obind2 fst snd apply2]. rewrite plus_same; [|now rewrite repeat_length|assumption].
  rewrite <- L. now rewrite map2_repeat.
Qed.

Lemma v_product dbg q n l r sh x y : evalue l = false -> evalue r = false -> evalR q l = Some (sh, x) -> evalR q r = Some (sh, y) -> length x = prod sh -> length y = prod sh ->
  prod sh <> 0 -> evalR q (EBin n (op_product dbg) l r) = Some (sh, map2 Rmult x y).
Proof.
  intros Vl Vr El Er Lx Ly Np. rewrite evalR_bin, (operands_two q l r _ _ Vl Vr El Er). cbn [obind2 fst snd apply2 op_product].
  rewrite (product_val_big dbg (sh, x) (sh, y) Lx Ly Np (le_n _)) by (exists 1; cbn [fst]; lia). cbn [fst snd]. do 2 f_equal.
  rewrite (map2_tab_nth Rmult x y (prod sh) Lx Ly). apply tab_ext. intros p Hp. now rewrite Nat.mod_small by exact Hp.
Qed.

Lemma v_value_max q n r sh y : evalue r = false -> evalR q r = Some (sh, y) -> length y = prod sh -> evalR q (EBin n op_maximum (EVal 0%R) r) = Some (sh, map (Rmax 0) y).
Proof.
  intros Vr E L. rewrite evalR_bin, (operands_value q 0%R r sh y Vr E). cbn [obind2 fst snd apply2 op_maximum op2]. unfold ew2. cbn [fst snd]. rewrite list_eqb_refl.
  rewrite <- L, map2_repeat. do 2 f_equal. apply map_ext. intros a. unfold above. destruct (Rlt_dec a 0) as [H|H]; [now rewrite Rmax_left by lra|now rewrite Rmax_right by lra].
Qed.
End Trees.

Section Train.
Variable dbg : bool.
Variable eps : R.
Notation grads := (grads 0%R 1%R Rplus Rmult dbg).

(** a loss whose backward pass starts as that of c times the sum of the elements of X *)
Theorem tree_train loss out (X : expr R) m k0 c F sh s who p tgt target pred value :
  trainable_tree loss s -> trainable_tree out s -> separate out s who -> graded out s -> right_everywhere dbg (env_of s) out -> training s = true ->
  holders s p = Some tgt -> who (ref tgt) = OLeaf -> nth_error (hp s) (ref tgt) = Some target -> shape tgt = sh -> length pred = prod sh ->
  evalR (env_of s) out = Some (sh, pred) ->
  (forall k z, At loss k z -> is_leaf z = true -> z = EHold p \/ exists k', At out k' z) ->
  (forall k z, At out k z -> exists k', At X k' z) -> (forall k z, At X k z -> exists k', At loss k' z) ->
  trainable_tree X s -> right_everywhere dbg (env_of s) X -> sh <> [] ->
  (forall q y, e_hold q p = Some (sh, target) -> evalR q out = Some (sh, y) -> length y = prod sh -> evalR q X = Some (sh, F y)) ->
  evalR (env_of s) loss = Some ([1], [value]) ->
  grads (env_of s) None loss ([1], [1%R]) = grads (env_of s) k0 (EUn m op_sum_reduce X) ([1], [c]) ->
  trained dbg eps loss out s who (ref tgt) value target
    (fun y => c * match y with Some w => rsum (F (snd w)) | None => 0 end)%R exactly.
Proof.
  intros Tl (Vo & To & Zo & Do & Lo) So Go Ro Tr Hh Hw Ht Esh Lw Ep J IX XL TX RX Nsh HF El Eg.
  assert (Nv : evalue out = false) by (destruct out; try reflexivity; now destruct (Vo c0)).
  assert (Eh : e_hold (env_of s) p = Some (sh, target)).
  { cbn [env_of e_hold]. rewrite Hh. unfold val_of. now rewrite (nth_error_nth _ _ _ Ht), Esh. }
  pose proof (HF _ _ Eh Ep Lw) as Ex.
  assert (SX : sized (sh, F pred)).
  { destruct TX as (VX & _ & ZX & _). destruct (ZX None X (At_root X) VX) as (w & Ew & Lw' & _). assert (w = (sh, F pred)) by (unfold evalR in Ex; congruence). now subst w. }
  set (E' := EUn m op_sum_reduce X).
  assert (ZE : sizes_ok 0%R 1%R Rplus Rmult (env_of s) E').
  { apply (sizes_un _ _ _ _ _ _ _ _ ([1], [sum_all (F pred)])); [apply TX| |reflexivity|discriminate]. unfold evalR in Ex. cbn [eval]. rewrite Ex. reflexivity. }
  assert (RE : right_everywhere dbg (env_of s) E').
  { apply right_un; [exact RX|]. intros i Ei. assert (i = (sh, F pred)) by congruence. subst i. now apply sum_reduce_right. }
  destruct (grads_derive dbg (env_of s) E' eq_refl ZE RE) as (y & Ey & Sy & HG).
  assert (Ey' : evalR (env_of s) E' = Some ([1], [sum_all (F pred)])). { unfold evalR in Ex |- *. unfold E'. cbn [eval]. rewrite Ex. reflexivity. }
  pose proof (eq_trans (eq_sym Ey) Ey') as Q. injection Q as ->. clear Ey'.
  destruct (HG ([1], [c]) k0 eq_refl eq_refl) as (ds & Eds & Fds & HD).
  assert (Gl : grads (env_of s) None loss ([1], [1%R]) = Some ds) by (rewrite Eg; exact Eds).
  assert (I : forall k z, At out k z -> exists k', At loss k' z) by (intros k z H; destruct (IX k z H) as (k' & H'); exact (XL k' z H')).
  destruct Tl as (Vl & Tl & Zl & Dl & Ll).
  assert (Sl : separate loss s who).
  { destruct So as (S1 & S2 & S3 & S4 & S5). split; [|split; [|split; [|split]]]; try assumption.
    - intros k v H. destruct (J k _ H eq_refl) as [E|(k' & H')]; [discriminate E|exact (S1 k' v H')].
    - intros k u t H Eu. destruct (J k _ H eq_refl) as [E|(k' & H')]; [injection E as ->; rewrite Hh in Eu; injection Eu as <-; exact Hw|exact (S2 k' u t H' Eu)].
    - intros k t H. destruct (J k _ H eq_refl) as [E|(k' & H')]; [discriminate E|exact (S3 k' t H')]. }
  assert (Gr : graded loss s).
  { intros k v H. destruct (J k _ H eq_refl) as [E|(k' & H')]; [discriminate E|exact (Go k' v H')]. }
  destruct (train_ok dbg eps loss s who [([1], [1%R])] [ds]) as (t & s1 & s2 & who2 & R1 & R2 & E1 & S2 & G2 & Vs & Hs & Ts & Ls & Ws & Fr & Vb & HT & _); try assumption.
  { constructor; [split; assumption|constructor]. }
  exists t, s1, s2, who2. split; [exact R1|]. split; [exact (f_equal (fun o => match o with Some w => w | None => ([], []) end) (eq_trans (eq_sym E1) El))|]. split; [exact R2|]. split.
  2:{ assert (Fr' : forall b, b < length (hp s) -> who b = OLeaf -> nth_error (hp s2) b = nth_error (hp s) b) by (intros b Hb Wb; apply Fr; [exact Hb|congruence..]).
      assert (La : ref tgt < length (hp s)) by (apply nth_error_Some; rewrite Ht; discriminate).
      split; [rewrite Fr' by assumption; exact Ht|]. split; [intros b Hb _ Wb; now apply Fr'|]. split; [exact Vs|]. split; [exact Hs|]. split; [exact Ts|]. split; [exact Vb|].
      split; [exact (separate_sub loss out s2 who2 I S2)|]. split; [exact (graded_sub loss out s2 I G2)|]. split; assumption. }
  intros k v i Hk Htr Hi x0 Hx. eexists. split; [|reflexivity].
  destruct (J k _ Hk eq_refl) as [E|(k2 & Hk2)]; [discriminate E|].
  destruct (HT Tr k v Hk) as [_ H']. destruct (H' ltac:(discriminate)) as [_ H'']. specialize (H'' i Hi). clear H'.
  unfold grad_of. rewrite Vs, H''. cbn [map LayerSpec.rsum]. rewrite Rplus_0_r.
  rewrite (arrived_total (vobjs s) v i ds (uses None loss)).
  2:{ exact (grads_uses dbg (env_of s) loss None _ ds Gl). }
  2:{ intros k' Hin. apply Htr. now apply (uses_at loss loss None (At_root loss)). }
  apply (is_derive_plus (K := R_AbsRing) (V := R_NormedModule) (fun x => c * match evalR (nudge (env_of s) v i x) out with Some w => rsum (F (snd w)) | None => 0 end)%R (cost eps (vobjs s) v (uses None loss))).
  - destruct (IX k2 _ Hk2) as (k3 & Hk3). pose proof (HD _ v i (At_below m op_sum_reduce X _ _ Hk3) Hi) as D.
    revert D. apply is_derive_ext_loc.
    destruct (nudged_chain dbg (env_of s) out Nv Zo Ro) as (y & Ey' & _ & _ & HC). assert (y = (sh, pred)) by congruence. subst y.
    destruct (HC k2 v i Hk2 Hi) as (dy & T & _). generalize (tan_near _ _ _ _ T). apply filter_imp. intros z (w & Ez & Sw & Zw).
    destruct w as [sw w]. cbn [fst] in Sw. subst sw. unfold sized in Zw. cbn [fst snd] in Zw.
    pose proof (HF (nudge (env_of s) v i z) w Eh Ez Zw) as EX. rewrite Ez. unfold E'. unfold evalR in EX |- *. cbn [eval]. rewrite EX. cbn [obind2]. unfold op_sum_reduce. cbn [paired snd].
    rewrite sum_all_rsum. unfold inner. cbn. ring.
  - apply cost_derive.
    + intros k' Hin. apply Htr. now apply (uses_at loss loss None (At_root loss)).
    + intros k' Hin Hle. destruct Hx as [Hx|Hx]; [exact Hx|]. specialize (Hx k' (uses_at loss loss None (At_root loss) k' v Hin)). lra.
Qed.
End Train.
