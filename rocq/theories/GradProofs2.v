(** A backward pass after a run. *)
From Coq Require Import List Arith Lia Bool PeanoNat.
From Verif Require Import ListBase TensorModel TensorSpec TensorProofs TensorProofs2 GraphModel GraphSpec GraphProofs GraphProofs2
  GraphProofs3 GraphProofs4 GradSpec GradProofs.
Import ListNotations.

Section After.
Context {A : Type} (zero one : A) (add mul : A -> A -> A) (opp : A -> A) (leb : A -> A -> bool) (eps : A).
Variable dbg : bool.
Variable e0 : expr A.
Variable q : env A.
Hypothesis Htree : NoDup (ids e0).
Hypothesis Hsz : sizes_ok zero one add mul q e0.
Hypothesis Hdis : disciplined zero one add mul q e0.
Hypothesis Hleg : legible zero one add mul q e0.

Notation eval := (eval zero one add mul q).
Notation operands := (operands zero one add mul q).
Notation owner_of := (owner_of zero one add mul q).
Notation path := (path zero one add mul q).
Notation inplace := (inplace zero one add mul q).
Notation inv := (inv zero one add mul e0 q).
Notation cached := (cached zero one add mul e0 q).
Notation consumed := (consumed zero one add mul e0 q).
Notation inputs := (inputs zero one add mul q).
Notation binv := (binv zero one add mul e0 q).
Notation reads := (reads zero one add mul q).

Lemma owner_safe x : (forall m b, owner_of x <> OBack m b) /\ (forall v, owner_of x <> OGrad v).
Proof.
  induction x as [| | | |? [] ? IH|? [] l IHl r IHr]; cbn; try (split; discriminate); auto.
  destruct (negb (is_value l) && _); [auto|split; discriminate].
Qed.

Lemma tree_cached s who k x n : inv s who -> At e0 k x -> node_id x = Some n -> cache s n <> None ->
  exists t, cache s n = Some t /\ cached s who n t k x.
Proof.
  intros I H E C. destruct (cache s n) as [t|] eqn:Ec; [|contradiction]. exists t. split; [reflexivity|].
  destruct (i_cache _ _ _ _ _ _ _ _ I n t Ec) as (k' & x' & R).
  destruct (tree_unique e0 Htree k k' x x' n H (c_at _ _ _ _ _ _ _ _ _ _ _ _ R) E (c_id _ _ _ _ _ _ _ _ _ _ _ _ R)) as [<- <-]. exact R.
Qed.

(** only sums and views have operands that are overwritten *)
Lemma not_consumed s k n x c b : At e0 k x -> node_id x = Some n -> At x (Some (n, b)) c -> node_id c <> None ->
  match x with EUn _ (UNew _ _ _ _) _ => True | EBin _ (BNew _ _ _ _) _ _ => True | _ => False end -> ~ consumed s c.
Proof.
  intros H En Hc Nc Hx (kp & np & l & r & Hp & Hin & Hv & _ & Hy).
  assert (Hc0 : At e0 (Some (n, b)) c).
  { destruct (At_trans _ _ _ H _ _ Hc) as (k2 & H2 & K2). now rewrite (K2 ltac:(discriminate)) in H2. }
  destruct (node_id c) as [i|] eqn:Ei; [|contradiction].
  destruct (path_parent2 zero one add mul q l c Hy) as [->|(w & m & Hw & Ew & Hwc & Pw)].
  - destruct (tree_unique e0 Htree _ _ l l i Hc0 (At_left _ _ _ _ _ _ Hp) Ei Ei) as [E _]. injection E as -> ->.
    destruct (tree_unique e0 Htree _ _ x _ np H Hp En eq_refl) as [_ E]. subst x. exact Hx.
  - destruct (path_At _ _ _ _ _ _ _ Hw) as (kw & Hkw).
    destruct (At_trans e0 (Some (np, false)) l (At_left _ kp np BPlus l r Hp) _ _ Hkw) as (kw' & Hw0 & _).
    assert (Hc1 : At e0 (Some (m, false)) c).
    { destruct (At_trans _ _ _ Hw0 _ _ Hwc) as (k2 & H2 & K2). now rewrite (K2 ltac:(discriminate)) in H2. }
    destruct (tree_unique e0 Htree _ _ c c i Hc0 Hc1 Ei Ei) as [E _]. injection E as -> ->.
    destruct (tree_unique e0 Htree _ _ x w m H Hw0 En Ew) as [_ ->].
    destruct w as [| | | |? [] ?|? [] ? ?]; try exact Hx; cbn [GraphSpec.path] in Pw; destruct c; discriminate.
Qed.

Lemma operand_here s who k x n c b : inv s who -> (forall m, In m (ids x) -> cache s m <> None) -> At e0 k x -> node_id x = Some n ->
  At x (Some (n, b)) c -> is_value c = false ->
  exists t w, loc s c = Some t /\ eval c = Some w /\ fst w = shape t /\ safe s who (Some t) /\
    (match x with EUn _ (UNew _ _ _ _) _ => True | EBin _ (BNew _ _ _ _) _ _ => True | _ => False end -> w = val_of (hp s) t).
Proof.
  intros I All H En Hc V.
  assert (Hc0 : At e0 (Some (n, b)) c).
  { destruct (At_trans _ _ _ H _ _ Hc) as (k2 & H2 & K2). now rewrite (K2 ltac:(discriminate)) in H2. }
  destruct (is_leaf c) eqn:L.
  - destruct (leaf_good zero one add mul e0 q Hsz s who _ c I Hc0 L) as (t & E1 & E2 & E3 & E4).
    exists t, (val_of (hp s) t). split; [exact E1|]. split; [exact E2|]. split; [reflexivity|]. split; [|auto].
    exists t. split; [reflexivity|]. split; [exact E4|]. rewrite E3. split; discriminate.
  - assert (exists i, node_id c = Some i /\ loc s c = cache s i) as (i & Ei & El) by (destruct c; try discriminate; cbn; eauto).
    assert (Hi : In i (ids x)) by (apply ids_At; eauto).
    destruct (tree_cached s who _ c i I Hc0 Ei (All i Hi)) as (t & Et & R).
    destruct (c_shape _ _ _ _ _ _ _ _ _ _ _ _ R) as (w & Ew & Es).
    exists t, w. split; [congruence|]. split; [exact Ew|]. split; [exact Es|]. split.
    + exists t. split; [reflexivity|]. split; [exact (c_live _ _ _ _ _ _ _ _ _ _ _ _ R)|].
      rewrite (c_who _ _ _ _ _ _ _ _ _ _ _ _ R). apply owner_safe.
    + intros Hx. destruct (c_val _ _ _ _ _ _ _ _ _ _ _ _ R) as [Ev|Co]; [congruence|].
      exfalso. exact (not_consumed s k n x c b H En Hc ltac:(congruence) Hx Co).
Qed.

Lemma out_here s who k x n : inv s who -> (forall m, In m (ids x) -> cache s m <> None) -> At e0 k x -> node_id x = Some n ->
  exists t, out (objs s k) = Some t /\ safe s who (Some t) /\ (blind x \/ eval x = Some (val_of (hp s) t)) /\ inputs s who k x.
Proof.
  intros I All H En. assert (Hi : In n (ids x)) by (apply ids_At; exists None, x; split; [constructor|exact En]).
  destruct (tree_cached s who k x n I H En (All n Hi)) as (t & Et & R).
  exists t. split; [exact (c_out _ _ _ _ _ _ _ _ _ _ _ _ R)|]. split.
  { exists t. split; [reflexivity|]. split; [exact (c_live _ _ _ _ _ _ _ _ _ _ _ _ R)|].
    rewrite (c_who _ _ _ _ _ _ _ _ _ _ _ _ R). apply owner_safe. }
  split; [|exact (c_in _ _ _ _ _ _ _ _ _ _ _ _ R)].
  destruct (c_val _ _ _ _ _ _ _ _ _ _ _ _ R) as [Ev|(kp & np & l & r & Hp & Hin & Hv & _ & Hy)]; [now right|left].
  exact (Hleg kp np l r Hp Hin x Hy).
Qed.

Lemma temp_here s who c v i : temp one mul s who false c v i -> val_opt (hp s) i = const_like one mul c v /\ safe s who i.
Proof.
  intros (t & -> & Es & H). destruct (H eq_refl) as (H1 & H2 & H3). split; [exact H1|].
  exists t. split; [reflexivity|]. split; [exact H3|]. rewrite H2. split; discriminate.
Qed.

(** ** the state a run leaves behind *)
Lemma after_node s who k x : inv s who -> At e0 k x -> (forall m, In m (ids x) -> cache s m <> None) -> reads s who k x.
Proof.
    intros I H All.
    assert (Hs : exists w, eval x = Some w \/ is_value x = true).
    { destruct (is_value x) eqn:V; [exists ([], []); now right|].
      destruct (Hsz k x H ltac:(intros c ->; discriminate)) as (w & Ew & _). exists w. now left. }
    destruct x as [v|p|t|c|n [own f m b|f] c|n o l r]; try exact Logic.I.
    + destruct (out_here s who k _ n I All H eq_refl) as (u & U1 & U2 & U3 & U4). cbn [GraphProofs2.inputs] in U4.
      assert (V : is_value c = false).
      { destruct c; try reflexivity. destruct Hs as (w & [Hw|Hw]); discriminate. }
      destruct (operand_here s who k _ n c false I All H eq_refl (At_un _ None n _ c (At_root _)) V) as (t & w & E1 & E2 & E3 & E4 & E5).
      exists w. rewrite U4, E1, U1. split; [exact E2|]. cbn [val_opt]. split; [symmetry; exact (E5 Logic.I)|]. auto.
    + destruct (out_here s who k _ n I All H eq_refl) as (u & U1 & U2 & U3 & U4). cbn [GraphProofs2.inputs] in U4.
      assert (V : is_value c = false).
      { destruct c; try reflexivity. destruct Hs as (w & [Hw|Hw]); discriminate. }
      destruct (operand_here s who k _ n c false I All H eq_refl (At_un _ None n _ c (At_root _)) V) as (t & w & E1 & E2 & E3 & E4 & E5).
      exists w. rewrite U4, E1. split; [exact E2|]. cbn [val_opt val_of fst]. congruence.
    + destruct (out_here s who k _ n I All H eq_refl) as (u & U1 & U2 & U3 & U4).
      destruct (is_value l) eqn:Vl; [|destruct (is_value r) eqn:Vr].
      * destruct l as [| | |c| |]; try discriminate. cbn [GraphProofs2.inputs] in U4. destruct U4 as (I2 & v & Ev & T).
        assert (V : is_value r = false).
        { destruct r; try reflexivity. discriminate. }
        destruct (operand_here s who k _ n r true I All H eq_refl (At_right _ None n o (EVal c) r (At_root _)) V) as (t & w & E1 & E2 & E3 & E4 & E5).
        assert (v = w) as -> by congruence.
        assert (Op : operands (EVal c) r = Some (const_like one mul c w, w)) by (cbn [GraphSpec.operands]; rewrite E2; reflexivity).
        destruct o as [|own f bown b].
        -- exists (const_like one mul c w), w. split; [exact Op|]. rewrite I2, E1. destruct T as (u' & -> & Es & _). cbn. auto.
        -- destruct (temp_here _ _ _ _ _ T) as [T1 T2]. exists (const_like one mul c w), w. split; [exact Op|]. rewrite I2, E1, U1.
           split; [exact T1|]. split; [exact T2|]. cbn [val_opt]. split; [symmetry; exact (E5 Logic.I)|]. auto.
      * destruct r as [| | |c| |]; try discriminate.
        assert (U5 : in1 (objs s k) = loc s l /\ exists v, eval l = Some v /\ temp one mul s who (is_plus o) c v (in2 (objs s k))).
        { destruct l; try discriminate; exact U4. }
        destruct U5 as (I1 & v & Ev & T).
        destruct (operand_here s who k _ n l false I All H eq_refl (At_left _ None n o l (EVal c) (At_root _)) Vl) as (t & w & E1 & E2 & E3 & E4 & E5).
        assert (v = w) as -> by congruence.
        assert (Op : operands l (EVal c) = Some (w, const_like one mul c w)) by (destruct l; try discriminate; cbn [GraphSpec.operands]; rewrite E2; reflexivity).
        destruct o as [|own f bown b].
        -- exists w, (const_like one mul c w). split; [exact Op|]. rewrite I1, E1. destruct T as (u' & -> & Es & _). cbn. auto.
        -- destruct (temp_here _ _ _ _ _ T) as [T1 T2]. exists w, (const_like one mul c w). split; [exact Op|]. rewrite I1, E1, U1. cbn [val_opt].
           split; [symmetry; exact (E5 Logic.I)|]. split; [exact E4|]. split; [exact T1|]. split; [exact T2|]. auto.
      * assert (U5 : in1 (objs s k) = loc s l /\ in2 (objs s k) = loc s r).
        { destruct l, r; try discriminate; exact U4. }
        destruct U5 as [I1 I2].
        destruct (operand_here s who k _ n l false I All H eq_refl (At_left _ None n o l r (At_root _)) Vl) as (t & w & E1 & E2 & E3 & E4 & E5).
        destruct (operand_here s who k _ n r true I All H eq_refl (At_right _ None n o l r (At_root _)) Vr) as (t' & w' & E1' & E2' & E3' & E4' & E5').
        assert (Op : operands l r = Some (w, w')) by (destruct l, r; try discriminate; cbn [GraphSpec.operands]; rewrite E2, E2'; reflexivity).
        destruct o as [|own f bown b].
        -- exists w, w'. split; [exact Op|]. rewrite I1, I2, E1, E1'. cbn. auto.
        -- exists w, w'. split; [exact Op|]. rewrite I1, I2, E1, E1', U1. cbn [val_opt].
           split; [symmetry; exact (E5 Logic.I)|]. split; [exact E4|]. split; [symmetry; exact (E5' Logic.I)|]. auto.
Qed.

Theorem after_run s who : inv s who -> (forall m, In m (ids e0) -> cache s m <> None) ->
  graded e0 s ->
  binv s who.
Proof.
  intros I All HG. constructor.
  - intros k y t H L E. destruct (leaf_good zero one add mul e0 q Hsz s who k y I H L) as (t' & E1 & _ & _ & E4). congruence.
  - exact (i_sep _ _ _ _ _ _ _ _ I).
  - intros k x H. apply after_node; auto. intros m Hm. apply All. apply ids_At in Hm. destruct Hm as (k1 & y & Hy & Ey).
    destruct (At_trans _ _ _ H _ _ Hy) as (k2 & H2 & _). apply ids_At. eauto.
  - exact (i_var _ _ _ _ _ _ _ _ I).
  - exact HG.
Qed.

End After.
