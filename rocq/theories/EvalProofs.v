(** Running a loss without training on it: what it returns, in either phase, and that the session is ready again. *)
From Coq Require Import List Arith Lia Bool PeanoNat NArith ZArith Reals Lra.
From Coquelicot Require Import Rcomplements Rbar Hierarchy Derive.
From Verif Require Import PairSpec PairProps XentSpec.
From Verif Require Import ListBase Loops TensorModel TensorSpec ArrayModel LayerModel LayerSpec GraphModel GraphSpec GraphProofs GradSpec OpModel CalcSpec LossModel LossSpec OptModel OptSpec OptProofs2 OptProps TrainSpec TrainProofs.
From Verif Require Import ComplexModel FittingSpec RunFrame.
Import ListNotations.
Local Open Scope nat_scope.

(** e is made of a and b and numbers *)
Definition made_from (a b e : expr R) : Prop :=
  forall Q : expr R -> Prop, (forall c, Q (EVal c)) -> (forall n o x, Q x -> Q (EUn n o x)) -> (forall n o l r, Q l -> Q r -> Q (EBin n o l r)) -> Q a -> Q b -> Q e.

Lemma every_made dbg eps smooth lo up L n a b : In L (comparisons dbg eps smooth lo up) -> made_from a b (term L n a b).
Proof.
  intros H Q Hv Hu Hb Ha Hc. unfold comparisons in H. cbn [In] in H.
  repeat match goal with H : _ \/ _ |- _ => destruct H as [<-|H] end; [..|destruct H];
    unfold of_differences, of_pairs, of_scores; cbn [term];
    unfold squared_loss, mean_squared_error, abs_loss, mean_absolute_error, cross_entropy, hinge_loss, mean_squared_logarithmic_error, cross_entropy_loss, e_minus;
    repeat (first [assumption|apply Hv|apply Hu|apply Hb]).
Qed.

Lemma leaves_aloof (A:=R) X vs hs (root : expr R) : (forall k v, At root k (EVar v) -> aloof (A:=R) X vs hs (EVar v)) -> (forall k p, At root k (EHold p) -> aloof (A:=R) X vs hs (EHold p)) ->
  (forall k t, At root k (EConst t) -> aloof (A:=R) X vs hs (EConst t)) -> forall e k, At root k e -> aloof (A:=R) X vs hs e.
Proof.
  intros Hv Hh Hc. induction e as [v|p|t|c|n o e IH|n o l IHl r IHr]; intros k Hk; cbn [aloof].
  - exact (Hv k v Hk).
  - exact (Hh k p Hk).
  - exact (Hc k t Hk).
  - exact I.
  - eapply IH, At_un, Hk.
  - split; [eapply IHl, At_left, Hk|eapply IHr, At_right, Hk].
Qed.
Lemma vars_known (Y : nat -> Prop) gref (root : expr R) : (forall k v, At root k (EVar v) -> Y (gref v)) -> forall e k, At root k e -> known Y gref e.
Proof.
  intros Hv. induction e as [v|p|t|c|n o e IH|n o l IHl r IHr]; intros k Hk; cbn [known]; try exact I.
  - exact (Hv k v Hk).
  - eapply IH, At_un, Hk.
  - split; [eapply IHl, At_left, Hk|eapply IHr, At_right, Hk].
Qed.

Section Look.
Variables (dbg : bool) (eps : R).
Notation run := (run 0%R 1%R Rplus Rmult dbg).
Definition no_cache : nat -> option tensor := fun _ => None.

(** running a loss in the learning phase (bt) or the prediction phase *)
Theorem looked sess e out s c who p ty value rest objective near (bt : bool) :
  ready sess out (W s c) who -> (forall v b, In (v, b) sess -> exists k, At out k (EVar v)) -> (forall v b, In (v, b) sess -> ~ In (ref ty) (foot (W s c) v)) ->
  made_from (EHold p) out e -> holders s p = Some ty -> ref ty < length (hp s) -> who (ref ty) = OLeaf ->
  LossSpec.trained dbg eps e out s who (ref ty) value rest objective near ->
  exists y s1 who1, run e (set_training s bt) = Ok (y, s1) /\ val_of (hp s1) y = ([1], [value]) /\
    ready sess out (W (set_training (set_cache s1 no_cache) true) c) who1 /\ training s1 = bt /\
    vars s1 = vars s /\ holders s1 = holders s /\ length (hp s) <= length (hp s1) /\
    (forall k, trainable (vobjs s1 k) = trainable (vobjs s k) /\ l1 (vobjs s1 k) = l1 (vobjs s k) /\ l2 (vobjs s1 k) = l2 (vobjs s k)) /\
    nth_error (hp s1) (ref ty) = Some rest /\
    (forall r, r < length (hp s) -> r <> ref ty -> who r = OLeaf -> nth_error (hp s1) r = nth_error (hp s) r) /\
    (forall r, r < length (hp s) -> who1 r = who r).
Proof.
  intros Rd Oc Hty Mf Hh Lty Wty (t & s1 & s2 & who2 & R1 & V1 & R2 & _ & Ra & F2 & V2 & H2 & T2 & O2 & Sp2 & Gd2 & L2 & W2).
  pose proof Rd as [Sp Or Rv Rl Ri Rc Rh Rt]. cbn [gr ctx] in *. pose proof Sp as (Sv & Sh & Sc & So & Sb).
  set (X := fun r => exists v b, In (v, b) sess /\ r = ref (vgrad (vars s v))).
  assert (Xw : forall r, X r -> r < length (hp s) /\ exists v, who r = OGrad v).
  { intros r (v & b & Hv & ->). destruct (Oc v b Hv) as [k Hk]. destruct (Sv k v Hk) as (_ & Q & Q'). eauto. }
  assert (Nl : forall r, who r = OLeaf -> ~ X r) by (intros r Hr Hx; destruct (Xw r Hx) as (_ & v & Q); congruence).
  set (a := set_ran (set_cache s no_cache) []). set (a0 := set_training a false).
  assert (Lk : like X (vars s) (holders s) (ownb s) a a0).
  { constructor; unfold a0, a; cbn [set_ran set_cache set_training hp cache objs own ran vars holders ownb training]; auto.
    - split; [reflexivity|]. split; [reflexivity|]. intros r Hr. now apply Xw.
    - intros k. cbn. auto.
    - discriminate.
    - intros n u Hu. destruct (So n u Hu) as [Q1 Q2]. split; [|exact Q2]. intros Hx. destruct (Xw _ Hx) as (_ & v & Q). congruence. }
  assert (Al : aloof X (vars s) (holders s) e).
  { apply (Mf (aloof X (vars s) (holders s))); cbn [aloof]; auto.
    - rewrite Hh. auto.
    - apply (leaves_aloof X (vars s) (holders s) out) with (k := None); [| | |apply At_root]; intros k v Hk; cbn [aloof].
      + destruct (Sv k v Hk) as (Q & _). split; [|auto]. destruct (Rv k v Hk) as [b Hb]. now exists v, b.
      + destruct (holders s v) as [u|] eqn:Eu; [|exact I]. apply Nl. exact (Sh k v u Hk Eu).
      + apply Nl. exact (Sc k v Hk). }
  assert (F1 : forward 0%R 1%R Rplus Rmult dbg None e a = Ok (t, s1)) by exact R1.
  destruct (calm_forward 0%R 1%R Rplus Rmult dbg X _ _ _ e None Al a a0 t s1 Lk F1) as (s01 & F01 & Lk' & [La Lf Lx] & [La0 Lf0 Lx0] & Ct).
  destruct Lk' as [(Kl & Kq & Kb) Kc Kbo Ko Kr Kf [Kv Kv0] [Kd Kd0] [Kw Kw0] Kt Ke Ka Kz].
  assert (R0 : run e (set_training s false) = Ok (t, s01)) by exact F01.
  change (hp a) with (hp s) in *. change (hp a0) with (hp s) in *.
  (* the backward pass *)
  set (Y := fun r => X r \/ (exists n b u, ownb s n b = Some u /\ r = ref u) \/ length (hp s1) <= r).
  assert (Bk : own s2 = own s1 /\ forall r, ~ Y r -> nth_error (hp s2) r = nth_error (hp s1) r).
  { cbn [backs] in R2. unfold gbind at 1 in R2. unfold new_tensor, heaply, alloc in R2. cbn [fst snd] in R2. set (sa := set_hp s1 (hp s1 ++ [[1%R]])) in *. unfold gbind in R2.
    match type of R2 with match ?b with _ => _ end = _ => destruct b as [[u sB]| |] eqn:EB; try discriminate end. unfold gret in R2. injection R2 as R2. subst sB.
    assert (Yn : forall r, length (hp s1) <= r -> Y r) by (intros r Hr; right; now right).
    destruct (writes_backward 0%R 1%R Rplus Rmult Ropp rleb eps dbg Y (fun v => ref (vgrad (vars s v))) (length (hp s1)) Yn e None (mkT [1] (length (hp s1)))) with (s := sa) (v := u) (s' := s2) as (_ & [[_ Kh] Ko2 _] & _).
    - apply (Mf (known Y (fun v => ref (vgrad (vars s v))))); cbn [known]; auto.
      apply (vars_known Y _ out) with (k := None); [|apply At_root]. intros k v Hk. left. destruct (Rv k v Hk) as [b Hb]. now exists v, b.
    - apply Yn. cbn [ref]. lia.
    - constructor; unfold sa; cbn [set_hp hp vars ownb].
      + rewrite app_length. lia.
      + intros v. now rewrite Kv.
      + intros n b u' Hu. rewrite Kw in Hu. right. left. now exists n, b, u'.
    - exact EB.
    - unfold sa in Kh, Ko2. cbn [set_hp hp own] in Kh, Ko2. split; [exact Ko2|]. intros r Hr. rewrite (Kh r Hr). apply nth_error_app1. destruct (Nat.lt_ge_cases r (length (hp s1))); [assumption|]. destruct Hr. auto. }
  destruct Bk as [Bo Bh].
  assert (Ly : forall r, r < length (hp s) -> who r = OLeaf -> nth_error (hp s1) r = nth_error (hp s2) r).
  { intros r Hr Hw. symmetry. apply Bh. intros [Hx|[(n & b & u & Hu & ->)|Hx]]; [exact (Nl r Hw Hx)| |lia]. destruct (Sb n b u Hu). congruence. }
  (* both phases *)
  assert (Both : exists z, run e (set_training s bt) = Ok (t, z) /\ training z = bt /\ own z = own s1 /\ vars z = vars s /\ holders z = holders s /\ ownb z = ownb s /\ length (hp z) = length (hp s1) /\
    (forall r, ~ X r -> nth_error (hp z) r = nth_error (hp s1) r) /\ (forall r, X r -> length (nth r (hp z) []) = length (nth r (hp s) [])) /\ flags s z).
  { destruct bt.
    - exists s1. split; [|repeat split; auto].
      + replace (set_training s true) with s; [exact R1|]. clear -Rt. destruct s. cbn in Rt. now subst.
      + apply Lf.
      + apply Lf.
      + apply Lf.
    - exists s01. split; [exact R0|]. split; [exact Ke|]. split; [exact Ko|]. repeat split; auto.
      + intros r Hr. apply nth_error_len. auto.
      + apply Lf0.
      + apply Lf0.
      + apply Lf0. }
  destruct Both as (z & Rz & Tz & Oz & Vz & Hz & Bz & Lz & Qz & Xz & Fz).
  exists t, z, who2. split; [exact Rz|]. split.
  { unfold val_of in *. injection V1 as -> V1. f_equal. rewrite <- V1. specialize (Qz (ref t) Ct). destruct (nth_error (hp s1) (ref t)) as [d|] eqn:D.
    - now rewrite (nth_error_nth _ _ [] Qz), (nth_error_nth _ _ [] D).
    - apply nth_error_None in D. rewrite !nth_overflow by lia. reflexivity. }
  assert (Leaf : forall r, r < length (hp s) -> r <> ref ty -> who r = OLeaf -> nth_error (hp z) r = nth_error (hp s) r).
  { intros r Hr Ne Hw. rewrite Qz, Ly by auto. now apply F2. }
  split; [|split; [exact Tz|split; [exact Vz|split; [exact Hz|split; [lia|split; [exact Fz|split; [|split; [exact Leaf|exact W2]]]]]]]]; [|rewrite Qz, Ly by auto; exact Ra].
  assert (Ft : forall v, foot (W (set_training (set_cache z no_cache) true) c) v = foot (W s c) v) by (intros v; unfold foot; cbn [gr ctx set_training set_cache vars]; now rewrite Vz).
  destruct Sp2 as (Sv2 & Sh2 & Sc2 & So2 & Sb2).
  constructor; cbn [gr ctx set_training set_cache hp vars holders own ownb training]; auto.
  - split; [|split; [|split; [|split]]]; cbn [gr ctx set_training set_cache hp vars holders own ownb training].
    + intros k v Hk. rewrite Vz. destruct (Sv2 k v Hk) as (Q1 & Q2 & _). rewrite V2 in Q1, Q2. destruct (Sv k v Hk) as (_ & _ & Q3). split; [exact Q1|]. split; [exact Q2|lia].
    + intros k q u Hk. rewrite Hz, <- H2. apply (Sh2 k q u Hk).
    + exact Sc2.
    + intros n u. rewrite Oz. intros Hu. split; [apply So2; now rewrite Bo|]. destruct (Kz n u Hu). lia.
    + intros n b u. rewrite Bz. intros Hu. destruct (Sb n b u Hu) as [Q1 Q2]. rewrite W2 by exact Q2. split; [exact Q1|lia].
  - destruct Or as [O1 O3 O4]. constructor; [exact O1| |].
    + intros v b Hv. destruct (O3 v b Hv) as [T1 T3 T4 T5]. constructor; cbn [gr ctx set_training set_cache vars]; rewrite ?Vz; auto.
      * intros r Hr. rewrite Ft in Hr. destruct (T4 r Hr) as [Q1 Q2]. unfold count in *. cbn [gr ctx set_training set_cache vars hp] in *. rewrite Vz. split; [lia|]. rewrite <- Q2.
        destruct Hr as [Hr|Hr]; [apply Xz; exists v, b; now split|]. apply nth_error_len. apply Leaf; [exact Q1| |exact (Rl v b r Hv Hr)]. intros ->. apply (Hty v b Hv). now right.
      * rewrite Ft. exact T5.
    + intros v b v' b' Hv Hv' Ne r. rewrite !Ft. exact (O4 v b v' b' Hv Hv' Ne r).
  - intros v b r Hv. rewrite Vz. intros Hr. rewrite W2; [exact (Rl v b r Hv Hr)|]. apply (t_live _ _ (o_tidy _ _ Or v b Hv) r). now right.
  - intros v b Hv. rewrite Vz. intros Ha. rewrite W2; [exact (Ri v b Hv Ha)|]. apply (t_live _ _ (o_tidy _ _ Or v b Hv)). now left.
  - intros k u Hk. destruct (Rc k u Hk) as [Q1 Q2]. split; [lia|]. intros v b Hv. rewrite Ft. exact (Q2 v b Hv).
  - intros k q u Hk. rewrite Hz. intros Hu. destruct (Rh k q u Hk Hu) as [Q1 Q2]. split; [lia|]. intros v b Hv. rewrite Ft. exact (Q2 v b Hv).
Qed.
End Look.
