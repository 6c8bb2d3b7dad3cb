(** Proofs about training with a loss that overwrites its target: like OptProofs2.v, but with what LossSpec.v says of a step. *)
From Coq Require Import List Arith Lia Bool PeanoNat Reals Lra.
From Coquelicot Require Import Rcomplements Hierarchy Derive.
From Verif Require Import ListBase TensorModel TensorSpec ArrayModel GraphModel GraphSpec GradSpec LayerSpec GraphProofs GraphProofs2 GraphProofs3 GradProofs GradProofs2 GradProofs3
  CalcSpec CalcProofs CalcProofs2 CalcProofs3 GradProps OptModel OptSpec OptProofs OptProofs2.
From Verif Require LossSpec.
Import ListNotations.
Local Open Scope nat_scope.

Section Batch.
Variable dbg : bool.
Variable eps : R.
Notation run := (run 0%R 1%R Rplus Rmult dbg).

(** what a batch does to the variables, its gradients being those of the objective *)
Record learned (e out : expr R) (sess : list (nat * bool)) (o : opt) (feed : list (nat * val R)) (objective : option (val R) -> R) (near : nat -> nat -> R -> R -> Prop) (w w' : world) : Prop := {
  n_vars : forall v, vars (gr w') v = vars (gr w) v;
  n_flags : forall k, trainable (vobjs (gr w') k) = trainable (vobjs (gr w) k) /\ l1 (vobjs (gr w') k) = l1 (vobjs (gr w) k) /\ l2 (vobjs (gr w') k) = l2 (vobjs (gr w) k);
  n_move : forall v, In (v, true) sess ->
    length (weights w' v) = count w v /\ gradient w' v = repeat 0%R (count w v) /\
    forall p, p < count w v -> exists g,
      (forall k, At e k (EVar v) -> (forall k', At e k' (EVar v) -> trainable (vobjs (gr w) k') = true) ->
        (nth p (weights w v) 0%R <> 0%R \/ forall k', At e k' (EVar v) -> (l1 (vobjs (gr w) k') < eps)%R) ->
        exists l, is_derive (fun x => objective (evalR (nudge (env_of (bound feed (gr w))) v p x) out) + cost eps (vobjs (gr w)) v (uses None e) x)%R (nth p (weights w v) 0%R) l /\ near v p g l) /\
      (memory w' v p, nth p (weights w' v) 0%R) =
      move (alg o) eps (next_rate o) (steps o) (memory_or_new (alg o) w v p) (nth p (weights w v) 0%R) g;
  n_still : forall v, In (v, false) sess -> weights w' v = weights w v /\ ctx w' v = ctx w v /\ forall t, In t (ctx w v) -> elements w' t = elements w t
}.

Theorem loss_batch_at sess e out w who feed o a value rest objective near :
  ready sess out w who -> ready sess out (W (bound feed (gr w)) (ctx w)) who -> (forall v b, In (v, b) sess -> ~ In a (foot w v)) ->
  LossSpec.trained dbg eps e out (bound feed (gr w)) who a value rest objective near ->
  (forall v b, In (v, b) sess -> exists k, At out k (EVar v)) ->
  (forall v, In (v, true) sess -> stocked (alg o) w v) ->
  exists y s1 w' who', train_batch dbg eps sess e feed o w = Ok (y, Opt (alg o) (next_rate o) (S (steps o)), w') /\
    run e (bound feed (gr w)) = Ok (y, s1) /\ val_of (hp s1) y = ([1], [value]) /\
    ready sess out w' who' /\ (forall v, In (v, true) sess -> stocked (alg o) w' v) /\ holders (gr w') = holders (bound feed (gr w)) /\
    learned e out sess o feed objective near w w' /\
    let h := hp (bound feed (gr w)) in
    length h <= length (hp (gr w')) /\ (a < length h -> nth_error (hp (gr w')) a = Some rest) /\
    (forall r, r < length h -> r <> a -> who r = OLeaf -> (forall v b, In (v, b) sess -> ~ In r (foot w v)) -> nth_error (hp (gr w')) r = nth_error h r) /\
    (forall r, r < length h -> who r = OLeaf -> who' r = OLeaf) /\
    (forall v r, In r (foot w' v) -> In r (foot w v) \/ length h <= r).
Proof.
  destruct w as [s0 c]. cbn [gr ctx]. intros Rd0 Rd Ha (t & s1 & s2 & who2 & R1 & V1 & R2 & HT & Ra & F2 & V2 & H2 & T2 & O2 & Sp2 & Gd2 & L2 & W2) Oc St.
  destruct (bound_keeps feed s0) as (BV & BO & BT & BL & BF). rename who into whob.
  set (s := bound feed s0) in *.
  pose proof (r_ord _ _ _ _ Rd0) as Or0. pose proof (r_ord _ _ _ _ Rd) as Or.
  assert (F2' : forall r, r < length (hp s) -> r <> a -> whob r = OLeaf -> nth r (hp s2) [] = nth r (hp s) []).
  { intros r Hr Na Hl. apply nth_of_error. apply F2; auto; congruence. }
  set (nc := fun _ : nat => @None tensor).
  set (w2 := W (set_cache s2 nc) c).
  assert (Vw : forall v, vars s2 v = vars s0 v) by (intros v; now rewrite V2, BV).
  assert (Lv : forall v b r, In (v, b) sess -> In r (foot (W s c) v) -> r < length (hp s) /\ length (nth r (hp s) []) = count (W s c) v).
  { intros v b r Hv. apply (t_live _ _ (o_tidy _ _ Or v b Hv)). }
  assert (Ft0 : forall v, foot (W s0 c) v = foot (W s c) v) by (intros v; unfold foot; cbn [gr ctx]; now rewrite BV).
  assert (Lv0 : forall v b r, In (v, b) sess -> In r (foot (W s c) v) -> r < length (hp s0)).
  { intros v b r Hv Hr. rewrite <- Ft0 in Hr. apply (t_live _ _ (o_tidy _ _ Or0 v b Hv) r Hr). }
  assert (Ft2 : forall v, foot w2 v = foot (W s c) v) by (intros v; unfold foot, w2; cbn [gr ctx set_cache vars]; now rewrite V2).
  assert (Ct2 : forall v, count w2 v = count (W s c) v) by (intros v; unfold count, w2; cbn [gr set_cache vars]; now rewrite V2).
  assert (Ct0 : forall v, count (W s0 c) v = count (W s c) v) by (intros v; unfold count; cbn [gr]; now rewrite BV).
  assert (Body : forall v b r, In (v, b) sess -> In r (ref (vdata (vars s v)) :: map ref (c v)) -> nth r (hp s2) [] = nth r (hp s) []).
  { intros v b r Hv Hr. assert (Hf : In r (foot (W s c) v)) by (unfold foot; cbn [gr ctx]; now right). apply F2'.
    - now apply (Lv v b r Hv).
    - rewrite <- Ft0 in Hf. intros ->. exact (Ha v b Hv Hf).
    - exact (r_leaf _ _ _ _ Rd v b r Hv Hr). }
  assert (Body0 : forall v b r, In (v, b) sess -> In r (ref (vdata (vars s v)) :: map ref (c v)) -> nth r (hp s2) [] = nth r (hp s0) []).
  { intros v b r Hv Hr. rewrite (Body v b r Hv Hr). apply BF. apply (Lv0 v b r Hv). unfold foot. cbn [gr ctx]. now right. }
  assert (Gin : forall v b, In (v, b) sess -> length (nth (ref (vgrad (vars s v))) (hp s2) []) = count (W s c) v).
  { intros v b Hv. destruct (Oc v b Hv) as [k Hk]. destruct (Gd2 k v Hk) as [_ Q]. rewrite V2 in Q. exact Q. }
  assert (Or2 : orderly sess w2).
  { constructor.
    - exact (o_once _ _ Or).
    - intros v b Hv. destruct (o_tidy _ _ Or v b Hv) as [T1 T3 T4 T5]. cbn [gr ctx] in *.
      constructor; unfold w2; cbn [gr ctx set_cache vars hp]; rewrite ?V2; auto.
      + intros r Hr. fold w2 in Hr. rewrite Ft2 in Hr. fold w2. rewrite Ct2. destruct (T4 r Hr) as [Q1 Q2]. split; [lia|].
        destruct Hr as [Hr|Hr].
        * subst r. cbn [gr] in *. exact (Gin v b Hv).
        * rewrite (Body v b r Hv Hr). exact Q2.
      + fold w2. rewrite Ft2. exact T5.
    - intros v b v' b' Hv Hv' Ne r. rewrite !Ft2. exact (o_apart _ _ Or v b v' b' Hv Hv' Ne r). }
  destruct (update_all_ok dbg eps (alg o) (next_rate o) (steps o) sess sess w2) as (w' & h' & U & G' & L' & Or' & M & C & F & P);
    [apply incl_refl|exact (o_once _ _ Or)|exact Or2|exact St|].
  assert (TB : train_batch dbg eps sess e feed o (W s0 c) = Ok (t, Opt (alg o) (next_rate o) (S (steps o)), w')).
  { unfold train_batch.
    rewrite (obnd_ok _ _ _ tt (W s c)) by (unfold on_graph; cbn [gr ctx]; now rewrite bind_all_ok).
    rewrite (obnd_ok _ _ _ t (W s1 c)) by (unfold on_graph; cbn [gr ctx]; now rewrite R1).
    rewrite (obnd_ok _ _ _ tt (W (set_cache s1 nc) c)) by reflexivity.
    pose proof (un_backs dbg eps e [([1], [1%R])] s1 nc) as B. rewrite R2 in B.
    cbn [GradSpec.backs] in B. unfold gbind at 1 in B. unfold new_tensor at 1, heaply at 1, alloc at 1 in B. unfold gbind in B at 1.
    match type of B with match ?b with _ => _ end = _ => destruct b as [[u sB]| |] eqn:EB; try discriminate end.
    unfold gret in B. injection B as B. subst sB. destruct u.
    unfold step.
    rewrite (obnd_ok (obnd _ _) _ _ (Opt (alg o) (next_rate o) (S (steps o))) w'); [reflexivity|].
    unfold on_graph at 1, new_tensor at 1, heaply at 1, alloc at 1, obnd at 1. cbn [gr ctx set_cache hp].
    unfold obnd at 1. unfold on_graph at 1. cbn [gr ctx]. cbn [set_cache hp] in EB. rewrite EB.
    fold w2. cbv zeta. now rewrite (obnd_ok _ _ _ tt w'). }
  exists t, s1, w', (who_new who2 (length (hp s2)) OLeaf).
  split; [exact TB|]. split; [exact R1|]. split; [exact V1|].
  assert (Vw' : forall v, vars (gr w') v = vars s v) by (intros v; rewrite G'; unfold w2; cbn [gr set_hp set_cache vars]; apply V2).
  assert (Hp' : hp (gr w') = h') by (rewrite G'; reflexivity).
  cbn [w2 gr set_cache hp] in L', F, P.
  assert (WL : forall r, r < length (hp s) -> whob r = OLeaf -> who_new who2 (length (hp s2)) OLeaf r = OLeaf).
  { intros r Hr Hl. rewrite who_new_old by lia. rewrite W2 by assumption. exact Hl. }
  assert (Pf : forall v r, In r (foot w' v) -> In r (foot (W s c) v) \/ length (hp s2) <= r).
  { intros v r Hr. destruct (P v r Hr) as [Q|Q]; [left; now rewrite <- Ft2|now right]. }
  assert (Lf : forall v b r, In (v, b) sess -> In r (ref (vdata (vars (gr w') v)) :: map ref (ctx w' v)) -> who_new who2 (length (hp s2)) OLeaf r = OLeaf).
  { intros v b r Hv Hr. assert (Hf : In r (foot w' v)) by (now right). destruct (Pf v r Hf) as [Q|Q]; [|now apply who_new_new].
    destruct Q as [Q|Q].
    - exfalso. pose proof (t_own _ _ (o_tidy _ _ Or' v b Hv)) as Nd. unfold foot in Nd. inversion Nd as [|? ? Nn _]; subst. apply Nn. rewrite Vw' in *. exact Hr.
    - apply WL; [apply (Lv v b r Hv); now right|]. exact (r_leaf _ _ _ _ Rd v b r Hv Q). }
  split.
  { destruct Sp2 as (S1 & S2 & S3 & S4 & S5).
    constructor.
    - rewrite G'. unfold w2. cbn [gr]. split; [|split; [|split; [|split]]]; cbn [set_hp set_cache vars holders own ownb hp].
      + intros k v Hk. destruct (S1 k v Hk) as (Q1 & Q2 & Q3). destruct (r_vars _ _ _ _ Rd k v Hk) as [b Hb]. split; [|split].
        * apply (Lf v b _ Hb). left. now rewrite Vw', V2.
        * rewrite who_new_old by assumption. exact Q2.
        * lia.
      + intros k p t' Hk Eh. rewrite H2 in Eh. destruct (r_hold _ _ _ _ Rd k p t' Hk Eh) as [Q _]. apply WL; [exact Q|].
        destruct (r_sep _ _ _ _ Rd) as (_ & Q2 & _). exact (Q2 k p t' Hk Eh).
      + intros k t' Hk. destruct (r_const _ _ _ _ Rd k t' Hk) as [Q _]. apply WL; [exact Q|]. destruct (r_sep _ _ _ _ Rd) as (_ & _ & Q2 & _). exact (Q2 k t' Hk).
      + intros n t' En. destruct (S4 n t' En) as [Q1 Q2]. rewrite who_new_old by assumption. split; [exact Q1|lia].
      + intros n b t' En. destruct (S5 n b t' En) as [Q1 Q2]. rewrite who_new_old by assumption. split; [exact Q1|lia].
    - exact Or'.
    - exact (r_vars _ _ _ _ Rd).
    - exact Lf.
    - intros v b Hv Hn. destruct (Oc v b Hv) as [k Hk]. now destruct (Hn k).
    - intros k t' Hk. destruct (r_const _ _ _ _ Rd k t' Hk) as [Q1 Q2]. cbn [gr] in Q1. rewrite Hp'. split; [lia|]. intros v b Hv Hr.
      destruct (Pf v _ Hr) as [Q|Q]; [exact (Q2 v b Hv Q)|lia].
    - intros k p t' Hk Eh. rewrite G' in Eh. unfold w2 in Eh. cbn [gr set_hp set_cache holders] in Eh. rewrite H2 in Eh.
      destruct (r_hold _ _ _ _ Rd k p t' Hk Eh) as [Q1 Q2]. cbn [gr] in Q1. rewrite Hp'. split; [lia|]. intros v b Hv Hr.
      destruct (Pf v _ Hr) as [Q|Q]; [exact (Q2 v b Hv Q)|lia].
    - rewrite G'. unfold w2. cbn [gr set_hp set_cache training]. rewrite T2. exact (r_train _ _ _ _ Rd). }
  split.
  { intros v Hv. pose proof (m_ctx _ _ _ _ _ _ _ (M v Hv)) as Q. unfold w2 in Q. cbn [ctx] in Q. specialize (St v Hv). unfold stocked in *. cbn [ctx] in St.
    destruct (c v); [right; rewrite Q; destruct (alg o); cbn [created needed]; lia|]. destruct St as [St|St]; [discriminate|]. right. now rewrite Q. }
  split.
  { rewrite G'. unfold w2. cbn [gr set_hp set_cache holders]. exact H2. }
  assert (Wt0 : forall v b, In (v, b) sess -> weights (W s0 c) v = data_of s v).
  { intros v b Hv. unfold weights, elements, data_of. cbn [gr]. rewrite <- BV. symmetry. apply BF. apply (Lv0 v b _ Hv). right. now left. }
  match goal with |- ?A /\ ?B => cut B; [intros Cl; split; [|exact Cl]|] end.
  2: { cbv zeta. cbn [gr]. fold s. rewrite Hp'. split; [lia|]. split; [|split; [|split]].
    - intros Hl. rewrite F; [exact Ra|lia|]. intros u Hu. rewrite Ft2, <- Ft0. exact (Ha u true Hu).
    - intros r Hr Na Hl Hf. rewrite F; [|lia|intros u Hu; rewrite Ft2, <- Ft0; exact (Hf u true Hu)]. apply F2; assumption.
    - exact WL.
    - intros v r Hr. rewrite Ft0. destruct (Pf v r Hr) as [Q|Q]; [now left|right; lia]. }
  constructor.
  - intros v. rewrite Vw'. cbn [gr]. now rewrite BV.
  - intros k. rewrite G'. unfold w2. cbn [gr set_hp set_cache vobjs]. rewrite <- BO. exact (O2 k).
  - intros v Hv. destruct (M v Hv) as [M1 M2 M3 _]. rewrite Ct2 in M1, M2, M3. rewrite Ct0. split; [exact M1|]. split; [exact M3|].
    intros p Hp. exists (nth p (gradient w2 v) 0%R). split.
    + intros k Hk Ht Hx. cbn [gr] in *. rewrite (Wt0 v true Hv) in *. rewrite <- BO in *. destruct (HT k v p Hk Ht Hp Hx) as (l & D & N). exists l. split; [exact D|].
      unfold grad_of in N. unfold gradient, elements, w2. cbn [gr set_cache vars hp]. exact N.
    + rewrite (M2 p Hp).
      assert (Wt : weights w2 v = weights (W s0 c) v).
      { unfold weights, elements, w2. cbn [gr set_cache vars hp]. rewrite Vw, <- BV. apply (Body0 v true _ Hv). now left. }
      assert (Me : memory_or_new (alg o) w2 v p = memory_or_new (alg o) (W s0 c) v p).
      { unfold memory_or_new, memory, w2. cbn [ctx]. destruct (c v) eqn:Ec; [reflexivity|]. rewrite <- Ec. apply map_ext_in. intros t' Ht. f_equal.
        unfold elements. cbn [gr set_cache hp]. apply (Body0 v true _ Hv). right. now apply in_map. }
      now rewrite Wt, Me.
  - intros v Hv.
    assert (Nt : ~ In (v, true) sess).
    { intros Q. pose proof (once_fun sess v _ _ (o_once _ _ Or) Hv Q). discriminate. }
    assert (Q : forall r, In r (foot (W s c) v) -> nth r h' [] = nth r (hp s2) []).
    { intros r Hr. apply nth_of_error. apply F; [destruct (Lv v false r Hv Hr); lia|]. intros u Hu. rewrite Ft2.
      apply (o_apart _ _ Or v false u true Hv Hu); [|exact Hr]. intros ->. now apply Nt. }
    assert (Q' : forall r, In r (ref (vdata (vars s v)) :: map ref (c v)) -> nth r h' [] = nth r (hp s0) []).
    { intros r Hr. rewrite Q by (now right). exact (Body0 v false r Hv Hr). }
    split; [|split].
    + unfold weights, elements. rewrite Hp', Vw'. cbn [gr]. rewrite <- BV. apply Q'. now left.
    + exact (C v Nt).
    + intros t' Ht. unfold elements. rewrite Hp'. cbn [gr]. apply Q'. right. now apply in_map.
Qed.

Theorem loss_batch sess e out w who feed o a value rest objective near :
  ready sess out w who -> ready sess out (W (bound feed (gr w)) (ctx w)) who -> length (hp (gr w)) <= a ->
  LossSpec.trained dbg eps e out (bound feed (gr w)) who a value rest objective near ->
  (forall v b, In (v, b) sess -> exists k, At out k (EVar v)) ->
  (forall v, In (v, true) sess -> stocked (alg o) w v) ->
  exists y s1 w' who', train_batch dbg eps sess e feed o w = Ok (y, Opt (alg o) (next_rate o) (S (steps o)), w') /\
    run e (bound feed (gr w)) = Ok (y, s1) /\ val_of (hp s1) y = ([1], [value]) /\
    ready sess out w' who' /\ (forall v, In (v, true) sess -> stocked (alg o) w' v) /\ holders (gr w') = holders (bound feed (gr w)) /\
    learned e out sess o feed objective near w w'.
Proof.
  intros Rd0 Rd Ha T Oc St.
  destruct (loss_batch_at sess e out w who feed o a value rest objective near Rd0 Rd) as (y & s1 & w' & who' & A1 & A2 & A3 & A4 & A5 & A6 & A7 & _); auto.
  - intros v b Hv Hf. destruct (t_live _ _ (o_tidy _ _ (r_ord _ _ _ _ Rd0) v b Hv) a Hf). lia.
  - exists y, s1, w', who'. auto 8.
Qed.
End Batch.
