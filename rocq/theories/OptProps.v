(** Properties C41, C42, C48 and C54-C57: the optimisers. *)
From Coq Require Import List Arith Lia Bool PeanoNat Reals Lra Permutation.
From Coquelicot Require Import Rcomplements Rbar Hierarchy Derive.
From Verif Require Import ListBase TensorModel TensorSpec ArrayModel GraphModel GraphSpec GradSpec LayerSpec GraphProofs GraphProofs2 GraphProofs3 GradProofs GradProofs2 GradProofs3
  CalcSpec CalcProofs CalcProofs2 CalcProofs3 OpModel OpSpec Scalar OpProofs OpRules OpProps GradProps OptModel OptSpec OptProofs OptProofs2.
Import ListNotations.
Local Open Scope nat_scope.

(** ** The documented update laws, for one element x with gradient g: new auxiliary values, new element *)

(** Keras' SGD: velocity m *)
Definition doc_sgd (nesterov : bool) (mu lr m x g : R) : R * R :=
  (let m' := mu * m - lr * g in (m', if nesterov then x + mu * m' - lr * g else x + m'))%R.
(** Adagrad: m the sum of squared gradients *)
Definition doc_adagrad (eps lr m x g : R) : R * R := (let m' := m + g * g in (m', x - lr * g / (sqrt m' + eps)))%R.
(** RMSprop: m the running mean of squared gradients *)
Definition doc_rmsprop (rho eps lr m x g : R) : R * R := (let m' := rho * m + (1 - rho) * (g * g) in (m', x - lr * g / (sqrt m' + eps)))%R.
(** Adam, at step n = 1, 2, ... *)
Definition doc_adam (b1 b2 eps lr : R) (n : nat) (m s x g : R) : R * R * R :=
  (let m' := b1 * m + (1 - b1) * g in
   let s' := b2 * s + (1 - b2) * (g * g) in
   (m', s', x - lr * sqrt (1 - b2 ^ n) / (1 - b1 ^ n) * m' / (sqrt s' + eps)))%R.
(** gradient descent *)
Definition doc_descent (lr x g : R) : R := (x - lr * g)%R.

(** the product of 1 + d*j for j < n *)
Fixpoint decays (d : R) (n : nat) : R := match n with 0 => 1%R | S n' => (decays d n' * (1 + d * INR n'))%R end.

(** auxiliary element i of element p of v, 0 if there is none yet; the element *)
Definition aux (w : world) (v p i : nat) : R := nth i (memory w v p) 0%R.
Definition elem (w : world) (v p : nat) : R := nth p (weights w v) 0%R.

(** what is promised of a training: ws t is the world after t batches *)
Definition trained (dbg : bool) (eps : R) (sess : list (nat * bool)) (e : expr R) (feeds : list (list (nat * val R))) (o : opt) (w : world) (ws : nat -> world) : Prop :=
  ws 0 = w /\ train dbg eps sess e feeds o w = Ok (after o (length feeds), ws (length feeds)).

Section Props.
Variable dbg : bool.
Variable eps : R.

Lemma decays_pos d n : (0 <= d -> 1 <= decays d n)%R.
Proof.
  intros Hd. induction n as [|n IH]; cbn [decays]; [lra|]. pose proof (pos_INR n) as Hn. pose proof (Rmult_le_pos d (INR n) Hd Hn).
  rewrite <- (Rmult_1_r 1). apply Rmult_le_compat; lra.
Qed.

Lemma after_rate o d n : steps o = 0 -> (0 <= d)%R -> (forall o', alg o' = alg o -> next_rate o' = (rate o' / (1 + d * INR (steps o')))%R) ->
  rate (after o n) = (rate o / decays d n)%R /\ next_rate (after o n) = (rate o / decays d (S n))%R.
Proof.
  intros S0 Hd Hn. induction n as [|n [IH1 IH2]].
  - cbn [after decays]. rewrite (Hn o eq_refl), S0. cbn [INR]. rewrite Rmult_0_r, Rplus_0_r, Rmult_1_r. split; [field|reflexivity].
  - assert (E1 : rate (after o (S n)) = (rate o / decays d (S n))%R) by (cbn [after rate]; exact IH2).
    split; [exact E1|]. destruct (after_alg o (S n)) as [Ea Es]. rewrite (Hn _ Ea), E1, Es, S0. cbn [decays]. change (0 + S n) with (S n).
    pose proof (decays_pos d n Hd). pose proof (pos_INR n). pose proof (pos_INR (S n)). pose proof (Rmult_le_pos d _ Hd H0). pose proof (Rmult_le_pos d _ Hd H1).
    field. repeat split; lra.
Qed.

Lemma aux_new a w v p i : nth i (memory_or_new a w v p) 0%R = aux w v p i.
Proof.
  unfold memory_or_new, aux, memory. destruct (ctx w v); [|reflexivity]. cbn [map]. destruct (Nat.lt_ge_cases i (created a)) as [H|H].
  - rewrite nth_repeat. now destruct i.
  - rewrite nth_overflow by (rewrite repeat_length; lia). now destruct i.
Qed.

Lemma memory_len a w v p : stocked a w v -> needed a <= length (memory_or_new a w v p).
Proof.
  intros [H|H]; unfold memory_or_new; [rewrite H, repeat_length; destruct a; cbn; lia|]. destruct (ctx w v) eqn:E; [cbn in H; lia|].
  unfold memory. rewrite map_length, E. exact H.
Qed.

Lemma nth_upd_same (l : list R) i x : i < length l -> nth i (upd l i x) 0%R = x.
Proof. intros H. rewrite nth_upd by assumption. now rewrite Nat.eqb_refl. Qed.

(** all the facts about one batch in the middle of a training *)
Lemma traj sess e feeds w who o : ready sess e w who -> (forall feed, In feed feeds -> trainable_on dbg sess e (gr w) feed) ->
  (forall v, In (v, true) sess -> stocked (alg o) w v) ->
  exists ws, trained dbg eps sess e feeds o w ws /\
    (forall t, t < length feeds -> advanced eps sess e (after o t) (nth t feeds []) (ws t) (ws (S t))) /\
    (forall t v, t <= length feeds -> vars (gr (ws t)) v = vars (gr w) v) /\
    (forall t k, t <= length feeds -> trainable (vobjs (gr (ws t)) k) = trainable (vobjs (gr w) k)) /\
    (forall t v, t <= length feeds -> In (v, true) sess -> stocked (alg o) (ws t) v).
Proof.
  intros Rd Tr St. destruct (train_traj dbg eps sess e feeds w who o Rd Tr St) as (ws & W0 & E & Sn & Ad).
  exists ws. split; [split; assumption|]. split; [exact Ad|]. split; [|split].
  - intros t v. induction t as [|t IH]; intros Ht; [now rewrite W0|]. rewrite (a_vars _ _ _ _ _ _ _ (Ad t ltac:(lia))). apply IH. lia.
  - intros t k. induction t as [|t IH]; intros Ht; [now rewrite W0|]. rewrite (proj1 (a_flags _ _ _ _ _ _ _ (Ad t ltac:(lia)) k)). apply IH. lia.
  - intros t v Ht Hv. exact (proj2 (Sn t Ht) v Hv).
Qed.


Lemma plain_rate o t : match alg o with Adadelta _ | Descent _ | Adam _ _ => True | _ => False end -> next_rate (after o t) = rate o.
Proof.
  intros H. assert (X : rate (after o t) = rate o /\ alg (after o t) = alg o).
  { induction t as [|t [I1 I2]]; [split; reflexivity|]. cbn [after rate alg]. unfold next_rate. rewrite I2. destruct (alg o); try contradiction; auto. }
  unfold next_rate. destruct X as [X1 X2]. rewrite X2. destruct (alg o); try contradiction; exact X1.
Qed.

Lemma upd_zero (c : list R) j y : (forall i, nth i c 0%R = 0%R) -> y = 0%R -> forall i, nth i (upd c j y) 0%R = 0%R.
Proof.
  intros H -> i. destruct (Nat.lt_ge_cases j (length c)) as [L|L]; [|now rewrite upd_out]. rewrite nth_upd by assumption. now destruct (j =? i).
Qed.

Lemma move_zero a lr it c x : needed a <= length c -> (forall i, nth i c 0%R = 0%R) ->
  (forall i, nth i (fst (move a eps lr it c x 0)) 0%R = 0%R) /\ snd (move a eps lr it c x 0) = x.
Proof.
  intros L N. unfold move. cbv zeta. rewrite !N. destruct a as [mu dc nes|dc|rho dc|rho|b1 b2|mu]; cbn [fst snd].
  - split; [apply upd_zero; [exact N|ring]|destruct nes; ring].
  - split; [apply upd_zero; [exact N|ring]|unfold Rdiv; ring].
  - split; [apply upd_zero; [exact N|destruct (it =? 0); ring]|unfold Rdiv; ring].
  - split; [apply upd_zero; [exact N|ring]|ring].
  - split; [apply upd_zero; [apply upd_zero; [exact N|ring]|ring]|]. destruct (1 <? it); [|ring].
    replace (b1 * 0 + (1 - b1) * 0)%R with 0%R by ring. unfold Rdiv. ring.
  - split; [exact N|ring].
Qed.

(** C42, for one pass over the session, whatever the gradients are (and whatever loss produced them): the trainable variables
    move by the optimiser's law, their gradients become zero, no other storage changes. *)
Theorem C42_update a lr it sess w : orderly sess w -> (forall v, In (v, true) sess -> stocked a w v) ->
  exists w', update_all dbg eps a lr it sess w = Ok (tt, w') /\ orderly sess w' /\
    (forall v, In (v, true) sess -> moved a eps lr it w w' v) /\
    (forall v, ~ In (v, true) sess -> ctx w' v = ctx w v) /\
    (forall v, vars (gr w') v = vars (gr w) v) /\
    (forall r, r < length (hp (gr w)) -> (forall v, In (v, true) sess -> ~ In r (foot w v)) -> nth r (hp (gr w')) [] = nth r (hp (gr w)) []).
Proof.
  intros Or St. destruct (update_all_ok dbg eps a lr it sess sess w) as (w' & h' & E & G & L & Or' & M & C & F & _); auto; [apply incl_refl|exact (o_once _ _ Or)|].
  exists w'. split; [exact E|]. split; [exact Or'|]. split; [exact M|]. split; [exact C|]. split; [intros v; now rewrite G|].
  intros r Hr Hn. rewrite G. cbn [set_hp hp]. apply nth_of_error. now apply F.
Qed.

Lemma moved_unique a lr it w w' w'' v : moved a eps lr it w w' v -> moved a eps lr it w w'' v ->
  weights w' v = weights w'' v /\ gradient w' v = gradient w'' v /\ forall p, p < count w v -> memory w' v p = memory w'' v p.
Proof.
  intros [A1 A2 A3 _] [B1 B2 B3 _]. split; [|split].
  - apply (nth_ext _ _ 0%R 0%R); [congruence|]. intros p Hp. rewrite A1 in Hp. pose proof (eq_trans (A2 p Hp) (eq_sym (B2 p Hp))) as Q. now injection Q.
  - congruence.
  - intros p Hp. pose proof (eq_trans (A2 p Hp) (eq_sym (B2 p Hp))) as Q. now injection Q.
Qed.

(** the order in which the session's map is walked does not matter *)
Theorem C42_order a lr it sess sess' w : Permutation sess sess' -> orderly sess w -> (forall v, In (v, true) sess -> stocked a w v) ->
  exists w' w'', update_all dbg eps a lr it sess w = Ok (tt, w') /\ update_all dbg eps a lr it sess' w = Ok (tt, w'') /\
    forall v b, In (v, b) sess -> weights w' v = weights w'' v /\ gradient w' v = gradient w'' v /\ forall p, p < count w v -> memory w' v p = memory w'' v p.
Proof.
  intros P Or St.
  assert (Or2 : orderly sess' w).
  { destruct Or as [O1 O2 O3]. assert (I : forall x, In x sess' -> In x sess) by (intros x; apply Permutation_in; now apply Permutation_sym). constructor.
    - apply (Permutation_NoDup (l := map fst sess)); [now apply Permutation_map|exact O1].
    - intros v b Hv. apply (O2 v b). now apply I.
    - intros v b v' b' Hv Hv'. apply (O3 v b v' b'); now apply I. }
  destruct (C42_update a lr it sess w Or St) as (w' & E' & _ & M' & C' & V' & F').
  destruct (C42_update a lr it sess' w Or2) as (w'' & E'' & _ & M'' & C'' & V'' & F''); [intros v Hv; apply St; revert Hv; apply Permutation_in; now apply Permutation_sym|].
  exists w', w''. split; [exact E'|]. split; [exact E''|]. intros v b Hv. destruct b.
  - apply (moved_unique a lr it w); [now apply M'|apply M''; revert Hv; now apply Permutation_in].
  - assert (N : ~ In (v, true) sess) by (intros Q; pose proof (once_fun sess v _ _ (o_once _ _ Or) Hv Q); discriminate).
    assert (N2 : ~ In (v, true) sess') by (intros Q; apply N; revert Q; apply Permutation_in; now apply Permutation_sym).
    assert (K : forall r, In r (foot w v) -> nth r (hp (gr w')) [] = nth r (hp (gr w'')) []).
    { intros r Hr. destruct (t_live _ _ (o_tidy _ _ Or v false Hv) r Hr) as [Lr _]. rewrite F', F''; auto; intros u Hu.
      - apply (o_apart _ _ Or2 v false u true); auto; [revert Hv; now apply Permutation_in|intros ->; contradiction].
      - apply (o_apart _ _ Or v false u true); auto. intros ->; contradiction. }
    unfold weights, gradient, memory, elements. rewrite V', V'', C', C'' by assumption. split; [|split].
    + apply K. right. now left.
    + apply K. now left.
    + intros p _. apply map_ext_in. intros x Hx. rewrite K; [reflexivity|]. right. right. now apply in_map.
Qed.

Section Training.
Variables (sess : list (nat * bool)) (e : expr R) (feeds : list (list (nat * val R))) (w : world) (who : nat -> owner).
Hypothesis Rd : ready sess e w who.
Hypothesis Tr : forall feed, In feed feeds -> trainable_on dbg sess e (gr w) feed.

(** g is batch t's gradient of element p of v: taken in world ws t with the place holders bound to batch t *)
Definition slope_at (ws : nat -> world) (t v p : nat) (g : R) : Prop :=
  slope eps e (bound (nth t feeds []) (gr (ws t))) v p (nth p (gradient (ws t) v) 0%R) g.

Lemma traj_move o ws : (forall t, t < length feeds -> advanced eps sess e (after o t) (nth t feeds []) (ws t) (ws (S t))) ->
  (forall t v, t <= length feeds -> vars (gr (ws t)) v = vars (gr w) v) ->
  forall t v p, t < length feeds -> In (v, true) sess -> p < count w v ->
    exists g, slope_at ws t v p g /\ (memory (ws (S t)) v p, elem (ws (S t)) v p) =
      move (alg o) eps (next_rate (after o t)) (steps o + t) (memory_or_new (alg o) (ws t) v p) (elem (ws t) v p) g.
Proof.
  intros Ad Vs t v p Ht Hv Hp. destruct (a_move _ _ _ _ _ _ _ (Ad t Ht) v Hv) as (_ & _ & M).
  assert (Q : count (ws t) v = count w v) by (unfold count; rewrite Vs by lia; reflexivity).
  destruct (M p ltac:(lia)) as (g & Hg & E). exists g. split; [exact Hg|]. destruct (after_alg o t) as [Ea Es]. rewrite Ea, Es in E. exact E.
Qed.

(** C41: training with SGD, whatever the number of batches: velocity and weights follow the documented recurrence, except that
    nesterov=true gives the plain momentum update and nesterov=false Nesterov's; the learning rate of batch t is
    lr / batch / ((1 + decay*0) ... (1 + decay*t)); the gradients are the derivatives of the loss at the current weights. *)
Theorem C41_sgd batch lr mu decay nesterov : (forall v, In (v, true) sess -> ctx w v = []) ->
  exists ws, trained dbg eps sess e feeds (new_sgd batch lr mu decay nesterov) w ws /\
    (forall v p, In (v, true) sess -> aux w v p 0 = 0%R) /\
    forall t v p, t < length feeds -> In (v, true) sess -> p < count w v -> exists g, slope_at ws t v p g /\
      (aux (ws (S t)) v p 0, elem (ws (S t)) v p) =
      doc_sgd (negb nesterov) (Rmax 0 mu) (lr / INR batch / decays (Rmax 0 decay) (S t)) (aux (ws t) v p 0) (elem (ws t) v p) g.
Proof.
  intros Fr. set (o := new_sgd batch lr mu decay nesterov).
  destruct (traj sess e feeds w who o Rd Tr) as (ws & T & Ad & Vs & _ & Sk); [intros v Hv; left; now apply Fr|].
  exists ws. split; [exact T|]. split; [intros v p Hv; unfold aux, memory; now rewrite (Fr v Hv)|].
  intros t v p Ht Hv Hp. destruct (traj_move o ws Ad Vs t v p Ht Hv Hp) as (g & Hg & E). exists g. split; [exact Hg|].
  destruct (after_rate o (Rmax 0 decay) t) as [_ Er]; [reflexivity|apply Rmax_l|intros o' Ha; unfold next_rate; now rewrite Ha|]. rewrite Er in E. cbn [rate o new_sgd] in E.
  set (L := (lr / INR batch / decays (Rmax 0 decay) (S t))%R) in *.
  pose proof (memory_len (alg o) (ws t) v p (Sk t v ltac:(lia) Hv)) as Ml. cbn [alg o new_sgd needed] in Ml.
  cbn [alg o new_sgd move] in E. fold o in E. rewrite aux_new in E. injection E as E1 E2. unfold aux at 1. rewrite E1, E2. rewrite nth_upd_same by exact Ml.
  unfold doc_sgd. cbv zeta. f_equal. destruct nesterov; cbn [negb]; ring.
Qed.

(** the learning rate of batch t is not lr / (1 + decay*t) but less, from the third batch on *)
Theorem C41_compounding batch lr mu decay nesterov t : (0 < decay)%R -> (0 < lr)%R -> 0 < batch -> 2 <= t ->
  (next_rate (after (new_sgd batch lr mu decay nesterov) t) < lr / INR batch / (1 + decay * INR t))%R.
Proof.
  intros Hd Hl Hb Ht. set (o := new_sgd batch lr mu decay nesterov).
  destruct (after_rate o (Rmax 0 decay) t) as [_ Er]; [reflexivity|apply Rmax_l|intros o' Ha; unfold next_rate; now rewrite Ha|].
  rewrite Er. cbn [rate o new_sgd]. rewrite Rmax_right by lra. cbn [decays].
  assert (D : (1 < decays decay t)%R).
  { destruct t as [|[|t]]; try lia. clear - Hd. induction t as [|t IH].
    - cbn. lra.
    - change (decays decay (S (S (S t)))) with (decays decay (S (S t)) * (1 + decay * INR (S (S t))))%R. pose proof (pos_INR (S (S t))) as P.
      pose proof (Rmult_le_pos decay _ (Rlt_le _ _ Hd) P). apply Rlt_le_trans with (decays decay (S (S t)) * 1)%R; [lra|]. apply Rmult_le_compat_l; lra. }
  assert (Hi : (0 < lr / INR batch)%R) by (apply Rdiv_lt_0_compat; [lra|apply lt_0_INR; lia]).
  pose proof (pos_INR t) as Pt. pose proof (Rmult_le_pos decay (INR t) (Rlt_le _ _ Hd) Pt) as Pd.
  apply Rmult_lt_compat_l; [exact Hi|]. apply Rinv_lt_contravar.
  - apply Rmult_lt_0_compat; [lra|]. apply Rmult_lt_0_compat; lra.
  - rewrite <- (Rmult_1_l (1 + decay * INR t)) at 1. apply Rmult_lt_compat_r; lra.
Qed.

(** C42: in any training, with any optimiser, variables that are not trainable in the session keep their weights and auxiliary
    tensors, constants keep their elements, no variable changes its shape or moves to another tensor, and after every batch the gradients of
    the trainable ones are zero. *)
Theorem C42_frame o : (forall v, In (v, true) sess -> stocked (alg o) w v) ->
  exists ws, trained dbg eps sess e feeds o w ws /\
    forall t, t <= length feeds ->
      (forall v, In (v, false) sess -> weights (ws t) v = weights w v /\ ctx (ws t) v = ctx w v /\ forall p, memory (ws t) v p = memory w v p) /\
      (forall k x, At e k (EConst x) -> elements (ws t) x = elements w x) /\
      (forall v, vars (gr (ws t)) v = vars (gr w) v) /\
      (forall v, In (v, true) sess -> 0 < t -> gradient (ws t) v = repeat 0%R (count w v)).
Proof.
  intros St. destruct (traj sess e feeds w who o Rd Tr St) as (ws & T & Ad & Vs & _ & _). exists ws. split; [exact T|].
  destruct T as [W0 _]. intros t. induction t as [|t IH]; intros Ht.
  - rewrite W0. split; [auto|]. split; [reflexivity|]. split; [reflexivity|]. intros; lia.
  - destruct (IH ltac:(lia)) as (I1 & I2 & I3 & _). pose proof (Ad t ltac:(lia)) as A. split; [|split; [|split]].
    + intros v Hv. destruct (I1 v Hv) as (J1 & J2 & J3). destruct (a_still _ _ _ _ _ _ _ A v Hv) as (K1 & K2 & K3).
      split; [congruence|]. split; [congruence|]. intros p. rewrite <- J3. unfold memory. rewrite K2. apply map_ext_in. intros x Hx. now rewrite K3.
    + intros k x Hk. rewrite <- (I2 k x Hk). exact (a_const _ _ _ _ _ _ _ A k x Hk).
    + intros v. rewrite <- I3. apply (a_vars _ _ _ _ _ _ _ A).
    + intros v Hv _. destruct (a_move _ _ _ _ _ _ _ A v Hv) as (_ & Q & _). rewrite Q. unfold count. now rewrite I3.
Qed.

(** C54: Adagrad and gradient descent follow their documented laws in every batch; RMSprop from the second batch on, its first
    batch taking g*g for the mean; Adam from the third batch on, its first two batches being plain gradient descent (the
    moments follow the law from the start). *)
Theorem C54_adagrad batch lr decay : (forall v, In (v, true) sess -> ctx w v = []) ->
  exists ws, trained dbg eps sess e feeds (new_adagrad batch lr decay) w ws /\
    (forall v p, In (v, true) sess -> aux w v p 0 = 0%R) /\
    forall t v p, t < length feeds -> In (v, true) sess -> p < count w v -> exists g, slope_at ws t v p g /\
      (aux (ws (S t)) v p 0, elem (ws (S t)) v p) =
      doc_adagrad eps (lr / INR batch / decays (Rmax 0 decay) (S t)) (aux (ws t) v p 0) (elem (ws t) v p) g.
Proof.
  intros Fr. set (o := new_adagrad batch lr decay).
  destruct (traj sess e feeds w who o Rd Tr) as (ws & T & Ad & Vs & _ & Sk); [intros v Hv; left; now apply Fr|].
  exists ws. split; [exact T|]. split; [intros v p Hv; unfold aux, memory; now rewrite (Fr v Hv)|].
  intros t v p Ht Hv Hp. destruct (traj_move o ws Ad Vs t v p Ht Hv Hp) as (g & Hg & E). exists g. split; [exact Hg|].
  destruct (after_rate o (Rmax 0 decay) t) as [_ Er]; [reflexivity|apply Rmax_l|intros o' Ha; unfold next_rate; now rewrite Ha|]. rewrite Er in E. cbn [rate o new_adagrad] in E.
  set (L := (lr / INR batch / decays (Rmax 0 decay) (S t))%R) in *.
  pose proof (memory_len (alg o) (ws t) v p (Sk t v ltac:(lia) Hv)) as Ml. cbn [alg o new_adagrad needed] in Ml.
  cbn [alg o new_adagrad move] in E. fold o in E. rewrite aux_new in E. injection E as E1 E2. unfold aux at 1. rewrite E1, E2. rewrite nth_upd_same by exact Ml.
  unfold doc_adagrad. cbv zeta. f_equal. now rewrite (Rplus_comm eps).
Qed.

Theorem C54_rmsprop batch lr rho decay : (forall v, In (v, true) sess -> ctx w v = []) ->
  exists ws, trained dbg eps sess e feeds (new_rmsprop batch lr rho decay) w ws /\
    forall t v p, t < length feeds -> In (v, true) sess -> p < count w v -> exists g, slope_at ws t v p g /\
      (0 < t -> (aux (ws (S t)) v p 0, elem (ws (S t)) v p) =
        doc_rmsprop rho eps (lr / INR batch / decays (Rmax 0 decay) (S t)) (aux (ws t) v p 0) (elem (ws t) v p) g) /\
      (t = 0 -> (aux (ws (S t)) v p 0, elem (ws (S t)) v p) = doc_rmsprop 0 eps (lr / INR batch) (aux (ws t) v p 0) (elem (ws t) v p) g).
Proof.
  intros Fr. set (o := new_rmsprop batch lr rho decay).
  destruct (traj sess e feeds w who o Rd Tr) as (ws & T & Ad & Vs & _ & Sk); [intros v Hv; left; now apply Fr|].
  exists ws. split; [exact T|].
  intros t v p Ht Hv Hp. destruct (traj_move o ws Ad Vs t v p Ht Hv Hp) as (g & Hg & E). exists g. split; [exact Hg|].
  destruct (after_rate o (Rmax 0 decay) t) as [_ Er]; [reflexivity|apply Rmax_l|intros o' Ha; unfold next_rate; now rewrite Ha|]. rewrite Er in E. cbn [rate o new_rmsprop] in E.
  set (L := (lr / INR batch / decays (Rmax 0 decay) (S t))%R) in *.
  pose proof (memory_len (alg o) (ws t) v p (Sk t v ltac:(lia) Hv)) as Ml. cbn [alg o new_rmsprop needed] in Ml.
  cbn [alg o new_rmsprop move steps] in E. fold o in E. rewrite aux_new in E. change (0 + t) with t in E. injection E as E1 E2. unfold aux at 1 3. rewrite E1, E2. rewrite nth_upd_same by exact Ml.
  unfold doc_rmsprop. cbv zeta. rewrite (Rplus_comm eps). split; intros Q.
  - now rewrite (proj2 (Nat.eqb_neq t 0) ltac:(lia)).
  - unfold L. rewrite Q. rewrite Nat.eqb_refl. cbn [decays INR].
    replace (0 * aux (ws 0%nat) v p 0%nat + (1 - 0) * (g * g))%R with (g * g)%R by ring. replace (lr / INR batch / (1 * (1 + Rmax 0 decay * 0)))%R with (lr / INR batch)%R; [reflexivity|].
    rewrite Rmult_0_r, Rplus_0_r, Rmult_1_r. unfold Rdiv at 2. rewrite Rinv_1. ring.
Qed.

Theorem C54_adam batch lr b1 b2 : (forall v, In (v, true) sess -> ctx w v = []) ->
  exists ws, trained dbg eps sess e feeds (new_adam batch lr b1 b2) w ws /\
    (forall v p i, In (v, true) sess -> aux w v p i = 0%R) /\
    forall t v p, t < length feeds -> In (v, true) sess -> p < count w v -> exists g, slope_at ws t v p g /\
      (let d := doc_adam b1 b2 eps (lr / INR batch) (t + 1) (aux (ws t) v p 0) (aux (ws t) v p 1) (elem (ws t) v p) g in
       (aux (ws (S t)) v p 0, aux (ws (S t)) v p 1) = fst d /\ (2 <= t -> elem (ws (S t)) v p = snd d)) /\
      (t < 2 -> elem (ws (S t)) v p = doc_descent (lr / INR batch) (elem (ws t) v p) g).
Proof.
  intros Fr. set (o := new_adam batch lr b1 b2).
  destruct (traj sess e feeds w who o Rd Tr) as (ws & T & Ad & Vs & _ & Sk); [intros v Hv; left; now apply Fr|].
  exists ws. split; [exact T|]. split; [intros v p i Hv; unfold aux, memory; rewrite (Fr v Hv); now destruct i|].
  intros t v p Ht Hv Hp. destruct (traj_move o ws Ad Vs t v p Ht Hv Hp) as (g & Hg & E). exists g. split; [exact Hg|].
  assert (Er : next_rate (after o t) = (lr / INR batch)%R) by exact (plain_rate o t I).
  rewrite Er in E.
  pose proof (memory_len (alg o) (ws t) v p (Sk t v ltac:(lia) Hv)) as Ml. cbn [alg o new_adam needed] in Ml.
  cbn [alg o new_adam move steps] in E. fold o in E. rewrite !aux_new in E. change (0 + t) with t in E. injection E as E1 E2.
  assert (A0 : aux (ws (S t)) v p 0 = (b1 * aux (ws t) v p 0 + (1 - b1) * g)%R).
  { unfold aux at 1. rewrite E1. rewrite nth_upd by (rewrite upd_length; lia). cbn [Nat.eqb]. apply nth_upd_same. lia. }
  assert (A1 : aux (ws (S t)) v p 1 = (b2 * aux (ws t) v p 1 + (1 - b2) * (g * g))%R).
  { unfold aux at 1. rewrite E1. apply nth_upd_same. rewrite upd_length; lia. }
  unfold doc_adam, doc_descent. cbv zeta. cbn [fst snd]. rewrite A0, A1, E2. rewrite (Rplus_comm eps). split; [split; [reflexivity|]|]; intros Q.
  - now rewrite (proj2 (Nat.ltb_lt 1 t) ltac:(lia)).
  - now rewrite (proj2 (Nat.ltb_ge 1 t) ltac:(lia)).
Qed.

(** gradient descent: the momentum argument has no effect *)
Theorem C54_descent batch lr mu : 
  exists ws, trained dbg eps sess e feeds (new_descent batch lr mu) w ws /\
    forall t v p, t < length feeds -> In (v, true) sess -> p < count w v -> exists g, slope_at ws t v p g /\
      elem (ws (S t)) v p = doc_descent (lr / INR batch) (elem (ws t) v p) g.
Proof.
  set (o := new_descent batch lr mu).
  destruct (traj sess e feeds w who o Rd Tr) as (ws & T & Ad & Vs & _ & Sk); [intros v Hv; right; cbn; lia|].
  exists ws. split; [exact T|]. intros t v p Ht Hv Hp. destruct (traj_move o ws Ad Vs t v p Ht Hv Hp) as (g & Hg & E). exists g. split; [exact Hg|].
  rewrite (plain_rate o t) in E by exact I. cbn [alg o new_descent move rate] in E. injection E as _ E2. rewrite E2. reflexivity.
Qed.

(** C55: AdaDelta is gradient descent with learning rate 1 / batch: both running means live in one tensor, so their ratio is 1 *)
Theorem C55_adadelta batch rho : (0 < eps)%R -> (0 <= rho <= 1)%R -> 
  (forall v, In (v, true) sess -> ctx w v = []) ->
  exists ws, trained dbg eps sess e feeds (new_adadelta batch rho) w ws /\
    forall t v p, t < length feeds -> In (v, true) sess -> p < count w v -> exists g, slope_at ws t v p g /\
      elem (ws (S t)) v p = doc_descent (1 / INR batch) (elem (ws t) v p) g.
Proof.
  intros He Hr Fr. set (o := new_adadelta batch rho).
  destruct (traj sess e feeds w who o Rd Tr) as (ws & T & Ad & Vs & _ & Sk); [intros v Hv; left; now apply Fr|].
  exists ws. split; [exact T|].
  assert (Sq : forall x, (0 <= x * x)%R) by (intros x; destruct (Rle_dec 0 x); [apply Rmult_le_pos; lra|replace (x * x)%R with ((- x) * (- x))%R by ring; apply Rmult_le_pos; lra]).
  assert (Mx : forall a b, (0 <= a -> 0 <= b -> 0 <= rho * a + (1 - rho) * b)%R) by (intros a b Ha Hb; apply Rplus_le_le_0_compat; apply Rmult_le_pos; lra).
  assert (Pos : forall t v p, t <= length feeds -> In (v, true) sess -> p < count w v -> (0 <= aux (ws t) v p 0)%R).
  { intros t v p. induction t as [|t IH]; intros Ht Hv Hp.
    - destruct T as [-> _]. unfold aux, memory. rewrite (Fr v Hv). cbn. lra.
    - specialize (IH ltac:(lia) Hv Hp). destruct (traj_move o ws Ad Vs t v p ltac:(lia) Hv Hp) as (g & _ & E).
      pose proof (memory_len (alg o) (ws t) v p (Sk t v ltac:(lia) Hv)) as Ml. cbn [alg o new_adadelta needed] in Ml.
      cbn [alg o new_adadelta move] in E. fold o in E. rewrite aux_new in E. injection E as E1 _. unfold aux. rewrite E1. rewrite nth_upd_same by exact Ml. apply Mx; [apply Mx; auto|apply Sq]. }
  intros t v p Ht Hv Hp. destruct (traj_move o ws Ad Vs t v p Ht Hv Hp) as (g & Hg & E). exists g. split; [exact Hg|].
  rewrite (plain_rate o t) in E by exact I. cbn [alg o new_adadelta move rate] in E. fold o in E. rewrite aux_new in E. injection E as _ E2. rewrite E2. unfold doc_descent.
  set (m := (rho * aux (ws t) v p 0 + (1 - rho) * (g * g))%R). assert (Pm : (0 <= m)%R) by (apply Mx; [apply Pos; auto; lia|apply Sq]).
  replace ((m + eps) / (m + eps))%R with 1%R by (field; lra). rewrite sqrt_1. ring.
Qed.

(** C48: a variable frozen everywhere in the graph, but not in the session, before it was ever trained, keeps its weights
    under any optimiser *)
Theorem C48_frozen_fresh o v : In (v, true) sess -> (exists k, At e k (EVar v)) -> (forall k, At e k (EVar v) -> trainable (vobjs (gr w) k) = false) ->
  (forall u, In (u, true) sess -> stocked (alg o) w u) -> ctx w v = [] ->
  exists ws, trained dbg eps sess e feeds o w ws /\ forall t, t <= length feeds -> weights (ws t) v = weights w v.
Proof.
  intros Hv [k Hk] Fz St Fr.
  destruct (traj sess e feeds w who o Rd Tr St) as (ws & T & Ad & Vs & Fl & Sk). exists ws. split; [exact T|].
  assert (X : forall t p, t <= length feeds -> p < count w v -> (forall i, aux (ws t) v p i = 0%R) /\ elem (ws t) v p = elem w v p).
  { intros t p. induction t as [|t IH]; intros Ht Hp.
    - destruct T as [-> _]. split; [|reflexivity]. intros i. unfold aux, memory. rewrite Fr. now destruct i.
    - destruct (IH ltac:(lia) Hp) as [I1 I2]. destruct (traj_move o ws Ad Vs t v p ltac:(lia) Hv Hp) as (g & Hg & E).
      assert (Z : g = 0%R).
      { apply (sl_frozen _ _ _ _ _ _ _ Hg k Hk). intros k' Hk'. destruct (bound_keeps (nth t feeds []) (gr (ws t))) as (_ & BO & _). rewrite BO, Fl by lia. now apply Fz. }
      subst g. pose proof (memory_len (alg o) (ws t) v p (Sk t v ltac:(lia) Hv)) as Ml.
      assert (N : forall i, nth i (memory_or_new (alg o) (ws t) v p) 0%R = 0%R) by (intros i; rewrite aux_new; apply I1).
      destruct (move_zero (alg o) (next_rate (after o t)) (steps o + t) _ (elem (ws t) v p) Ml N) as [Z1 Z2].
      rewrite <- E in Z1, Z2. cbn [fst snd] in Z1, Z2. split; [exact Z1|]. rewrite Z2. exact I2. }
  intros t Ht. apply (nth_ext _ _ 0%R 0%R).
  - destruct t as [|t]; [destruct T as [-> _]; reflexivity|]. destruct (a_move _ _ _ _ _ _ _ (Ad t ltac:(lia)) v Hv) as (Ln & _). rewrite Ln.
    unfold count. rewrite Vs by lia. symmetry. apply (t_live _ _ (o_tidy _ _ (r_ord _ _ _ _ Rd) v true Hv)). right. now left.
  - intros p Hp. apply X; [exact Ht|]. destruct t as [|t].
    + destruct T as [W0 _]. rewrite W0 in Hp. destruct (t_live _ _ (o_tidy _ _ (r_ord _ _ _ _ Rd) v true Hv) (ref (vdata (vars (gr w) v)))) as [_ Q]; [right; now left|].
      unfold weights, elements in Hp. lia.
    + destruct (a_move _ _ _ _ _ _ _ (Ad t ltac:(lia)) v Hv) as (Ln & _). rewrite Ln in Hp. unfold count in *. rewrite Vs in Hp by lia. exact Hp.
Qed.

(** ... but with auxiliary values left from earlier steps, SGD and Adam go on moving it, by exactly this much *)
Theorem C48_frozen_drift o v : In (v, true) sess -> (exists k, At e k (EVar v)) -> (forall k, At e k (EVar v) -> trainable (vobjs (gr w) k) = false) ->
  (forall u, In (u, true) sess -> stocked (alg o) w u) ->
  exists ws, trained dbg eps sess e feeds o w ws /\ forall t p, t < length feeds -> p < count w v ->
    let m := aux (ws t) v p 0 in
    let s := aux (ws t) v p 1 in
    let lr := next_rate (after o t) in
    let n := steps o + t in
    elem (ws (S t)) v p =
      (elem (ws t) v p + match alg o with
                         | Sgd mu _ nesterov => if nesterov then mu * m else mu * (mu * m)
                         | Adam b1 b2 => if Nat.leb 2 n then - (lr * sqrt (1 - b2 ^ (n + 1)) / (1 - b1 ^ (n + 1)) * (b1 * m) / (eps + sqrt (b2 * s))) else 0
                         | _ => 0
                         end)%R.
Proof.
  intros Hv [k Hk] Fz St.
  destruct (traj sess e feeds w who o Rd Tr St) as (ws & T & Ad & Vs & Fl & Sk). exists ws. split; [exact T|]. intros t p Ht Hp. cbv zeta.
  destruct (traj_move o ws Ad Vs t v p Ht Hv Hp) as (g & Hg & E).
  assert (Z : g = 0%R).
  { apply (sl_frozen _ _ _ _ _ _ _ Hg k Hk). intros k' Hk'. destruct (bound_keeps (nth t feeds []) (gr (ws t))) as (_ & BO & _). rewrite BO, Fl by lia. now apply Fz. }
  subst g. apply (f_equal snd) in E. cbn [snd] in E. rewrite E. unfold move. cbv zeta. rewrite !aux_new. clear E.
  set (m := aux (ws t) v p 0). set (s := aux (ws t) v p 1). set (lr := next_rate (after o t)). set (n := steps o + t). set (x := elem (ws t) v p).
  destruct (alg o) as [mu dc nes|dc|rho dc|rho|b1 b2|mu]; cbn [snd].
  - destruct nes; ring.
  - unfold Rdiv. ring.
  - unfold Rdiv. ring.
  - ring.
  - change (Nat.ltb 1 n) with (Nat.leb 2 n). destruct (Nat.leb 2 n); [|ring].
    replace (b2 * s + (1 - b2) * (0 * 0))%R with (b2 * s)%R by ring. replace (b1 * m + (1 - b1) * 0)%R with (b1 * m)%R by ring. unfold Rdiv. ring.
  - ring.
Qed.

(** C57: a variable that the loss does not mention is moved too if it is trainable in the session: the first batch consumes the
    gradient that another loss has left there, later batches find a zero gradient (and SGD and Adam still apply their
    moments) *)
Theorem C57_absent o v : In (v, true) sess -> (forall k, ~ At e k (EVar v)) -> (forall u, In (u, true) sess -> stocked (alg o) w u) ->
  exists ws, trained dbg eps sess e feeds o w ws /\ forall t p, t < length feeds -> p < count w v ->
    (memory (ws (S t)) v p, elem (ws (S t)) v p) =
    move (alg o) eps (next_rate (after o t)) (steps o + t) (memory_or_new (alg o) (ws t) v p) (elem (ws t) v p)
         (if Nat.eqb t 0 then nth p (gradient w v) 0%R else 0%R).
Proof.
  intros Hv Hn St. destruct (traj sess e feeds w who o Rd Tr St) as (ws & T & Ad & Vs & Fl & Sk). exists ws. split; [exact T|]. intros t p Ht Hp.
  destruct (traj_move o ws Ad Vs t v p Ht Hv Hp) as (g & Hg & E). rewrite E. f_equal. rewrite (sl_absent _ _ _ _ _ _ _ Hg Hn).
  destruct t as [|t]; [destruct T as [-> _]; reflexivity|]. cbn [Nat.eqb].
  destruct (a_move _ _ _ _ _ _ _ (Ad t ltac:(lia)) v Hv) as (_ & Q & _). rewrite Q. apply nth_repeat_in. unfold count. rewrite Vs by lia. exact Hp.
Qed.

(** C56: a batch goes through exactly if every trainable variable has no auxiliary tensors or enough of them *)
Theorem C56_switch o feed : trainable_on dbg sess e (gr w) feed -> 
  ((exists yo w', train_batch dbg eps sess e feed o w = Ok (yo, w')) <-> forall v, In (v, true) sess -> stocked (alg o) w v) /\
  (train_batch dbg eps sess e feed o w = UB <-> exists v, In (v, true) sess /\ ~ stocked (alg o) w v).
Proof.
  intros To. assert (Tl : trainable_loss dbg e (bound feed (gr w))).
  { apply To; auto. intros v b Hv. apply (t_live _ _ (o_tidy _ _ (r_ord _ _ _ _ Rd) v b Hv)). right. now left. }
  assert (Dc : (forall v, In (v, true) sess -> stocked (alg o) w v) \/ exists v, In (v, true) sess /\ ~ stocked (alg o) w v).
  { clear. induction sess as [|[v b] l IH]; [left; intros v []|].
    assert (Dv : stocked (alg o) w v \/ ~ stocked (alg o) w v).
    { unfold stocked. destruct (ctx w v); [left; now left|]. destruct (le_lt_dec (needed (alg o)) (length (t :: l0))); [left; now right|]. right. intros [Q|Q]; [discriminate|lia]. }
    destruct IH as [IH|[u [Hu Nu]]]; [|right; exists u; split; [now right|assumption]].
    destruct b; [|left; intros u [Q|Q]; [discriminate|now apply IH]].
    destruct Dv as [Dv|Dv]; [left; intros u [Q|Q]; [now injection Q as <-|now apply IH]|right; exists v; split; [now left|assumption]]. }
  destruct Dc as [Dc|Dc].
  - destruct (batch_ok dbg eps sess e w who feed o Rd Tl Dc) as (y & w' & _ & _ & E & _). split; split; intros H; auto.
    + eauto.
    + rewrite E in H. discriminate.
    + destruct H as (v & H1 & H2). now destruct (H2 (Dc v H1)).
  - pose proof (batch_unstocked dbg eps sess e w who feed o Rd Tl Dc) as E. split; split; intros H; auto.
    + destruct H as (yo & w' & H). congruence.
    + destruct Dc as (v & H1 & H2). now destruct (H2 (H v H1)).
Qed.

(** ... so Adam after SGD, AdaGrad or RMSprop is undefined behaviour: they leave one auxiliary tensor, Adam reads a second one *)
Theorem C56_adam_after o batch lr b1 b2 feed : needed (alg o) = 1 -> created (alg o) = 1 -> (forall v, In (v, true) sess -> ctx w v = []) -> feeds <> [] ->
  (exists v, In (v, true) sess) -> trainable_on dbg sess e (gr w) feed ->
  exists o' w', train dbg eps sess e feeds o w = Ok (o', w') /\ train_batch dbg eps sess e feed (new_adam batch lr b1 b2) w' = UB.
Proof.
  intros N C Fr Nf [v Hv] To.
  destruct (train_traj dbg eps sess e feeds w who o Rd Tr) as (ws & W0 & E & Sn & Ad); [intros u Hu; left; now apply Fr|].
  assert (Vs : forall t u, t <= length feeds -> vars (gr (ws t)) u = vars (gr w) u).
  { intros t u. induction t as [|t IH]; intros Ht; [now rewrite W0|]. rewrite (a_vars _ _ _ _ _ _ _ (Ad t ltac:(lia))). apply IH. lia. }
  assert (Cs : forall t k x, t <= length feeds -> At e k (EConst x) -> elements (ws t) x = elements w x).
  { intros t k x Ht Hk. induction t as [|t IH]; [now rewrite W0|]. rewrite (a_const _ _ _ _ _ _ _ (Ad t ltac:(lia)) k x Hk). apply IH. lia. }
  assert (Ln : forall t, 0 < t <= length feeds -> length (ctx (ws t) v) = 1).
  { intros t Ht. induction t as [|t IH]; [lia|]. rewrite (a_ctx _ _ _ _ _ _ _ (Ad t ltac:(lia)) v Hv). destruct (after_alg o t) as [-> _].
    destruct t as [|t]; [rewrite W0, (Fr v Hv); exact C|]. specialize (IH ltac:(lia)). destruct (ctx (ws (S t)) v); [discriminate|exact IH]. }
  set (n := length feeds) in *. assert (Pn : 0 < n) by (unfold n; destruct feeds; [congruence|cbn; lia]).
  destruct (Sn n ltac:(lia)) as [[who' Rd'] _]. eexists _, _. split; [exact E|].
  apply (batch_unstocked dbg eps sess e (ws n) who' feed (new_adam batch lr b1 b2) Rd').
  - apply To; [intros u; destruct (bound_keeps [] (gr (ws n))) as (_ & _); apply Vs; lia| |].
    + intros u b Hu. apply (t_live _ _ (o_tidy _ _ (r_ord _ _ _ _ Rd') u b Hu)). right. now left.
    + intros k x Hk. exact (Cs n k x ltac:(lia) Hk).
  - exists v. split; [exact Hv|]. intros [Q|Q]; specialize (Ln n ltac:(lia)).
    + rewrite Q in Ln. discriminate.
    + cbn in Q. lia.
Qed.

End Training.
End Props.

(** ** A network in training: Net of GradProps.v, sum (tanh (x W + b))^2, on two batches *)
Module Course.
Import Net.
Definition sess : list (nat * bool) := [(0, true); (1, true)].
Definition w : world := W s (fun _ => []).
Definition feeds : list (list (nat * val R)) := [[(0, ([1; 2], [1; 2]%R))]; [(0, ([1; 2], [3; -1]%R))]].

Section Any.
Variables (q : env R) (a b c d f g x y : R).
Hypothesis E0 : e_var q 0 = ([2; 2], [a; b; c; d]).
Hypothesis E1 : e_var q 1 = ([2], [f; g]).
Hypothesis Eh : e_hold q 0 = Some ([1; 2], [x; y]).

Lemma any_product : evalR q product = Some ([1; 2], [0 + x * a + y * c; 0 + x * b + y * d]%R).
Proof. unfold evalR, product. cbn [eval]. rewrite E0, Eh. cbv -[Rplus Rmult Ropp IZR Rinv]. reflexivity. Qed.

Lemma any_affine : evalR q affine = Some ([1; 2], [0 + x * a + y * c + f; 0 + x * b + y * d + g]%R).
Proof.
  unfold evalR, affine. cbn [eval]. pose proof any_product as P. unfold evalR in P. rewrite P, E1. cbv -[Rplus Rmult Ropp IZR Rinv]. reflexivity.
Qed.

Lemma any_net : exists v1 v2 v3, evalR q (EUn 2 op_tanh affine) = Some ([1; 2], v1) /\ length v1 = 2 /\
  evalR q (EUn 3 op_square (EUn 2 op_tanh affine)) = Some ([1; 2], v2) /\ length v2 = 2 /\ evalR q net = Some ([1], v3) /\ length v3 = 1.
Proof.
  pose proof any_affine as P. unfold evalR in *. unfold net. cbn [eval] in *.
  change (eval 0%R 1%R Rplus Rmult q affine) with (evalR q affine) in *.
  assert (P' : evalR q affine = Some ([1; 2], [0 + x * a + y * c + f; 0 + x * b + y * d + g]%R)) by exact P. rewrite P'.
  do 3 eexists. split; [cbv -[Rplus Rmult Ropp IZR Rinv tanh]; reflexivity|]. split; [reflexivity|]. split; [cbv -[Rplus Rmult Ropp IZR Rinv tanh]; reflexivity|].
  split; [reflexivity|]. split; [cbv -[Rplus Rmult Ropp IZR Rinv tanh]; reflexivity|reflexivity].
Qed.

Lemma any_tree s' : env_of s' = q -> trainable_tree net s'.
Proof.
  intros Eq. unfold trainable_tree. rewrite Eq.
  split; [discriminate|]. split; [repeat constructor; cbn; intuition discriminate|]. split; [|split].
  - destruct any_net as (v1 & v2 & v3 & P1 & L1 & P2 & L2 & P3 & L3). pose proof any_affine as P4. pose proof any_product as P5.
    intros k x' H _. apply At_all in H. cbn in H. unfold evalR in *.
    destruct H as [H|[H|[H|[H|[H|[H|[H|[H|[]]]]]]]]]; injection H as <- <-.
    + exists ([1], v3). split; [exact P3|]. split; [exact L3|intros Q; cbn in Q; rewrite Q in L3; discriminate].
    + exists ([1; 2], v2). split; [exact P2|]. split; [exact L2|intros Q; cbn in Q; rewrite Q in L2; discriminate].
    + exists ([1; 2], v1). split; [exact P1|]. split; [exact L1|intros Q; cbn in Q; rewrite Q in L1; discriminate].
    + eexists. split; [exact P4|]. split; [reflexivity|discriminate].
    + eexists. split; [exact P5|]. split; [reflexivity|discriminate].
    + eexists. split; [exact Eh|]. split; [reflexivity|discriminate].
    + eexists. split; [cbn [eval]; rewrite E0; reflexivity|]. split; [reflexivity|discriminate].
    + eexists. split; [cbn [eval]; rewrite E1; reflexivity|]. split; [reflexivity|discriminate].
  - intros k n l r H _ x' Hx. at_cases H. injection H as <- <- <- <-. cbn in Hx. destruct Hx as [<-|[]]. split; [reflexivity|].
    intros k1 k2 H1 H2 _. apply At_all in H1, H2. cbn in H1, H2.
    assert (U : forall k', In (k', product) (all_at None net) -> k' = Some (1, false)).
    { intros k' H'. cbn in H'. repeat (destruct H' as [H'|H']; [try discriminate H'; congruence|]). destruct H'. }
    now rewrite (U k1 H1), (U k2 H2).
  - intros k n l r H _ x' Hx. at_cases H. injection H as <- <- <- <-. cbn in Hx. destruct Hx as [<-|[]]. cbn. reflexivity.
Qed.

Lemma any_right : right_everywhere true q net.
Proof.
  destruct any_net as (v1 & v2 & v3 & P1 & L1 & P2 & L2 & P3 & L3). pose proof any_affine as P4. pose proof any_product as P5.
  split.
  - intros k n o x' i H Hi. at_cases H; injection H as <- <- <- <-.
    + rewrite P2 in Hi. injection Hi as <-. apply (C32_sums ([1; 2], v2) L2).
    + rewrite P1 in Hi. injection Hi as <-. pose proof (C30_right_everywhere ([1; 2], v1) 0%R L1) as F. rewrite Forall_forall in F. apply F. cbn; tauto.
    + rewrite P4 in Hi. injection Hi as <-. pose proof (C30_right_everywhere ([1; 2], [0 + x * a + y * c + f; 0 + x * b + y * d + g]%R) 0%R eq_refl) as F. rewrite Forall_forall in F. apply F. cbn; tauto.
  - intros k n o l r i j H Hi. at_cases H; injection H as <- <- <- <- <-.
    + assert (Ei : operandsR q product (EVar 1) = Some (([1; 2], [0 + x * a + y * c; 0 + x * b + y * d]%R), ([2], [f; g]))).
      { change (obind2 (evalR q product) (fun a => obind2 (evalR q (EVar 1)) (fun b => Some (a, b))) = Some (([1; 2], [0 + x * a + y * c; 0 + x * b + y * d]%R), ([2], [f; g]))).
        rewrite P5. unfold evalR. cbn [eval obind2]. now rewrite E1. }
      assert (Ej := eq_trans (eq_sym Ei) Hi). injection Ej as <- <-.
      apply (proj1 (C31_right true ([1; 2], [0 + x * a + y * c; 0 + x * b + y * d]%R) ([2], [f; g]) eq_refl eq_refl) [1; 2]); try discriminate.
      cbn [fst]. split; [reflexivity|]. intros j Hj. cbn in Hj. destruct j as [|[|j]]; [left; split; reflexivity| |lia]. left. split; reflexivity.
    + assert (Ei : operandsR q (EHold 0) (EVar 0) = Some (([1; 2], [x; y]), ([2; 2], [a; b; c; d]))).
      { unfold operandsR, operands. cbn [eval]. rewrite Eh, E0. reflexivity. }
      assert (Ej := eq_trans (eq_sym Ei) Hi). injection Ej as <- <-.
      now apply (proj1 (proj2 (C31_right true ([1; 2], [x; y]) ([2; 2], [a; b; c; d]) eq_refl eq_refl)) 1 2 2).
Qed.

End Any.

Lemma length_4 (l : list R) : length l = 4 -> exists a b c d, l = [a; b; c; d].
Proof. destruct l as [|a [|b [|c [|d [|? ?]]]]]; try discriminate. intros _. now exists a, b, c, d. Qed.
Lemma length_2 (l : list R) : length l = 2 -> exists a b, l = [a; b].
Proof. destruct l as [|a [|b [|? ?]]]; try discriminate. intros _. now exists a, b. Qed.

Lemma course_on x y : trainable_on true sess net s [(0, ([1; 2], [x; y]))].
Proof.
  intros s' V L _. cbn [bound fst snd].
  assert (L0 := L 0 true (or_introl eq_refl)). assert (L1 := L 1 true (or_intror (or_introl eq_refl))). unfold data_of, count_of in L0, L1. rewrite V in L0, L1. cbn in L0, L1.
  destruct (length_4 _ L0) as (a & b & c & d & Q0). destruct (length_2 _ L1) as (f & g & Q1).
  set (s'' := set_holders _ _).
  assert (Ln : 2 < length (hp s')). { destruct (Nat.lt_ge_cases 2 (length (hp s'))); [assumption|]. rewrite nth_overflow in Q1 by assumption. discriminate. }
  assert (E0 : e_var (env_of s'') 0 = ([2; 2], [a; b; c; d])).
  { unfold env_of, s'', val_of. cbn [e_var set_holders set_hp vars hp]. rewrite V. cbn [vdata s vars shape ref]. rewrite app_nth1 by lia. now rewrite Q0. }
  assert (E1 : e_var (env_of s'') 1 = ([2], [f; g])).
  { unfold env_of, s'', val_of. cbn [e_var set_holders set_hp vars hp]. rewrite V. cbn [vdata s vars shape ref]. rewrite app_nth1 by lia. now rewrite Q1. }
  assert (Eh : e_hold (env_of s'') 0 = Some ([1; 2], [x; y])).
  { unfold env_of, s'', val_of. cbn [e_hold set_holders set_hp holders hp fupd Nat.eqb]. unfold fupd. cbn [Nat.eqb shape ref]. rewrite app_nth2 by lia. now rewrite Nat.sub_diag. }
  split; [exact (any_tree _ _ _ _ _ _ _ _ _ E0 E1 Eh s'' eq_refl)|]. split; [exact (any_right _ _ _ _ _ _ _ _ _ E0 E1 Eh)|].
  destruct (any_net _ _ _ _ _ _ _ _ _ E0 E1 Eh) as (_ & _ & v3 & _ & _ & _ & _ & P & _). exists ([1], v3). auto.
Qed.

Lemma in_sess v b : In (v, b) sess -> (v = 0 \/ v = 1) /\ b = true.
Proof. intros [[= <- <-]|[[= <- <-]|[]]]; auto. Qed.

(** whatever the auxiliary tensors, as long as they are the variables' own *)
Lemma course_ready cx extra : (forall v t, In t (cx v) -> shape t = shape (vdata (vars s v))) ->
  orderly sess (W (set_hp s (hp s ++ extra)) cx) -> (forall v b r, In (v, b) sess -> In r (map ref (cx v)) -> 5 <= r) ->
  ready sess net (W (set_hp s (hp s ++ extra)) cx) who.
Proof.
  intros Hc Or Hf. destruct net_separate as (S1 & S2 & S3 & S4 & S5).
  assert (Lh : length (hp s) = 5) by reflexivity.
  constructor; cbn [gr ctx].
  - split; [|split; [exact S2|split; [exact S3|split; [discriminate|discriminate]]]].
    intros k v H. destruct (S1 k v H) as (Q1 & Q2 & Q3). cbn [set_hp hp vars]. rewrite app_length. split; [exact Q1|]. split; [exact Q2|lia].
  - exact Or.
  - intros k v H. apply At_all in H. cbn in H. repeat (destruct H as [H|H]; [try discriminate H; injection H as <- <-; exists true; cbn; tauto|]). destruct H.
  - intros v b r Hv [<-|Hr].
    + destruct (in_sess v b Hv) as [[-> | ->] _]; reflexivity.
    + assert (Q := Hf v b r Hv Hr). unfold who. do 5 (destruct r as [|r]; [lia|]). reflexivity.
  - intros v b Hv Hn. exfalso. destruct (in_sess v b Hv) as [[-> | ->] _].
    + apply (Hn (Some (0, true))). eapply At_right, At_left, At_un, At_un, At_un, At_root.
    + apply (Hn (Some (1, true))). eapply At_right, At_un, At_un, At_un, At_root.
  - intros k t H. apply At_all in H. cbn in H. repeat (destruct H as [H|H]; [discriminate H|]). destruct H.
  - intros k p t H E. cbn in E. injection E as <-. cbn [ref set_hp hp]. rewrite app_length. split; [lia|]. intros v b Hv [Q|[Q|Q]].
    + destruct (in_sess v b Hv) as [[-> | ->] _]; discriminate Q.
    + destruct (in_sess v b Hv) as [[-> | ->] _]; discriminate Q.
    + specialize (Hf v b 0 Hv Q). lia.
  - reflexivity.
Qed.

Lemma course_start : ready sess net w who.
Proof.
  assert (Q := course_ready (fun _ => []) []). rewrite app_nil_r in Q. apply Q; [intros v t []| |intros v b r _ []].
  constructor.
  - repeat constructor; cbn; intuition discriminate.
  - intros v b Hv. destruct (in_sess v b Hv) as [[-> | ->] _].
    + constructor; [reflexivity|intros t []| |].
      * intros r [<-|[<-|[]]]; split; cbn; lia.
      * repeat constructor; cbn; intuition discriminate.
    + constructor; [reflexivity|intros t []| |].
      * intros r [<-|[<-|[]]]; split; cbn; lia.
      * repeat constructor; cbn; intuition discriminate.
  - intros v b v' b' Hv Hv' Ne r. destruct (in_sess v b Hv) as [[-> | ->] _]; destruct (in_sess v' b' Hv') as [[-> | ->] _]; try congruence; cbn; intuition lia.
Qed.

Lemma course_feeds : forall feed, In feed feeds -> trainable_on true sess net (gr w) feed.
Proof. intros feed [<-|[<-|[]]]; apply course_on. Qed.

(** the hypotheses of C41, C42, C54-C57 are met by this network *)
Example C41_case : exists ws, trained true 1 sess net feeds (new_sgd 1 (1 / 10) (1 / 2) 0 false) w ws /\
  exists g, is_derive (fun x : R => (loss (nudge (env_of (bound (hd [] feeds) s)) 0%nat 1%nat x) net + cost 1 (vobjs s) 0%nat (uses None net) x)%R) 5%R g /\
    elem (ws 1) 0 1 = (5 - (1 / 2) * (1 / 10) * g - 1 / 10 * g)%R.
Proof.
  destruct (C41_sgd true 1 sess net feeds w who course_start course_feeds 1 (1 / 10) (1 / 2) 0 false (fun _ _ => eq_refl)) as (ws & T & A0 & H).
  exists ws. split; [exact T|]. destruct (H 0 0 1 ltac:(cbn; lia) (or_introl eq_refl) ltac:(cbn; lia)) as (g & Hg & E). exists g.
  destruct T as [W0 _]. unfold slope_at in Hg. rewrite W0 in Hg, E. split.
  - pose proof (sl_live _ _ _ _ _ _ _ Hg (Some (0, true))) as D. apply D.
    + eapply At_right, At_left, At_un, At_un, At_un, At_root.
    + reflexivity.
    + right. intros k' _. cbn. lra.
  - rewrite (A0 0 1 (or_introl eq_refl)) in E. unfold doc_sgd in E. injection E as _ E. rewrite E. cbn [negb decays INR elem weights elements w gr s vars vdata ref hp nth].
    rewrite !Rmax_right by lra. unfold elem, weights, elements. cbn. field.
Qed.

(** C48 refuted: variable 0 is frozen in the graph; an earlier step has left a moment of 1 *)
Definition w1 : world := W (set_hp s (hp s ++ [[1; 1; 1; 1]; [0; 0]]%R)) (fun v => match v with 0 => [mkT [2; 2] 5] | _ => [mkT [2] 6] end).

Lemma w1_ready : ready sess net w1 who.
Proof.
  apply course_ready.
  - intros [|v] t [<-|[]]; reflexivity.
  - constructor.
    + repeat constructor; cbn; intuition discriminate.
    + intros v b Hv. destruct (in_sess v b Hv) as [[-> | ->] _].
      * constructor; [reflexivity|intros t [<-|[]]; reflexivity| |].
        -- intros r [<-|[<-|[<-|[]]]]; split; cbn; lia.
        -- repeat constructor; cbn; intuition discriminate.
      * constructor; [reflexivity|intros t [<-|[]]; reflexivity| |].
        -- intros r [<-|[<-|[<-|[]]]]; split; cbn; lia.
        -- repeat constructor; cbn; intuition discriminate.
    + intros v b v' b' Hv Hv' Ne r. destruct (in_sess v b Hv) as [[-> | ->] _]; destruct (in_sess v' b' Hv') as [[-> | ->] _]; try congruence; cbn; intuition lia.
  - intros v b r Hv. destruct (in_sess v b Hv) as [[-> | ->] _]; cbn; intuition lia.
Qed.
Definition w2 : world := W (set_vobjs (gr w1) (fun _ => VObj true false 0%R 0%R)) (ctx w1).

Lemma w2_ready : ready sess net w2 who.
Proof. destruct w1_ready as [H1 [O1 O2 O3] H3 H4 H5 H6 H7 H8]. constructor; try assumption. constructor; try assumption. intros v b Hv. destruct (O2 v b Hv). now constructor. Qed.

Example C42_case o : exists ws, trained true 1 sess net feeds o w ws /\ gradient (ws 2) 0 = repeat 0%R 4.
Proof.
  destruct (C42_frame true 1 sess net feeds w who course_start course_feeds o (fun _ _ => or_introl eq_refl)) as (ws & T & H).
  exists ws. split; [exact T|]. apply (H 2 (le_n 2)); [now left|lia].
Qed.

Example C42_order_case : exists w' w'', update_all true 1 (Descent 0) 1 0 sess w = Ok (tt, w') /\ update_all true 1 (Descent 0) 1 0 [(1, true); (0, true)] w = Ok (tt, w'') /\ weights w' 0 = weights w'' 0.
Proof.
  destruct (C42_order true 1 (Descent 0) 1 0 sess [(1, true); (0, true)] w (perm_swap _ _ _) (r_ord _ _ _ _ course_start) (fun _ _ => or_introl eq_refl)) as (w' & w'' & E1 & E2 & H).
  exists w', w''. split; [exact E1|]. split; [exact E2|]. apply (H 0 true). now left.
Qed.

Example C54_case : (exists ws, trained true 1 sess net feeds (new_adam 1 (1 / 10) (1 / 2) (1 / 4)) w ws) /\ (exists ws, trained true 1 sess net feeds (new_adagrad 1 1 0) w ws) /\
  (exists ws, trained true 1 sess net feeds (new_rmsprop 1 1 (1 / 2) 0) w ws) /\ (exists ws, trained true 1 sess net feeds (new_descent 1 1 0) w ws).
Proof.
  split; [|split; [|split]].
  - destruct (C54_adam true 1 sess net feeds w who course_start course_feeds 1 (1 / 10) (1 / 2) (1 / 4) (fun _ _ => eq_refl)) as (ws & T & _). eauto.
  - destruct (C54_adagrad true 1 sess net feeds w who course_start course_feeds 1 1 0 (fun _ _ => eq_refl)) as (ws & T & _). eauto.
  - destruct (C54_rmsprop true 1 sess net feeds w who course_start course_feeds 1 1 (1 / 2) 0 (fun _ _ => eq_refl)) as (ws & T & _). eauto.
  - destruct (C54_descent true 1 sess net feeds w who course_start course_feeds 1 1 0) as (ws & T & _). eauto.
Qed.

(** the ratio is 1 at every step: the step taken does not depend on rho *)
Example C55_case : exists ws, trained true 1 sess net feeds (new_adadelta 1 (9 / 10)) w ws /\
  exists g, slope_at 1 net feeds ws 0 0 1 g /\ elem (ws 1) 0 1 = (5 - 1 / 1 * g)%R.
Proof.
  destruct (C55_adadelta true 1 sess net feeds w who course_start course_feeds 1 (9 / 10) ltac:(lra) ltac:(lra) (fun _ _ => eq_refl)) as (ws & T & H).
  exists ws. split; [exact T|]. destruct (H 0 0 1 ltac:(cbn; lia) (or_introl eq_refl) ltac:(cbn; lia)) as (g & Hg & E). exists g. split; [exact Hg|].
  destruct T as [W0 _]. rewrite E, W0. reflexivity.
Qed.

Example C56_case : exists o' w', train true 1 sess net feeds (new_sgd 1 1 0 0 false) w = Ok (o', w') /\
  train_batch true 1 sess net (hd [] feeds) (new_adam 1 1 0 0) w' = UB.
Proof.
  exact (C56_adam_after true 1 sess net feeds w who course_start course_feeds (new_sgd 1 1 0 0 false) 1 1 0 0 (hd [] feeds) eq_refl eq_refl (fun _ _ => eq_refl) ltac:(discriminate)
    (ex_intro _ 0 (or_introl eq_refl)) (course_feeds _ (or_introl eq_refl))).
Qed.

(** a loss that mentions variable 0 only, while variable 1 has a gradient of [7; 7] from elsewhere *)
Definition half : expr R := EUn 4 op_sum_reduce (EUn 3 op_square (EVar 0)).

Lemma half_on : trainable_on true sess half s [].
Proof.
  intros s' V L _. cbn [bound]. assert (L0 := L 0 true (or_introl eq_refl)). unfold data_of, count_of in L0. rewrite V in L0. cbn in L0.
  destruct (length_4 _ L0) as (a & b & c & d & Q0).
  assert (E0 : e_var (env_of s') 0 = ([2; 2], [a; b; c; d])) by (unfold env_of, val_of; cbn [e_var]; rewrite V; cbn [vdata s vars shape ref]; now rewrite Q0).
  set (q := env_of s') in *.
  assert (P1 : evalR q (EUn 3 op_square (EVar 0)) = Some ([2; 2], [a * a; b * b; c * c; d * d]%R)).
  { unfold evalR. cbn [eval]. rewrite E0. cbv -[Rplus Rmult Ropp IZR Rinv]. reflexivity. }
  assert (P2 : exists v, evalR q half = Some ([1], [v])).
  { unfold evalR, half in *. cbn [eval] in *. rewrite P1. eexists. cbv -[Rplus Rmult Ropp IZR Rinv]. reflexivity. }
  destruct P2 as [v P2]. split; [|split; [|exists ([1], [v]); auto]].
  - unfold trainable_tree. fold q. split; [discriminate|]. split; [repeat constructor; cbn; intuition discriminate|]. split; [|split].
    + intros k x H _. apply At_all in H. cbn in H. destruct H as [H|[H|[H|[]]]]; injection H as <- <-.
      * exists ([1], [v]). split; [exact P2|]. split; [reflexivity|discriminate].
      * eexists. split; [exact P1|]. split; [reflexivity|discriminate].
      * eexists. split; [cbn [eval]; rewrite E0; reflexivity|]. split; [reflexivity|discriminate].
    + intros k n l r H. at_cases H.
    + intros k n l r H. at_cases H.
  - fold q. split; [|intros k n o l r i j H; at_cases H]. intros k n o x i H Hi. at_cases H; injection H as <- <- <- <-.
    + rewrite P1 in Hi. injection Hi as <-. now apply C32_sums.
    + unfold evalR in Hi. cbn [eval] in Hi. rewrite E0 in Hi. injection Hi as <-. pose proof (C30_right_everywhere ([2; 2], [a; b; c; d]) 0%R eq_refl) as F. rewrite Forall_forall in F. apply F. cbn; tauto.
Qed.

Definition who_half (r : nat) : owner := match r with 3 => OGrad 0 | _ => OLeaf end.
Lemma half_ready : ready sess half w who_half.
Proof.
  constructor; cbn [gr ctx w].
  - split; [|split; [|split; [|split]]].
    + intros k v H. apply At_all in H. cbn in H. destruct H as [H|[H|[H|[]]]]; try discriminate H. injection H as <- <-. cbn. repeat split; lia.
    + intros k p t H [= <-]. reflexivity.
    + intros k t H. apply At_all in H. cbn in H. repeat (destruct H as [H|H]; [discriminate H|]). destruct H.
    + discriminate.
    + discriminate.
  - exact (r_ord _ _ _ _ course_start).
  - intros k v H. apply At_all in H. cbn in H. destruct H as [H|[H|[H|[]]]]; try discriminate H. injection H as <- <-. exists true. now left.
  - intros v b r Hv [<-|[]]. destruct (in_sess v b Hv) as [[-> | ->] _]; reflexivity.
  - intros v b Hv Hn. destruct (in_sess v b Hv) as [[-> | ->] _]; [|reflexivity]. exfalso. apply (Hn (Some (3, false))). eapply At_un, At_un, At_root.
  - intros k t H. apply At_all in H. cbn in H. repeat (destruct H as [H|H]; [discriminate H|]). destruct H.
  - intros k p t H. apply At_all in H. cbn in H. repeat (destruct H as [H|H]; [discriminate H|]). destruct H.
  - reflexivity.
Qed.

(** variable 1 goes from 1 to 1 - 7 *)
Example C57_case : exists ws, trained true 1 sess half [[]] (new_descent 1 1 0) w ws /\ elem (ws 1) 1 0 = (-6)%R.
Proof.
  assert (Tr : forall feed, In feed [[]] -> trainable_on true sess half (gr w) feed) by (intros feed [<-|[]]; exact half_on).
  destruct (C57_absent true 1 sess half [[]] w who_half half_ready Tr (new_descent 1 1 0) 1 (or_intror (or_introl eq_refl))) as (ws & T & H).
  { intros k Hk. apply At_all in Hk. cbn in Hk. destruct Hk as [Hk|[Hk|[Hk|[]]]]; discriminate Hk. }
  { intros u _. now left. }
  exists ws. split; [exact T|]. specialize (H 0 0 ltac:(cbn; lia) ltac:(cbn; lia)). apply (f_equal snd) in H. cbn [snd] in H. destruct T as [W0 _]. rewrite W0 in H. rewrite H.
  cbn. field.
Qed.

End Course.

(** C48 refuted: SGD with momentum 1/2 moves a weight that has been frozen everywhere in the graph (5 becomes 5 + 1/2 * 1/2 * 1,
    whatever the batch), because the optimiser looks at the session's copy of the flag *)
Theorem C48_frozen_refuted : exists sess e w who o feeds v,
  ready sess e w who /\ (forall feed, In feed feeds -> trainable_on true sess e (gr w) feed) /\ (forall k, trainable (vobjs (gr w) k) = false) /\
  (exists k, At e k (EVar v)) /\
  exists w' o', train true 1 sess e feeds o w = Ok (o', w') /\ weights w' v <> weights w v.
Proof.
  exists Course.sess, Net.net, Course.w2, Net.who, (new_sgd 1 1 (1 / 2) 0 false), [[(0, ([1; 2], [1; 2]%R))]], 0.
  split; [exact Course.w2_ready|].
  assert (Tr : forall feed, In feed [[(0, ([1; 2], [1; 2]%R))]] -> trainable_on true Course.sess Net.net (gr Course.w2) feed).
  { intros feed [<-|[]] s V L _. apply (Course.course_on 1 2 s V L). intros k t H. apply At_all in H. cbn in H. repeat (destruct H as [H|H]; [discriminate H|]). destruct H. }
  split; [exact Tr|]. split; [reflexivity|].
  assert (K : At Net.net (Some (0, true)) (EVar 0)) by (eapply At_right, At_left, At_un, At_un, At_un, At_root).
  split; [eexists; exact K|].
  destruct (C48_frozen_drift true 1 Course.sess Net.net _ Course.w2 Net.who Course.w2_ready Tr (new_sgd 1 1 (1 / 2) 0 false) 0 (or_introl eq_refl) (ex_intro _ _ K) (fun _ _ => eq_refl))
    as (ws & [W0 E] & H).
  { intros u Hu. right. destruct (Course.in_sess u true Hu) as [[-> | ->] _]; cbn; lia. }
  eexists _, _. split; [exact E|]. specialize (H 0 1 ltac:(cbn; lia) ltac:(cbn; lia)). cbv zeta in H. rewrite W0 in H. cbn [alg new_sgd] in H.
  intros Q. unfold elem in H. cbn [length] in Q. rewrite Q in H. unfold aux, memory, elements, Course.w2, Course.w1 in H.
  cbn in H. rewrite Rmax_right in H by lra. lra.
Qed.

Print Assumptions C41_sgd.
Print Assumptions C41_compounding.
Print Assumptions C42_frame.
Print Assumptions C42_update.
Print Assumptions C42_order.
Print Assumptions C48_frozen_fresh.
Print Assumptions C48_frozen_drift.
Print Assumptions C48_frozen_refuted.
Print Assumptions C54_adagrad.
Print Assumptions C54_rmsprop.
Print Assumptions C54_adam.
Print Assumptions C54_descent.
Print Assumptions C55_adadelta.
Print Assumptions C56_switch.
Print Assumptions C56_adam_after.
Print Assumptions C57_absent.
