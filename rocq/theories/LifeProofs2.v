(** Proofs about the life of a compiled model: one call. *)
From Coq Require Import List Arith Lia Bool PeanoNat NArith ZArith Reals Lra.
From Coquelicot Require Import Rcomplements Rbar Hierarchy Derive.
From Verif Require Import PairSpec PairProps XentSpec XentProps.
From Verif Require Import FitModel FitSpec.
From Verif Require Import ListBase Loops TensorModel TensorSpec ArrayModel LayerModel LayerSpec LayerProofs GraphModel GraphSpec GraphProofs GraphProofs3 GradSpec GradProofs GradProofs3 OpModel CalcSpec
  OpProofs OpProps GradProps ComplexModel LossModel LossSpec LossProps DeclModel NetModel NetSpec ValueModel ValueSpec NetProofs3 NetProps ValueProofs3
  ValueProps LearnModel LearnSpec LearnProofs LearnProofs2 LearnProofs3 LearnProps OptModel OptSpec OptProofs2 OptProps TrainSpec TrainProofs.
From Verif Require Import FittingSpec FittingProofs EpochModel EpochProofs EpochProofs2 EvalModel RunFrame EvalProofs EvalProofs2 EvalProofs3 LifeModel LifeSpec LifeProofs.
Import ListNotations.
Local Open Scope nat_scope.

Lemma after_after o j : forall k, after (after o j) k = after o (j + k).
Proof. induction k as [|k IH]; [now rewrite Nat.add_0_r|]. rewrite Nat.add_succ_r. cbn [after]. now rewrite IH. Qed.

Definition mind_of (w : world) (k : nat) : mind := Mind (weights w) (memory w) k.

Section Life.
Variables (act : (R -> R) -> uop R) (dbg : bool) (eps : R) (m : nat) (s : list nat) (ls : list layer1) (ts : list (list nat)) (ps : list (list nat)) (ns : list ex).
Variables (n0 : nat) (L : comparison) (p : nat) (sess : list (nat * bool)).
Hypotheses (M : (N.of_nat m < 2147483648)%N) (W : NetSpec.within m s) (WF : well_formed m [s] (chain ls) ts ps) (B : build dbg (map N.of_nat s) (chain ls) = Ok (Net ns ps))
  (HL : law dbg eps n0 L) (Hp0 : p <> 0) (Se : forall v, v < length ps <-> exists b, In (v, b) sess)
  (HM : forall a b, made_from a b (term L 0 a b)) (HF : forall a b, fresh_root (term L 0 a b))
  (Dl : forall k l tk, nth_error ls k = Some l -> nth_error ts k = Some tk -> docile act l tk).
Notation out := (graph act n0 (last ns (Leaf 0))).
Notation e := (term L 0 (EHold p) out).
Notation t := (last ts []).
Notation shaped w := (forall v q, nth_error ps v = Some q -> shape (vdata (vars (gr w) v)) = q).
Variables (w0 : world) (o : opt).
Hypothesis (Sh0 : shaped w0).
Notation learns := (learns eps L ls s t (length ps) sess (count w0) e (vobjs (gr w0)) o).
Notation alike := (alike sess).
Notation course := (course eps L ls s t (length ps) sess (count w0) e (vobjs (gr w0)) o).
Notation failing := (failing eps L ls s t (length ps)).

Record sound (w : world) : Prop := {
  so_ready : exists who, ready sess out (phased true w) who;
  so_stock : forall v, In (v, true) sess -> stocked (alg o) w v;
  so_vars : forall v, vars (gr w) v = vars (gr w0) v;
  so_flags : forall k, trainable (vobjs (gr w) k) = trainable (vobjs (gr w0) k) /\ l1 (vobjs (gr w) k) = l1 (vobjs (gr w0) k) /\ l2 (vobjs (gr w) k) = l2 (vobjs (gr w0) k)
}.
Lemma sound_shaped w : sound w -> shaped w.
Proof. intros [_ _ V _] v q Hq. rewrite V. now apply Sh0. Qed.

(** ** minds *)
Lemma alike_refl a : alike a a. Proof. split; auto. Qed.
Lemma alike_trans a b c : alike a b -> alike b c -> alike a c.
Proof. intros [T1 H1] [T2 H2]. split; [congruence|]. intros v f Hv. destruct (H1 v f Hv) as [A1 A2]. destruct (H2 v f Hv) as [A3 A4]. split; [congruence|]. intros i. now rewrite A4, A2. Qed.
Lemma unmoved_alike w w' k : (forall v f, In (v, f) sess -> weights w' v = weights w v /\ forall i, memory w' v i = memory w v i) -> alike (mind_of w k) (mind_of w' k).
Proof. intros H. split; [reflexivity|exact H]. Qed.

Lemma alike_weights a b : alike a b -> map (weight b) (seq 0 (length ps)) = map (weight a) (seq 0 (length ps)).
Proof. intros [_ H]. apply map_ext_in. intros v Hv. apply in_seq in Hv. destruct (proj1 (Se v) ltac:(lia)) as [f Hf]. exact (proj1 (H v f Hf)). Qed.
Lemma alike_failing a b C : alike a b -> failing a C = failing b C.
Proof. intros H. unfold LifeSpec.failing, guess. now rewrite (alike_weights a b H). Qed.

Lemma alike_learns a a' C b : alike a a' -> learns a' C b -> learns a C b.
Proof.
  intros H (T & H1 & H2 & H3). pose proof (alike_weights a a' H) as Ew. destruct H as [Ta H]. split; [congruence|]. split; [|split; [exact H2|]].
  - intros v i Hv Hi. destruct (H v true Hv) as [A1 A2]. specialize (H1 v i Hv Hi). cbv zeta in *. destruct H1 as (g & D & Mv). exists g. unfold guess_with, moment_or_new in *. rewrite Ew, A1 in D. rewrite A1, A2, Ta in Mv. split; [exact D|exact Mv].
  - intros v Hv. rewrite (H3 v Hv). exact (proj1 (H v false Hv)).
Qed.
Lemma alike_course a a' h r b : alike a a' -> course a' h r b -> course a h r b.
Proof.
  intros H C. destruct C as [a' b Q|a' Bt b' h r c Q C|a' Bt b' h r c Q C].
  - constructor. eapply alike_trans; eassumption.
  - rewrite <- (alike_failing a a' Bt H). econstructor; [eapply alike_learns; eassumption|exact C].
  - rewrite <- (alike_failing a a' Bt H). econstructor; [eapply alike_trans; eassumption|exact C].
Qed.

Lemma lesson_learns w w' k Bt : (forall v, vars (gr w) v = vars (gr w0) v) ->
  (forall q, trainable (vobjs (gr w) q) = trainable (vobjs (gr w0) q) /\ l1 (vobjs (gr w) q) = l1 (vobjs (gr w0) q) /\ l2 (vobjs (gr w) q) = l2 (vobjs (gr w0) q)) ->
  lesson act eps s ls ts ps ns n0 L p sess (after o k) Bt w w' -> learns (mind_of w k) Bt (mind_of w' (S k)).
Proof.
  intros Vs Fs [H1 H2]. assert (Ec : forall v, count w v = count w0 v) by (intros v; unfold count; now rewrite Vs).
  split; [reflexivity|]. cbn [mind_of weight moment taught]. split; [|split; [|exact H2]].
  - intros v i Hv Hi. destruct (H1 v Hv) as [_ Q]. rewrite Ec in Q. destruct (Q i Hi) as (g & D & Mv). exists g. destruct (after_alg o k) as [Ea Es]. rewrite Ea, Es in Mv. split.
    + intros Tr Hx. cbv zeta in D. destruct D as (l & D1 & D2).
      * intros q Hq. rewrite (proj1 (Fs q)). now apply Tr.
      * destruct Hx as [Hx|Hx]; [now left|right]. intros q Hq. rewrite (proj1 (proj2 (Fs q))). now apply Hx.
      * exists l. split; [|exact D2]. revert D1. apply is_derive_ext. intros z. f_equal. apply cost_flags. intros q. split; apply Fs.
    + rewrite Mv. f_equal. unfold memory_or_new, moment_or_new. cbn [mind_of moment]. unfold memory. now destruct (ctx w v).
  - intros v Hv. destruct (H1 v Hv) as [Q _]. now rewrite Q.
Qed.

Definition serves (c : call) (w : world) (k : nat) : Prop :=
  exists w' r k', perform dbg eps sess e out p c (after o k) w = Ok ((answer eps ls s t (length ps) c (mind_of w k) r, after o k'), w') /\
    course (mind_of w k) (presented s t c) r (mind_of w' k') /\ training (gr w') = phase_after (training (gr w)) c /\ sound w'.

(** ** learning_phase = ... *)
Lemma assign_serves l w k : sound w -> serves (AssignPhase l) w k.
Proof.
  intros [Rd St Vs Fs]. exists (phased l w), [], k. split; [reflexivity|]. split; [constructor; now apply unmoved_alike|]. split; [reflexivity|]. constructor; assumption.
Qed.

(** ** evaluate *)
Lemma measures a b : alike a b -> forall h, course a (map (fun Bt => (false, Bt)) h) (map (failing a) h) b.
Proof. intros H. induction h as [|Bt h IH]; cbn [map]; [now constructor|]. econstructor; [apply alike_refl|exact IH]. Qed.

Lemma evaluate_serves x y b w k : suits m L s t (Evaluate x y b) -> sound w -> serves (Evaluate x y b) w k.
Proof.
  intros ((((samples & Ex & Ey) & Lx & Ly) & Hb & Hbm) & Dom) Sw. pose proof (sound_shaped w Sw) as Sh. destruct Sw as [(who & Rd) St Vs Fs].
  destruct x as [sx x], y as [sy y]. cbn [fst snd] in *. subst sx sy. cbn [prod fold_right] in Lx, Ly. change (fold_right Nat.mul 1 s) with (prod s) in Lx. change (fold_right Nat.mul 1 t) with (prod t) in Ly.
  assert (Dom' : forall l pred, l < samples / b -> domain L (b :: t) (targets (part_of s ts x y b l)) pred).
  { intros l pred Hl. apply (Dom false (part_of s ts x y b l)). apply in_map_iff. exists l. split; [reflexivity|]. apply in_seq. cbn [full fst hd]. unfold full. cbn [fst hd]. lia. }
  destruct (started act s ts ns n0 p sess w who o b Hp0 Rd St) as (tx & ty & w1 & Sx & Sy & S1 & C1 & V1 & O1 & U1 & Eb).
  assert (Sh1 : shaped w1) by (intros v q Hq; rewrite V1; now apply Sh).
  assert (Ep : parameters (length ps) w1 = parameters (length ps) w).
  { unfold parameters. apply map_ext_in. intros v Hv. apply in_seq in Hv. destruct (proj1 (Se v) ltac:(lia)) as [f Hf]. exact (proj1 (U1 v f Hf)). }
  destruct (tests_ok act dbg eps m s ls ts ps ns n0 L p sess M W WF B HL Hp0 Se HM x y samples b Lx Ly Hb Hbm tx ty w1 o Sx Sy Sh1 (samples / b) 0 w1 0%R ltac:(lia) S1) as (w' & E & S' & [Cw U']).
  { intros l Hl. eapply always_fittable; eassumption. }
  pose proof (state_phase act s ts ns n0 p sess b tx ty w1 o w' S') as Ph. destruct S' as [(who' & dx & dy & Rd' & _) St' Vs' Fs'].
  exists w', (map (fun l => failing (mind_of w k) (part_of s ts x y b l)) (seq 0 (samples / b))), k. split; [|split; [|split; [exact (r_train _ _ _ _ Rd')|]]].
  - cbn [perform]. unfold evaluate. cbn [fst snd]. rewrite (proj2 (Nat.eqb_neq b 0)) by lia. unfold obnd at 1.
    rewrite (Eb _ false (fun tx' ty' => do v <- tests dbg _ tx' ty' x y (prod (b :: s)) (prod (b :: t)) 0 (samples / b) 0%R; do _ <- on_graph (modify (fun s => set_training s true)); oret (quotient v (samples / b)))).
    change (prod (b :: s)) with (b * prod s). change (prod (b :: t)) with (b * prod t). unfold obnd. rewrite E. unfold on_graph, modify, oret.
    change (OptModel.W (set_training (gr (phased false w')) true) (ctx (phased false w'))) with (phased true w'). rewrite Ph, quotient_over, Rplus_0_l. f_equal. f_equal. f_equal.
    cbn [answer]. unfold ratio, full. cbn [fst hd]. f_equal. f_equal. f_equal. apply map_ext. intros i. unfold LifeSpec.failing, guess. cbn [mind_of weight]. now rewrite Ep.
  - cbn [presented]. unfold full. cbn [fst hd]. unfold rows. cbn [snd]. rewrite <- (map_map (part_of s ts x y b) (fun Bt => (false, Bt))), <- (map_map (part_of s ts x y b) (failing (mind_of w k))). apply measures, unmoved_alike.
    intros v f Hv. destruct (U' v f Hv) as [A1 A2]. destruct (U1 v f Hv) as [A3 A4]. split; [congruence|]. intros i. now rewrite A2, A4.
  - constructor.
    + exists who'. now rewrite Ph.
    + exact St'.
    + intros v. rewrite Vs'. rewrite V1. apply Vs.
    + intros q. destruct (Fs' q) as (-> & -> & ->). rewrite O1. apply Fs.
Qed.

(** ** fit *)
Lemma firstn_skipn_seq {A} (f : nat -> A) N l j : (j + 1) * l <= N -> firstn l (skipn (j * l) (map f (seq 0 N))) = map (fun i => f (j * l + i)) (seq 0 l).
Proof.
  intros H. replace N with (j * l + (l + (N - (j + 1) * l))) by lia. rewrite seq_app, map_app, skipn_app, skipn_all2, map_length, seq_length, Nat.sub_diag by (rewrite map_length, seq_length; lia). cbn [skipn app].
  rewrite seq_app, map_app, firstn_app, map_length, seq_length, Nat.sub_diag. cbn [firstn]. rewrite app_nil_r, firstn_all2 by (rewrite map_length, seq_length; lia).
  rewrite Nat.add_0_l. generalize (j * l) as a. clear. intros a. induction l as [|l IH]; [reflexivity|]. rewrite !seq_S, !map_app, IH. cbn [map]. now rewrite Nat.add_0_l.
Qed.
Lemma firstn_seq k a n : firstn k (seq a n) = seq a (Nat.min n k).
Proof. revert a n. induction k as [|k IH]; intros a [|n]; try reflexivity. cbn [seq firstn Nat.min]. now rewrite IH. Qed.
Lemma skipn_seq k a n : skipn k (seq a n) = seq (a + k) (n - k).
Proof. revert a n. induction k as [|k IH]; intros a n; [now rewrite Nat.add_0_r, Nat.sub_0_r|]. destruct n; [reflexivity|]. cbn [seq skipn]. rewrite IH. f_equal; lia. Qed.
Lemma epochs_flat {A} (f : nat -> A) l n : flat_map (fun _ => map f (seq 0 l)) (seq 0 n) = map (fun k => f (k mod l)) (seq 0 (n * l)).
Proof.
  induction n as [|n IH]; [reflexivity|]. rewrite seq_S, flat_map_app, IH. cbn [flat_map]. rewrite app_nil_r. replace (S n * l) with (n * l + l) by lia. rewrite seq_app, map_app. f_equal.
  destruct l as [|l]; [reflexivity|]. set (d := S l) in *. rewrite Nat.add_0_l. replace (seq (n * d) d) with (map (fun i => n * d + i) (seq 0 d)).
  - rewrite map_map. apply map_ext_in. intros i Hi. apply in_seq in Hi. f_equal. rewrite Nat.add_comm, Nat.mod_add by (unfold d; lia). symmetry. apply Nat.mod_small. lia.
  - generalize (n * d). clear. intros a. revert a. generalize d. intros k. induction k as [|k IH]; intros a; [reflexivity|]. rewrite !seq_S, map_app, IH. reflexivity.
Qed.

Lemma along (u : nat -> world) (c : nat -> nat) (Bt : nat -> bool * batch) : forall N i,
  (forall k, i <= k < i + N -> if fst (Bt k) then learns (mind_of (u k) (c k)) (snd (Bt k)) (mind_of (u (S k)) (c (S k))) else alike (mind_of (u k) (c k)) (mind_of (u (S k)) (c (S k)))) ->
  course (mind_of (u i) (c i)) (map Bt (seq i N)) (map (fun k => failing (mind_of (u k) (c k)) (snd (Bt k))) (seq i N)) (mind_of (u (i + N)) (c (i + N))).
Proof.
  induction N as [|N IH]; intros i H; cbn [seq map].
  - rewrite Nat.add_0_r. constructor. apply alike_refl.
  - pose proof (H i ltac:(lia)) as Hi. specialize (IH (S i) ltac:(intros k Hk; apply H; lia)). replace (S i + N) with (i + S N) in IH by lia. destruct (Bt i) as [[|] Bi]; cbn [fst snd] in *; econstructor; eassumption.
Qed.

Lemma fit_serves x y b n training w k : suits m L s t (Fit x y b n training) -> sound w -> serves (Fit x y b n training) w k.
Proof.
  intros ((((samples & Ex & Ey) & Lx & Ly) & Hb & Hbm) & Dom) Sw. pose proof (sound_shaped w Sw) as Sh. destruct Sw as [(who & Rd) St Vs Fs].
  destruct x as [sx x], y as [sy y]. cbn [fst snd] in *. subst sx sy. cbn [prod fold_right] in Lx, Ly. change (fold_right Nat.mul 1 s) with (prod s) in Lx. change (fold_right Nat.mul 1 t) with (prod t) in Ly.
  set (loops := samples / b) in *. set (ok := after o k).
  assert (Ek : alg ok = alg o) by apply after_alg.
  destruct n as [|n].
  { destruct (started act s ts ns n0 p sess w who o b Hp0 Rd St) as (tx & ty & w1 & Sx & Sy & S1 & C1 & V1 & O1 & U1 & Eb).
    pose proof (state_phase act s ts ns n0 p sess b tx ty w1 o w1 S1) as Ph. destruct S1 as [(who' & dx & dy & Rd' & _) St' Vs' Fs'].
    exists w1, [], k. split; [|split; [|split; [exact (r_train _ _ _ _ Rd')|]]].
    - cbn [perform]. unfold fit. cbn [fst snd]. rewrite (proj2 (Nat.eqb_neq b 0)) by lia. unfold obnd at 1.
      rewrite (Eb _ true (fun tx' ty' => epochs dbg eps sess _ tx' ty' x y (prod (b :: s)) (prod (b :: t)) (samples / b) training 0 _)). rewrite Ph. reflexivity.
    - constructor. now apply unmoved_alike.
    - constructor; [exists who'; now rewrite Ph|exact St'|intros v; rewrite V1; apply Vs|intros q; rewrite O1; apply Fs]. }
  assert (Dom' : forall l pred, l < samples / b -> domain L (b :: t) (targets (part_of s ts x y b l)) pred).
  { intros l pred Hl. apply (Dom (l <=? training) (part_of s ts x y b l)). cbn [presented]. apply in_flat_map. exists 0. split; [apply in_seq; lia|]. apply in_map_iff. exists l. split; [reflexivity|]. apply in_seq. unfold full. cbn [fst hd]. lia. }
  destruct (started act s ts ns n0 p sess w who ok b Hp0 Rd) as (tx & ty & w1 & Sx & Sy & S1 & C1 & V1 & O1 & U1 & Eb); [now rewrite Ek|].
  assert (Sh1 : shaped w1) by (intros v q Hq; rewrite V1; now apply Sh).
  set (u := met act dbg eps s ts ns n0 L p sess x y samples b training tx ty w1 ok). set (c := fun i => k + lessons_before samples b training i).
  pose proof (fit_epochs_ok act dbg eps m s ls ts ps ns n0 L p sess M W WF B HL Hp0 Se HM x y samples b training Lx Ly Hb Hbm tx ty w1 ok Sx Sy Sh1 S1 Dl Dom' (S n) 0) as E.
  cbn [Nat.mul] in E. change (0 + S n) with (S n) in E. change (lessons_before samples b training 0) with 0 in E. fold loops u in E. change (u 0) with w1 in E. change (after ok 0) with ok in E.
  assert (Mt := fun i H => met_ok act dbg eps m s ls ts ps ns n0 L p sess M W WF B HL Hp0 Se HM x y samples b training Lx Ly Hb Hbm tx ty w1 ok Sx Sy Sh1 S1 Dl Dom' i H). fold loops u in Mt.
  set (Bt := fun i => (i mod loops <=? training, rows s t (samples :: s, x) (samples :: t, y) b (i mod loops))).
  assert (Sf : (sound (u (S n * loops)) /\ GraphModel.training (gr (u (S n * loops))) = true) /\ course (mind_of (u 0) (c 0)) (map Bt (seq 0 (S n * loops))) (map (fun i => failing (mind_of (u i) (c i)) (snd (Bt i))) (seq 0 (S n * loops))) (mind_of (u (S n * loops)) (c (S n * loops)))).
  { assert (Fin : forall w', EpochProofs2.state act s ts ns n0 p sess b tx ty w1 ok w' -> sound w' /\ GraphModel.training (gr w') = true).
    { intros w' S'. pose proof (state_phase act s ts ns n0 p sess b tx ty w1 ok w' S') as Ph. destruct S' as [(who' & dx & dy & Rd' & _) St' Vs' Fs']. split; [|exact (r_train _ _ _ _ Rd')]. constructor.
      - exists who'. now rewrite Ph.
      - intros v Hv. rewrite <- Ek. now apply St'.
      - intros v. rewrite Vs', V1. apply Vs.
      - intros q. destruct (Fs' q) as (-> & -> & ->). rewrite O1. apply Fs. }
    destruct (Nat.eq_dec loops 0) as [Z|Z].
    - rewrite Z, Nat.mul_0_r. split; [now apply Fin|]. constructor. apply alike_refl.
    - split; [now apply Fin, Mt; lia|]. apply (along u c Bt (S n * loops) 0). intros i _. destruct (Mt i ltac:(lia)) as (Si & Hle & Hgt). unfold Bt, c. cbn [fst snd]. rewrite lessons_S. fold loops.
      destruct (i mod loops <=? training) eqn:C.
      + apply Nat.leb_le in C. destruct (Hle C) as [_ Le]. unfold ok in Le. rewrite after_after in Le. destruct (Fin _ Si) as [[_ _ Vi Fi] _]. rewrite Nat.add_1_r, Nat.add_succ_r. now apply lesson_learns.
      + apply Nat.leb_gt in C. destruct (Hgt C) as [_ [_ U]]. rewrite Nat.add_0_r. now apply unmoved_alike. }
  destruct Sf as [[Sf Tf] Cs]. exists (u (S n * loops)), (map (fun i => failing (mind_of (u i) (c i)) (snd (Bt i))) (seq 0 (S n * loops))), (c (S n * loops)). split; [|split; [|split; [exact Tf|exact Sf]]].
  - cbn [perform]. unfold fit. cbn [fst snd]. rewrite (proj2 (Nat.eqb_neq b 0)) by lia. unfold obnd at 1.
    rewrite (Eb _ true (fun tx' ty' => epochs dbg eps sess _ tx' ty' x y (prod (b :: s)) (prod (b :: t)) (samples / b) training (S n) _)).
    rewrite (state_phase act s ts ns n0 p sess b tx ty w1 ok w1 S1). change (prod (b :: s)) with (b * prod s). change (prod (b :: t)) with (b * prod t). fold ok loops. rewrite E. cbn [fst snd]. unfold oret. f_equal. f_equal.
    f_equal; [|unfold ok; rewrite after_after; reflexivity]. unfold answer, full. cbn [fst hd]. fold loops. unfold ratio. f_equal; apply map_ext_in; intros j Hj; apply in_seq in Hj; rewrite firstn_skipn_seq by nia; f_equal; f_equal.
    + rewrite early, firstn_map, firstn_seq. apply map_ext. intros i. reflexivity.
    + rewrite late, skipn_map, skipn_seq. apply map_ext. intros i. reflexivity.
  - cbn [presented]. unfold full. cbn [fst hd]. fold loops. rewrite (epochs_flat (fun l => (l <=? training, rows s t (samples :: s, x) (samples :: t, y) b l))). fold Bt.
    apply alike_course with (a' := mind_of (u 0) (c 0)); [|exact Cs]. replace (c 0) with k by (unfold c, lessons_before; cbn; lia). now apply unmoved_alike.
Qed.


(** ** what the network computes *)
Lemma settled w who b x : ready sess out w who -> shaped w -> 1 <= b -> (N.of_nat (b * m) < 4294967296)%N -> length x = b * prod s -> e_hold (env_of (gr w)) 0 = Some (b :: s, x) ->
  trainable_tree out (gr w) /\ evalR (env_of (gr w)) out = Some (b :: t, predictions eps ls s (parameters (length ps) w) (Batch b x [])) /\ forall v f, In (v, f) sess -> exists k, At out k (EVar v).
Proof.
  intros Rd Sh B1 B2 Li Hh0. set (s0 := gr w) in *.
  assert (Gv : given s ps b (env_of s0)).
  { split.
    - cbn [leaf_of]. rewrite Hh0. split; [reflexivity|]. cbn [adata fst snd]. rewrite Li. cbn [prod fold_right]. reflexivity.
    - intros v q Hq. assert (Hv : v < length ps) by (apply nth_error_Some; congruence).
      destruct (proj1 (Se v) Hv) as [f Hf]. cbn [leaf_of env_of e_var]. unfold val_of. cbn [fst snd]. split; cbn [ashape adata]; [now apply Sh|].
      destruct (t_live _ _ (o_tidy _ _ (r_ord _ _ _ _ Rd) v f Hf) (ref (vdata (vars s0 v)))) as [Q1 Q2]; [right; now left|].
      rewrite <- (Sh v q Hq). exact Q2. }
  set (Bt := Batch b x (repeat 0%R (b * prod t))).
  assert (Dm : forall k, denoted eps ls s b (length ps) (env_of s0) k = made_of eps ls s (parameters (length ps) w) Bt k) by (intros k; exact (denoted_made eps s ls ps _ Bt Hh0 k)).
  set (L' := {| term := term L; value := value L; objective := objective L; near := near L; domain := fun _ _ _ => True |}).
  destruct (docile_fittable act dbg eps m s ls ts ps ns n0 L' p sess M W WF B Hp0 w who Bt Rd Sh Se) as [Te _].
  { split; [exact B1|]. split; [exact B2|]. split; [exact Li|]. apply repeat_length. } { exact Dl. } { exact I. } { apply (last_shape dbg m s ls ts ps ns p M W WF B Hp0). }
  assert (Te' : forall k l, nth_error ls k = Some l -> teachable act l (denoted eps ls s b (length ps) (env_of s0) k)) by (intros k l Hl; rewrite Dm; now apply Te).
  destruct (last_expression act dbg eps m s ls ts ps ns b M W WF B B1 B2 (env_of s0) Gv Te') as (Mn & H). destruct (H n0) as ((E & F) & N).
  destruct (fine_trainable dbg _ s0 F (graph_tree act (last ns (Leaf 0)) n0)) as [Tt Rt].
  pose proof (denoted_last dbg eps m s ls ts ps ns p M W WF B Hp0 _ _ B1 B2 Gv) as Ef.
  split; [exact Tt|]. split.
  - rewrite E. f_equal. rewrite (surjective_pairing (denoted _ _ _ _ _ _ _)), Ef. f_equal. rewrite Dm. reflexivity.
  - intros v f Hf. destruct (mentions_at act out _ v (Mn v ltac:(apply Se; eauto)) n0 None (At_root _)) as (k & Hk). eauto.
Qed.

(** ** predict *)
Lemma predict_serves x w k : suits m L s t (Predict x) -> sound w -> serves (Predict x) w k.
Proof.
  intros (((b & Ex) & Lx & Hb & Hbm) & _) Sw. pose proof (sound_shaped w Sw) as Sh. destruct Sw as [(who & Rd) St Vs Fs].
  destruct x as [sx x]. cbn [fst snd] in *. subst sx. cbn [hd] in Hb, Hbm. cbn [prod fold_right] in Lx. change (fold_right Nat.mul 1 s) with (prod s) in Lx.
  set (w1 := phased true w) in *. set (m0 := length (hp (gr w))).
  set (whob := who_new who m0 OLeaf). set (sb := bound [(0, (b :: s, x))] (gr w1)).
  assert (Rb : ready sess out (OptModel.W sb (ctx w)) whob) by exact (ready_bound1 sess out (gr w1) (ctx w1) who 0 (b :: s, x) Rd).
  destruct (bound_keeps [(0, (b :: s, x))] (gr w1)) as (BV & BO & BT & BL & BF). fold sb in BV, BO, BT, BL, BF.
  assert (Ll : forall v f r, In (v, f) sess -> In r (foot w v) -> r < m0) by (intros v f r Hv Hr; exact (proj1 (t_live _ _ (o_tidy _ _ (r_ord _ _ _ _ Rd) v f Hv) r Hr))).
  destruct (settled (OptModel.W sb (ctx w)) whob b x Rb) as (Tt & E & Oc); auto.
  { cbn [gr]. unfold sb. cbn [bound env_of e_hold set_holders holders set_hp hp fst snd]. unfold fupd. cbn [Nat.eqb]. f_equal. unfold val_of. cbn [shape ref]. f_equal. rewrite app_nth2, Nat.sub_diag by lia. reflexivity. }
  cbn [gr] in Tt, E. destruct Tt as (T1 & T2 & T3 & T4 & T5).
  destruct (run_binv 0%R 1%R Rplus Rmult dbg out (set_training sb false) whob T1 T2 T3 T4 T5 (r_sep _ _ _ _ Rb) (ready_graded _ _ _ _ Rb))
    as (y & s' & who' & R1 & V1 & Bi & Vz & Hz & Tz & Lz & Wz & Lf & Fz & _ & Gz). specialize (Gz eq_refl).
  cbn [set_training hp vars vobjs holders training] in *.
  change (eval 0%R 1%R Rplus Rmult (env_of (set_training sb false)) out) with (evalR (env_of sb) out) in V1. rewrite E in V1. match type of V1 with Some ?a = Some ?b => assert (V2 : b = a) by congruence end. clear V1.
  set (w' := OptModel.W (set_training (set_cache s' (fun _ => None)) true) (ctx w)).
  assert (Vw : forall v, vars s' v = vars (gr w) v) by (intros v; rewrite Vz; unfold sb; cbn [bound]; reflexivity).
  assert (Kp : forall v f r, In (v, f) sess -> In r (ref (vdata (vars (gr w) v)) :: map ref (ctx w v)) -> nth_error (hp s') r = nth_error (hp (gr w)) r).
  { intros v f r Hv Hr. assert (Q : r < m0) by (apply (Ll v f r Hv); now right).
    assert (Wr : whob r = OLeaf) by (apply (r_leaf _ _ _ _ Rb v f r Hv); exact Hr).
    assert (Ls : m0 <= length (hp sb)) by exact BL. rewrite Lf; [|lia|intros n; congruence|intros n; congruence]. unfold sb. cbn [bound set_holders set_hp hp fst snd]. apply nth_error_app1. exact Q. }
  exists w', [], k. split; [|split; [|split; [reflexivity|]]].
  - cbn [perform]. unfold predict, obnd, on_graph, modify. cbn [bind_all]. unfold gbind, new_tensor, heaply, alloc, modify, gret. cbn [gr ctx fst snd].
    match goal with |- context [run _ _ _ _ _ _ ?z] => change z with (set_training sb false) end. rewrite R1. cbn [gr ctx]. unfold oret. f_equal. f_equal. f_equal. f_equal. cbn [answer hd fst snd]. unfold guess. cbn [mind_of weight].
    cbn [set_training set_cache hp]. rewrite V2.
    replace (parameters (length ps) (OptModel.W sb (ctx w))) with (map (weights w) (seq 0 (length ps))); [reflexivity|]. unfold parameters. apply map_ext_in. intros v Hv. apply in_seq in Hv. destruct (proj1 (Se v) ltac:(lia)) as [f Hf].
    unfold weights, OptSpec.elements. cbn [gr]. rewrite BV. symmetry. apply BF. apply (Ll v f _ Hf). right. now left.
  - cbn [presented]. constructor. apply unmoved_alike. intros v f Hv. split.
    + unfold weights, OptSpec.elements. unfold w'. cbn [gr set_training set_cache hp vars]. rewrite Vw. apply nth_of_error. apply (Kp v f _ Hv). now left.
    + intros i. unfold memory, OptSpec.elements. unfold w'. cbn [gr ctx set_training set_cache hp]. apply map_ext_in. intros t0 Ht. f_equal. apply nth_of_error. apply (Kp v f _ Hv). right. now apply in_map.
  - assert (Ft : forall v, foot w' v = foot (OptModel.W sb (ctx w)) v) by (intros v; unfold foot, w'; cbn [gr ctx set_training set_cache vars]; now rewrite Vz).
    constructor.
    + exists who'. destruct Bi as [_ Sp _ _ Gd]. destruct Sp as (Sv & Shd & Sc & So & Sb). pose proof Rb as [Spb Or Rv Rl Ri Rc Rh Rt]. cbn [gr ctx] in *.
      constructor; unfold phased, w'; cbn [gr ctx set_training set_cache hp vars holders own ownb training]; auto.
      * split; [exact Sv|split; [exact Shd|split; [exact Sc|split; [exact So|exact Sb]]]].
      * destruct Or as [O1 O3 O4]. constructor; [exact O1| |].
        -- intros v f Hv. destruct (O3 v f Hv) as [U1 U3 U4 U5]. constructor; cbn [gr ctx set_training set_cache vars]; rewrite ?Vz; auto.
           ++ intros r Hr. change (In r (foot w' v)) in Hr. rewrite Ft in Hr. destruct (U4 r Hr) as [Q1 Q2]. unfold count in *. cbn [gr ctx set_training set_cache vars hp] in *. rewrite Vz. split; [lia|]. rewrite <- Q2.
              destruct Hr as [Hr|Hr].
              ** destruct (Oc v f Hv) as [kk Hk]. destruct (Gz kk v Hk) as [Q _]. cbn [gr] in Hr. rewrite <- Hr. now rewrite Q.
              ** apply nth_error_len. apply Lf; [exact Q1|intros n|intros n]; rewrite (Rl v f r Hv Hr); discriminate.
           ++ change (NoDup (foot w' v)). rewrite Ft. exact U5.
        -- intros v f v' f' Hv Hv' Ne r. change (In r (foot w' v) -> ~ In r (foot w' v')). rewrite !Ft. exact (O4 v f v' f' Hv Hv' Ne r).
      * intros v f r Hv. rewrite Vz. intros Hr. rewrite Wz; [exact (Rl v f r Hv Hr)|]. apply (t_live _ _ (o_tidy _ _ Or v f Hv) r). now right.
      * intros v f Hv Ha. destruct (Oc v f Hv) as [kk Hk]. now destruct (Ha kk).
      * intros kk u Hk. destruct (Rc kk u Hk) as [Q1 Q2]. split; [lia|]. intros v f Hv. change (~ In (ref u) (foot w' v)). rewrite Ft. exact (Q2 v f Hv).
      * intros kk q u Hk. rewrite Hz. intros Hu. destruct (Rh kk q u Hk Hu) as [Q1 Q2]. split; [lia|]. intros v f Hv. change (~ In (ref u) (foot w' v)). rewrite Ft. exact (Q2 v f Hv).
    + exact St.
    + intros v. unfold w'. cbn [gr set_training set_cache vars]. rewrite Vw. apply Vs.
    + intros q. unfold w'. cbn [gr set_training set_cache vobjs]. destruct (Fz q) as (-> & -> & ->). apply Fs.
Qed.

(** ** train_on_batch *)
Lemma train_serves x y w k : suits m L s t (TrainOnBatch x y) -> sound w -> serves (TrainOnBatch x y) w k.
Proof.
  intros ((((b & Ex & Ey) & Lx & Ly) & Hb & Hbm) & Dom) Sw. pose proof (sound_shaped w Sw) as Sh. destruct Sw as [(who & Rd) St Vs Fs].
  destruct x as [sx x], y as [sy y]. cbn [fst snd] in *. subst sx sy. cbn [hd] in Hb, Hbm. cbn [prod fold_right] in Lx, Ly. change (fold_right Nat.mul 1 s) with (prod s) in Lx. change (fold_right Nat.mul 1 t) with (prod t) in Ly.
  set (Bt := Batch b x y). assert (Ft : fits m s t Bt) by (split; [exact Hb|]; split; [exact Hbm|]; split; assumption).
  set (w1 := phased true w) in *. destruct (after_alg o k) as [Ea Es].
  assert (Ll : length ls <= length ts) by apply (last_shape dbg m s ls ts ps ns p M W WF B Hp0).
  assert (Fi : fittable act eps L ls s t (parameters (length ps) w1) Bt) by (apply (docile_fittable act dbg eps m s ls ts ps ns n0 L p sess M W WF B Hp0 w1 who Bt Rd Sh Se Ft Dl); [apply (Dom true Bt); now left|exact Ll]).
  destruct (one_batch act dbg eps m s ls ts ps ns n0 L p sess M W WF B HL Hp0 w1 who (after o k) Bt Rd Sh Se ltac:(rewrite Ea; exact St) Ft Fi) as (yt & w' & who' & TB & Rd' & St' & Vs' & Fs' & ((yt' & s1 & R1 & V1) & Le)).
  set (whob := who_new (who_new who (length (hp (gr w1))) OLeaf) (S (length (hp (gr w1)))) OLeaf).
  assert (Rb : ready sess out (OptModel.W (bound (feed s t p Bt) (gr w1)) (ctx w1)) whob).
  { pose proof (ready_bound1 sess out _ (ctx w1) _ p (b :: t, y) (ready_bound1 sess out (gr w1) (ctx w1) who 0 (b :: s, x) Rd)) as Q.
    cbn [set_holders set_hp hp fst snd] in Q. rewrite app_length, Nat.add_1_r in Q. unfold whob. cbn [feed bound]. unfold feed. cbn [bound fst snd number inputs targets Bt set_holders set_hp hp]. rewrite app_length, Nat.add_1_r. exact Q. }
  assert (Oc : forall v f, In (v, f) sess -> exists k, At out k (EVar v)).
  { apply (settled _ whob b x Rb); auto.
    cbn [gr]. unfold feed. cbn [bound env_of e_hold set_holders holders set_hp hp fst snd Bt number inputs targets]. unfold fupd. rewrite (proj2 (Nat.eqb_neq 0 p)) by lia. cbn [Nat.eqb]. f_equal. unfold val_of. cbn [shape ref]. f_equal.
      rewrite app_nth1 by (rewrite app_length; cbn; lia). rewrite app_nth2, Nat.sub_diag by lia. reflexivity. }
  pose proof TB as TB'. unfold train_batch in TB'. unfold obnd at 1, on_graph at 1 in TB'. rewrite bind_all_ok in TB'. unfold obnd at 1, on_graph at 1 in TB'. cbn [gr ctx] in TB'. rewrite R1 in TB'.
  unfold obnd at 1, on_graph at 1, modify in TB'. cbn [gr ctx] in TB'. unfold obnd at 1 in TB'.
  match type of TB' with match ?q with _ => _ end = _ => destruct q as [[o1 w2]| |] eqn:ES; try discriminate end. unfold oret in TB'. injection TB' as Ey Eo Ew. subst yt' w2.
  assert (K : nth_error (hp (gr w')) (ref yt) = nth_error (hp s1) (ref yt)).
  { apply (result_kept dbg eps sess e out p w1 whob (feed s t p Bt) (after o k) yt s1 o1 w' Rb (HM _ _) (HF _ _) Oc R1 ES).
    intros v. rewrite Vs'. now rewrite (proj1 (bound_keeps (feed s t p Bt) (gr w1))). }
  change (parameters (length ps) w1) with (map (weights w) (seq 0 (length ps))) in V1.
  exists w', [failing (mind_of w k) Bt], (S k). split; [|split; [|split; [exact (r_train _ _ _ _ Rd')|]]].
  - cbn [perform]. unfold train_on_batch. unfold obnd at 1. unfold obnd at 1. unfold on_graph, modify. cbn [gr ctx]. change (OptModel.W (set_training (gr w) true) (ctx w)) with w1.
    change [(0, (b :: s, x)); (p, (b :: t, y))] with (feed s t p Bt). unfold obnd at 1. rewrite TB. cbn [fst snd]. unfold obnd at 1, scalar.
    unfold val_of in V1. injection V1 as V1 V2. rewrite V1. cbn [prod fold_right Nat.mul Nat.add Nat.eqb negb]. rewrite andb_false_r.
    assert (Nh : nth_error (hp s1) (ref yt) = Some [failing (mind_of w k) Bt]).
    { destruct (nth_error (hp s1) (ref yt)) as [d|] eqn:D; [|apply nth_error_None in D; rewrite nth_overflow in V2 by exact D; discriminate]. f_equal. rewrite <- (nth_error_nth _ _ [] D). exact V2. }
    rewrite K, Nh. unfold oret. cbn [fst snd]. f_equal. f_equal.
  - cbn [presented hd fst snd]. apply course_learn with (b := mind_of w' (S k)); [|constructor; apply alike_refl]. apply lesson_learns; auto.
  - constructor.
    + exists who'. replace (phased true w') with w'; [exact Rd'|]. pose proof (r_train _ _ _ _ Rd') as Q. unfold phased. destruct w' as [g c]. cbn [gr ctx] in *. f_equal. destruct g. cbn in Q. now subst.
    + rewrite <- Ea. exact St'.
    + intros v. rewrite Vs'. apply Vs.
    + intros q. destruct (Fs' q) as (-> & -> & ->). apply Fs.
Qed.

(** ** any sequence of calls *)
Lemma all_serve c w k : suits m L s t c -> sound w -> serves c w k.
Proof.
  destruct c; intros H Sw; [now apply fit_serves|now apply evaluate_serves|now apply train_serves|now apply predict_serves|now apply assign_serves].
Qed.

Theorem lives cs : forall w k, Forall (suits m L s t) cs -> sound w ->
  exists w' rs k', perform_all dbg eps sess e out p cs (after o k) w = Ok ((rs, after o k'), w') /\
    life eps L ls s t (length ps) sess (count w0) e (vobjs (gr w0)) o (mind_of w k) cs rs (mind_of w' k') /\ training (gr w') = fold_left phase_after cs (training (gr w)) /\ sound w'.
Proof.
  induction cs as [|c cs IH]; intros w k H Sw.
  - exists w, [], k. split; [reflexivity|]. split; [constructor|split; [reflexivity|exact Sw]].
  - inversion H as [|? ? Hc Hcs]; subst. destruct (all_serve c w k Hc Sw) as (w1 & r & k1 & P1 & C1 & T1 & S1). destruct (IH w1 k1 Hcs S1) as (w2 & rs & k2 & P2 & C2 & T2 & S2).
    exists w2, (answer eps ls s t (length ps) c (mind_of w k) r :: rs), k2. split; [|split; [econstructor; eassumption|split; [cbn [fold_left]; now rewrite <- T1|exact S2]]].
    cbn [perform_all]. unfold obnd at 1. rewrite P1. cbn [fst snd]. unfold obnd. rewrite P2. reflexivity.
Qed.
End Life.
