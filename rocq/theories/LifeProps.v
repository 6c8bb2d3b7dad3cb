(** C88: the life of a compiled model. *)
From Coq Require Import List Arith Lia Bool PeanoNat NArith ZArith Reals Lra.
From Coquelicot Require Import Rcomplements Rbar Hierarchy Derive.
From Coquelicot Require AutoDerive.
From Verif Require Import PairSpec PairProps XentSpec XentProps.
From Verif Require Import FitModel FitSpec.
From Verif Require Import ListBase Loops TensorModel TensorSpec ArrayModel LayerModel LayerSpec LayerProofs GraphModel GraphSpec GraphProofs GraphProofs3 GradSpec GradProofs OpModel CalcSpec
  OpProofs OpProps GradProps ComplexModel LossModel LossSpec LossProps DeclModel NetModel NetSpec ValueModel ValueSpec NetProofs3 NetProps ValueProofs3
  ValueProps LearnModel LearnSpec LearnProofs LearnProofs2 LearnProofs3 LearnProps OptModel OptSpec OptProofs2 OptProps TrainSpec TrainProofs.
From Verif Require Import FittingSpec FittingProofs FittingProofs2 FittingProps EpochModel EpochProofs EpochProofs2 EpochProps EvalModel EvalProofs EvalProofs2 EvalProofs3 LifeModel LifeSpec LifeProofs LifeProofs2.
Import ListNotations.
Local Open Scope nat_scope.

(** A well formed chain of layers that can be taught whatever their inputs, any of the losses and optimisers, and any sequence of calls of
    fit, evaluate, train_on_batch and predict and of assignments to learning_phase, whose arguments fit the network.  All of them run, and
    the model behaves as the machine of LifeSpec.v, whose state is nothing but the weights, the optimiser's moments and the number of
    batches learnt: a call returns what the weights it finds determine, and only learning changes them.  So predict, evaluate and
    assignments to learning_phase between two lessons, the phase a call finds, the batches bound before and the tensors left over by
    earlier calls make no difference.  The phase is 1 after every call but an assignment of 0, and the session is ready for training. *)
Theorem C88_life act dbg eps smooth lo up m s ls ts ps L :
  (N.of_nat m < 2147483648)%N -> NetSpec.within m s -> well_formed m [s] (chain ls) ts ps -> (0 < eps)%R -> (0 < lo < up)%R -> In L (comparisons dbg eps smooth lo up) ->
  (forall k l t, nth_error ls k = Some l -> nth_error ts k = Some t -> docile act l t) ->
  exists ns, build dbg (map N.of_nat s) (chain ls) = Ok (Net ns ps) /\
    let out := graph act 10 (last ns (Leaf 0)) in
    let t := last ts [] in
    forall p sess w who o cs, let e := term L 0 (EHold p) out in
      p <> 0 -> ready sess out (W (set_training (gr w) true) (ctx w)) who -> (forall v q, nth_error ps v = Some q -> shape (vdata (vars (gr w) v)) = q) ->
      (forall v, v < length ps <-> exists b, In (v, b) sess) -> (forall v, In (v, true) sess -> stocked (alg o) w v) ->
      Forall (suits m L s t) cs ->
      exists w' rs k, perform_all dbg eps sess e out p cs o w = Ok ((rs, after o k), w') /\
        life eps L ls s t (length ps) sess (count w) e (vobjs (gr w)) o (Mind (weights w) (memory w) 0) cs rs (Mind (weights w') (memory w') k) /\
        training (gr w') = fold_left phase_after cs (training (gr w)) /\
        (forall v, vars (gr w') v = vars (gr w) v) /\
        (forall k, trainable (vobjs (gr w') k) = trainable (vobjs (gr w) k) /\ l1 (vobjs (gr w') k) = l1 (vobjs (gr w) k) /\ l2 (vobjs (gr w') k) = l2 (vobjs (gr w) k)) /\
        exists who', ready sess out (W (set_training (gr w') true) (ctx w')) who'.
Proof.
  intros M W WF He Hlo Hin Dl. pose proof (every_law dbg eps smooth lo up L He Hlo Hin) as HL.
  destruct (C78_networks_compute dbg m s (chain ls) ts ps M W WF) as (ns & B & _). exists ns. split; [exact B|]. cbv zeta.
  intros p sess w who o cs Hp Rd Sh Se St Hc.
  assert (HM : forall a b, made_from a b (term L 0 a b)) by (intros a b; now apply (every_made dbg eps smooth lo up)).
  assert (HF : forall a b, fresh_root (term L 0 a b)) by (intros a b; now apply (every_fresh dbg eps smooth lo up)).
  destruct (lives act dbg eps m s ls ts ps ns 10 L p sess M W WF B HL Hp Se HM HF Dl w o Sh cs w 0 Hc) as (w' & rs & k & P & Lf & T & [Rd' _ V F]).
  { constructor; auto. now exists who. }
  exists w', rs, k. split; [exact P|]. split; [exact Lf|]. split; [exact T|]. split; [exact V|]. split; [exact F|exact Rd'].
Qed.
Print Assumptions C88_life.

(** ** The network of FittingProps.v *)
Module Case.
Import FittingProps.Case EpochProps.Case.
Notation eps := (1 / 1000000)%R.

(** training on one batch twice, asking for a prediction and an evaluation between the lessons: the second loss is that of the weights the
    first lesson left, and the prediction and the evaluation are made at these weights *)
Example C88_case (x y z x' y' : list R) : length x = 4 -> length y = 6 -> length z = 6 -> length x' = 10 -> length y' = 15 ->
  let e := mean_squared_error 0 (EHold 1) (graph act 10 (last nodes (Leaf 0))) in
  let out := graph act 10 (last nodes (Leaf 0)) in
  let o := new_adam 2 (1 / 1000) (9 / 10) (999 / 1000) in
  let B := Batch 2 x y in
  let error ws (b : batch) := value mse (number b :: [3]) (targets b) (predictions eps ls [2] ws b) in
  exists w' w1 v1 v2 v3 m k,
    perform_all true eps sess e out 1 [TrainOnBatch ([2; 2], x) ([2; 3], y); AssignPhase false; Predict ([3; 2], z); Evaluate ([5; 2], x') ([5; 3], y') 2; AssignPhase false; TrainOnBatch ([2; 2], x) ([2; 3], y)] o w0 =
      Ok (([Error v1; Nothing; Result ([3; 3], v3); MeanError (Some m); Nothing; Error v2], after o k), w') /\ k = 2 /\
    v1 = error (parameters 4 w0) B /\
    learns eps mse ls [2] [3] 4 sess (count w0) e (vobjs (gr w0)) o (Mind (weights w0) (memory w0) 0) B w1 /\
    v2 = error (map (weight w1) (seq 0 4)) B /\ v3 = predictions eps ls [2] (map (weight w1) (seq 0 4)) (Batch 3 z []) /\
    m = ((error (map (weight w1) (seq 0 4)) (Batch 2 (group 4 0 x') (group 6 0 y')) + error (map (weight w1) (seq 0 4)) (Batch 2 (group 4 1 x') (group 6 1 y'))) / 2)%R.
Proof.
  intros Lx Ly Lz Lx' Ly' e out o B error.
  destruct (C88_life act true eps 0 1 2 100 [2] ls [[2]; [2]; [2]; [3]] ps mse ltac:(reflexivity) ltac:(now apply LearnProps.Case.within_small) well ltac:(lra) ltac:(lra)
    ltac:(cbn [comparisons In]; right; left; reflexivity) tame) as (ns & Bd & H).
  change (map N.of_nat [2]) with [2%N] in Bd. rewrite built in Bd. injection Bd as <-. cbv zeta in H. cbn [last] in H.
  set (cs := [TrainOnBatch ([2; 2], x) ([2; 3], y); AssignPhase false; Predict ([3; 2], z); Evaluate ([5; 2], x') ([5; 3], y') 2; AssignPhase false; TrainOnBatch ([2; 2], x) ([2; 3], y)]).
  destruct (H 1 sess w0 who o cs ltac:(lia) set_off all_shaped all_there) as (w' & rs & k & P & Lf & T & _).
  { intros v _. now left. }
  { assert (Any : forall b pred, domain mse (number b :: [3]) (targets b) pred) by (intros b pred i _; AutoDerive.auto_derive; exact I).
    assert (Sm : forall b, 1 <= b <= 3 -> small 100 b) by (intros b Hb; split; [lia|]; destruct b as [|[|[|[|]]]]; try lia; reflexivity).
    repeat constructor; try (intros; apply Any); try (cbn; auto; fail); try (cbn [hd fst]; apply Sm; lia); try (cbn; lia); try (eexists; split; reflexivity); try (eexists; reflexivity). }
  unfold cs in Lf.
  inversion Lf as [|a1 c1 r1 b1 cs1 rs1 d1 K1 Lf1]; subst; clear Lf.
  inversion Lf1 as [|a2 c2 r2 b2 cs2 rs2 d2 K2 Lf2]; subst; clear Lf1.
  inversion Lf2 as [|a3 c3 r3 b3 cs3 rs3 d3 K3 Lf3]; subst; clear Lf2.
  inversion Lf3 as [|a4 c4 r4 b4 cs4 rs4 d4 K4 Lf4]; subst; clear Lf3.
  inversion Lf4 as [|a5 c5 r5 b5 cs5 rs5 d5 K5 Lf5]; subst; clear Lf4.
  inversion Lf5 as [|a6 c6 r6 b6 cs6 rs6 d6 K6 Lf6]; subst; clear Lf5.
  inversion Lf6; subst; clear Lf6.
  assert (Nil : forall a r b, course eps mse ls [2] [3] 4 sess (count w0) e (vobjs (gr w0)) o a [] r b -> r = [] /\ alike sess a b) by (intros a r b Q; inversion Q; subst; auto).
  cbn [presented] in K1, K2, K3, K4, K5, K6. change (full ([5; 2], x') 2) with 2 in K4. cbn [seq map] in K4.
  inversion K1 as [|? ? w1 ? r1' ? Q1 K1' |]; subst; clear K1. destruct (Nil _ _ _ K1') as [-> A1]. destruct (Nil _ _ _ K2) as [-> A2]. destruct (Nil _ _ _ K3) as [-> A3].
  inversion K4 as [| |? ? b4' ? r4' ? A4 K4']; subst; clear K4. inversion K4' as [| |? ? b4'' ? r4'' ? A4' K4'']; subst; clear K4'. destruct (Nil _ _ _ K4'') as [-> A4'']. destruct (Nil _ _ _ K5) as [-> A5].
  inversion K6 as [|? ? w2 ? r6' ? Q6 K6'|]; subst; clear K6. destruct (Nil _ _ _ K6') as [-> A6].
  assert (Ew : forall a b, alike sess a b -> map (weight b) (seq 0 4) = map (weight a) (seq 0 4)) by (intros a b [_ Q]; apply map_ext_in; intros v Hv; apply in_seq in Hv; destruct (proj1 (all_there v) ltac:(cbn; lia)) as [f Hf]; exact (proj1 (Q v f Hf))).
  assert (W1 := Ew _ _ A1). assert (W2 := Ew _ _ A2). assert (W3 := Ew _ _ A3). assert (W4 := Ew _ _ A4). assert (W4' := Ew _ _ A4'). assert (W4'' := Ew _ _ A4''). assert (W5 := Ew _ _ A5).
  assert (Ek : k = 2).
  { destruct A1 as [N1 _], A2 as [N2 _], A3 as [N3 _], A4 as [N4 _], A4' as [N5 _], A4'' as [N6 _], A5 as [N7 _], A6 as [N8 _], Q1 as [N9 _], Q6 as [N10 _]. cbn [taught] in *. congruence. }
  do 7 eexists. split; [etransitivity; [exact P|]|].
  - cbn [answer hd fst snd full ratio]. unfold ratio, full. cbn [hd fst]. change (5 / 2) with 2. cbn [over]. reflexivity.
  - split; [exact Ek|]. split; [reflexivity|]. split; [exact Q1|]. unfold failing, guess. cbn [number targets].
    change (length ps) with 4. rewrite W5, W4'', W4', W4, W3, W2, W1. split; [reflexivity|]. split; [reflexivity|].
    cbn [total fold_right]. rewrite Rplus_0_r. reflexivity.
Qed.
End Case.
