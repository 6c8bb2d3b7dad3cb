(** C86: compiled_model::fit with a validation split; C87: compiled_model::evaluate, end to end. *)
From Coq Require Import List Arith Lia Bool PeanoNat NArith ZArith Reals Lra.
From Coquelicot Require Import Rcomplements Rbar Hierarchy Derive.
From Coquelicot Require AutoDerive.
From Verif Require Import PairSpec PairProps XentSpec XentProps.
From Verif Require Import FitModel FitSpec.
From Verif Require Import ListBase Loops TensorModel TensorSpec ArrayModel LayerModel LayerSpec LayerProofs GraphModel GraphSpec GraphProofs GraphProofs3 GradSpec GradProofs OpModel CalcSpec
  OpProofs OpProps GradProps ComplexModel LossModel LossSpec LossProps DeclModel NetModel NetSpec ValueModel ValueSpec NetProofs3 NetProps ValueProofs3
  ValueProps LearnModel LearnSpec LearnProofs LearnProofs2 LearnProofs3 LearnProps OptModel OptSpec OptProofs2 OptProps TrainSpec TrainProofs.
From Verif Require Import FittingSpec FittingProofs FittingProofs2 FittingProps EpochModel EpochProofs EpochProofs2 EpochProps EvalModel EvalProofs EvalProofs2 EvalProofs3.
Import ListNotations.
Local Open Scope nat_scope.

(** C84 for every training_loops: a well formed chain of layers that can be taught whatever their inputs, any of the losses and optimisers,
    a data set, a batch size b and n epochs.  fit runs to its end, and there are worlds u 0, u 1, ... such that
    - u 0 has the weights and moments with which fit was called, and the world is left as u (n * loops);
    - batch l of an epoch is trained on if l <= training, as in C84: then every element of every trainable variable makes the optimiser's
      step with the derivative of the batch's objective; the optimiser counts these batches only;
    - after any other batch all weights and all moments are as before;
    - the training error of an epoch is the sum of the losses of batches 0 .. training divided by training, the validation error that of
      the losses of the others divided by loops - training (so both divisors are wrong by one: see C43). *)
Theorem C86_fit act dbg eps smooth lo up m s ls ts ps L :
  (N.of_nat m < 2147483648)%N -> NetSpec.within m s -> well_formed m [s] (chain ls) ts ps -> (0 < eps)%R -> (0 < lo < up)%R -> In L (comparisons dbg eps smooth lo up) ->
  (forall k l t, nth_error ls k = Some l -> nth_error ts k = Some t -> docile act l t) ->
  exists ns, build dbg (map N.of_nat s) (chain ls) = Ok (Net ns ps) /\
    let out := graph act 10 (last ns (Leaf 0)) in
    let t := last ts [] in
    forall p sess w who o x y samples b n training, let e := term L 0 (EHold p) out in let loops := samples / b in
      p <> 0 -> ready sess out (W (set_training (gr w) true) (ctx w)) who -> (forall v q, nth_error ps v = Some q -> shape (vdata (vars (gr w) v)) = q) ->
      (forall v, v < length ps <-> exists b, In (v, b) sess) -> (forall v, In (v, true) sess -> stocked (alg o) w v) ->
      length x = samples * prod s -> length y = samples * prod t -> 1 <= b -> (N.of_nat (b * m) < 4294967296)%N -> 0 < loops ->
      let rows k := Batch b (group (b * prod s) (k mod loops) x) (group (b * prod t) (k mod loops) y) in
      let trained k := k / loops * Nat.min loops (training + 1) + Nat.min (k mod loops) (training + 1) in
      (forall k pred, k < loops -> domain L (b :: t) (targets (rows k)) pred) ->
      exists u : nat -> world,
        let error k := value L (b :: t) (targets (rows k)) (predictions eps ls s (parameters (length ps) (u k)) (rows k)) in
        let sum j from len := total (map (fun l => error (j * loops + l)) (seq from len)) in
        fit dbg eps sess e p (samples :: s, x) (samples :: t, y) b n training o w =
          Ok ((map (fun j => over (sum j 0 (Nat.min loops (training + 1))) training) (seq 0 n),
               map (fun j => over (sum j (training + 1) (loops - (training + 1))) (loops - training)) (seq 0 n), after o (trained (n * loops))), u (n * loops)) /\
        (forall v f i, In (v, f) sess -> weights (u 0) v = weights w v /\ memory (u 0) v i = memory w v i) /\
        forall k, k < n * loops ->
          (k mod loops <= training ->
            (forall v i, In (v, true) sess -> i < count w v -> let f z := predictions eps ls s (with_element (parameters (length ps) (u k)) v i z) (rows k) in exists g,
               ((forall k', At e k' (EVar v) -> trainable (vobjs (gr w) k') = true) ->
                (elem (u k) v i <> 0%R \/ forall k', At e k' (EVar v) -> (l1 (vobjs (gr w) k') < eps)%R) ->
                exists l, is_derive (fun z => objective L (b :: t) (targets (rows k)) (f z) + cost eps (vobjs (gr w)) v (uses None e) z)%R (elem (u k) v i) l /\
                          near L (b :: t) f (elem (u k) v i) g l) /\
               (memory (u (S k)) v i, elem (u (S k)) v i) = move (alg o) eps (next_rate (after o (trained k))) (steps o + trained k) (memory_or_new (alg o) (u k) v i) (elem (u k) v i) g) /\
            (forall v, In (v, false) sess -> weights (u (S k)) v = weights (u k) v)) /\
          (training < k mod loops -> forall v f i, In (v, f) sess -> weights (u (S k)) v = weights (u k) v /\ memory (u (S k)) v i = memory (u k) v i).
Proof.
  intros M W WF He Hlo Hin Dl. pose proof (every_law dbg eps smooth lo up L He Hlo Hin) as HL.
  destruct (C78_networks_compute dbg m s (chain ls) ts ps M W WF) as (ns & B & _). exists ns. split; [exact B|]. cbv zeta. set (out := graph act 10 (last ns (Leaf 0))). set (t := last ts []) in *.
  intros p sess w who o x y samples b n training Hp Rd Sh Se St Lx Ly Hb Hbm Hl Dom.
  assert (Dom' : forall l pred, l < samples / b -> domain L (b :: t) (targets (part_of s ts x y b l)) pred).
  { intros l pred Hl'. specialize (Dom l pred Hl'). cbv beta in Dom. rewrite (Nat.mod_small l) in Dom by exact Hl'. exact Dom. }
  destruct (started act s ts ns 10 p sess w who o b Hp Rd St) as (tx & ty & w0 & Sx & Sy & S0 & C0 & V0 & O0 & U0 & Eb).
  assert (Sh0 : forall v q, nth_error ps v = Some q -> shape (vdata (vars (gr w0) v)) = q) by (intros v q Hq; rewrite V0; now apply Sh).
  assert (HM : forall a b, made_from a b (term L 0 a b)) by (intros a b'; now apply (every_made dbg eps smooth lo up)).
  assert (Ec : forall k, lessons_before samples b training k = k / (samples / b) * Nat.min (samples / b) (training + 1) + Nat.min (k mod (samples / b)) (training + 1)).
  { intros k. rewrite Nat.add_1_r. now apply lessons_closed. }
  set (u := met act dbg eps s ts ns 10 L p sess x y samples b training tx ty w0 o).
  exists u. split; [|split].
  - pose proof (fit_epochs_ok act dbg eps m s ls ts ps ns 10 L p sess M W WF B HL Hp Se HM x y samples b training Lx Ly Hb Hbm tx ty w0 o Sx Sy Sh0 S0 Dl Dom' n 0) as E.
    cbn [Nat.mul Nat.add] in E. change (lessons_before samples b training 0) with 0 in E. rewrite early, late, Ec in E. fold u in E. unfold fit. cbn [fst snd]. rewrite (proj2 (Nat.eqb_neq b 0)) by lia.
    change (last ts []) with t in Eb. rewrite (Eb _ true (fun tx' ty' => epochs dbg eps sess _ tx' ty' x y (prod (b :: s)) (prod (b :: t)) (samples / b) training n o)).
    rewrite (state_phase act s ts ns 10 p sess b tx ty w0 o w0 S0). rewrite <- !(Nat.add_1_r training) in E. exact E.
  - intros v f i Hv. destruct (U0 v f Hv) as [A1 A2]. split; [exact A1|apply A2].
  - intros k Hk.
    destruct (met_ok act dbg eps m s ls ts ps ns 10 L p sess M W WF B HL Hp Se HM x y samples b training Lx Ly Hb Hbm tx ty w0 o Sx Sy Sh0 S0 Dl Dom' k Hl) as ([_ _ Vs Fs] & Hle & Hgt).
    fold u in Vs, Fs, Hle, Hgt. split.
    + intros Hc. destruct (Hle Hc) as [_ [H1 H2]]. rewrite Ec in H1. split; [|exact H2]. intros v i Hv Hi. destruct (H1 v Hv) as [_ Q]. unfold count in Q. rewrite Vs, V0 in Q.
      destruct (Q i Hi) as (g & D & Mv). exists g. destruct (after_alg o (k / (samples / b) * Nat.min (samples / b) (training + 1) + Nat.min (k mod (samples / b)) (training + 1))) as [Ea Es]. rewrite Ea, Es in Mv. split; [|exact Mv].
      assert (Fw : forall q, trainable (vobjs (gr (u k)) q) = trainable (vobjs (gr w) q) /\ l1 (vobjs (gr (u k)) q) = l1 (vobjs (gr w) q) /\ l2 (vobjs (gr (u k)) q) = l2 (vobjs (gr w) q)).
      { intros q. destruct (Fs q) as (-> & -> & ->). rewrite O0. auto. }
      intros Tr Hx. cbv zeta in D. destruct D as (l & D1 & D2).
      * intros q Hq. rewrite (proj1 (Fw q)). now apply Tr.
      * destruct Hx as [Hx|Hx]; [now left|right]. intros q Hq. rewrite (proj1 (proj2 (Fw q))). now apply Hx.
      * exists l. split; [|exact D2]. revert D1. apply is_derive_ext. intros z. f_equal. apply cost_flags. intros q. split; apply Fw.
    + intros Hc v f i Hv. destruct (proj2 (proj2 (Hgt Hc)) v f Hv) as [A1 A2]. split; [exact A1|apply A2].
Qed.
Print Assumptions C86_fit.

(** A well formed chain of layers, any of the losses, a data set and a batch size b; at the present weights the layers and the loss are
    differentiable at every full batch (fittable).  evaluate runs to its end and returns the sum of the losses of the loops full batches
    at the present weights, divided by loops: no batch disturbs the next, although all use the same two tensors and a loss may overwrite
    its targets.  Afterwards the learning phase is 1, whatever it was before; every weight, moment and flag is as before, and the session
    is ready for training. *)
Theorem C87_evaluate act dbg eps smooth lo up m s ls ts ps L :
  (N.of_nat m < 2147483648)%N -> NetSpec.within m s -> well_formed m [s] (chain ls) ts ps -> (0 < eps)%R -> (0 < lo < up)%R -> In L (comparisons dbg eps smooth lo up) ->
  exists ns, build dbg (map N.of_nat s) (chain ls) = Ok (Net ns ps) /\
    let out := graph act 10 (last ns (Leaf 0)) in
    let t := last ts [] in
    forall p sess w who x y samples b, let e := term L 0 (EHold p) out in let loops := samples / b in
      p <> 0 -> ready sess out (W (set_training (gr w) true) (ctx w)) who -> (forall v q, nth_error ps v = Some q -> shape (vdata (vars (gr w) v)) = q) ->
      (forall v, v < length ps <-> exists b, In (v, b) sess) ->
      length x = samples * prod s -> length y = samples * prod t -> 1 <= b -> (N.of_nat (b * m) < 4294967296)%N ->
      let rows l := Batch b (group (b * prod s) l x) (group (b * prod t) l y) in
      (forall l, l < loops -> fittable act eps L ls s t (parameters (length ps) w) (rows l)) ->
      let error l := value L (b :: t) (targets (rows l)) (predictions eps ls s (parameters (length ps) w) (rows l)) in
      exists w', evaluate dbg e p (samples :: s, x) (samples :: t, y) b w = Ok (over (total (map error (seq 0 loops))) loops, w') /\
        training (gr w') = true /\ ctx w' = ctx w /\ (forall v, vars (gr w') v = vars (gr w) v) /\
        (forall k, trainable (vobjs (gr w') k) = trainable (vobjs (gr w) k) /\ l1 (vobjs (gr w') k) = l1 (vobjs (gr w) k) /\ l2 (vobjs (gr w') k) = l2 (vobjs (gr w) k)) /\
        (forall v f i, In (v, f) sess -> weights w' v = weights w v /\ memory w' v i = memory w v i) /\
        exists who', ready sess out w' who'.
Proof.
  intros M W WF He Hlo Hin. pose proof (every_law dbg eps smooth lo up L He Hlo Hin) as HL.
  destruct (C78_networks_compute dbg m s (chain ls) ts ps M W WF) as (ns & B & _). exists ns. split; [exact B|]. cbv zeta. set (out := graph act 10 (last ns (Leaf 0))). set (t := last ts []) in *.
  intros p sess w who x y samples b Hp Rd Sh Se Lx Ly Hb Hbm Fi.
  set (o := Opt (Descent 0) 0 0).
  destruct (started act s ts ns 10 p sess w who o b Hp Rd) as (tx & ty & w0 & Sx & Sy & S0 & C0 & V0 & O0 & U0 & Eb); [intros v _; right; cbn; lia|].
  assert (Sh0 : forall v q, nth_error ps v = Some q -> shape (vdata (vars (gr w0) v)) = q) by (intros v q Hq; rewrite V0; now apply Sh).
  assert (HM : forall a b, made_from a b (term L 0 a b)) by (intros a b'; now apply (every_made dbg eps smooth lo up)).
  assert (Ep : parameters (length ps) w0 = parameters (length ps) w).
  { unfold parameters. apply map_ext_in. intros v Hv. apply in_seq in Hv. destruct (proj1 (Se v) ltac:(lia)) as [f Hf]. exact (proj1 (U0 v f Hf)). }
  destruct (tests_ok act dbg eps m s ls ts ps ns 10 L p sess M W WF B HL Hp Se HM x y samples b Lx Ly Hb Hbm tx ty w0 o Sx Sy Sh0 (samples / b) 0 w0 0%R ltac:(lia) S0) as (w' & E & S' & [Cw U']).
  { intros l Hl. rewrite Ep. now apply Fi. }
  pose proof (state_phase act s ts ns 10 p sess b tx ty w0 o w' S') as Ph. destruct S' as [(who' & dx & dy & Rd' & _) _ Vs Fs].
  exists w'. split; [|split; [exact (r_train _ _ _ _ Rd')|split; [congruence|split; [intros v; rewrite Vs; apply V0|split; [|split]]]]].
  - unfold evaluate. cbn [fst snd]. rewrite (proj2 (Nat.eqb_neq b 0)) by lia.
    change (last ts []) with t in Eb.
    rewrite (Eb _ false (fun tx' ty' => do v <- tests dbg _ tx' ty' x y (prod (b :: s)) (prod (b :: t)) 0 (samples / b) 0%R; do _ <- on_graph (modify (fun s => set_training s true)); oret (quotient v (samples / b)))).
    change (prod (b :: s)) with (b * prod s). change (prod (b :: t)) with (b * prod t). unfold obnd. fold out. fold out in E. fold t in E. rewrite E. unfold on_graph, modify, oret.
    change (OptModel.W (set_training (gr (phased false w')) true) (ctx (phased false w'))) with (phased true w'). rewrite Ph, quotient_over, Rplus_0_l. f_equal. f_equal. f_equal. f_equal.
    apply map_ext. intros i. now rewrite Ep.
  - intros k. destruct (Fs k) as (-> & -> & ->). rewrite O0. auto.
  - intros v f i Hv. destruct (U' v f Hv) as [A1 A2]. destruct (U0 v f Hv) as [A3 A4]. split; [congruence|]. now rewrite A2, A4.
  - exists who'. exact Rd'.
Qed.
Print Assumptions C87_evaluate.

(** The same for layers that can be taught whatever their inputs: only the loss must be in its domain at the batches. *)
Theorem C87_docile act dbg eps smooth lo up m s ls ts ps L :
  (N.of_nat m < 2147483648)%N -> NetSpec.within m s -> well_formed m [s] (chain ls) ts ps -> (0 < eps)%R -> (0 < lo < up)%R -> In L (comparisons dbg eps smooth lo up) ->
  (forall k l t, nth_error ls k = Some l -> nth_error ts k = Some t -> docile act l t) ->
  exists ns, build dbg (map N.of_nat s) (chain ls) = Ok (Net ns ps) /\
    let out := graph act 10 (last ns (Leaf 0)) in
    let t := last ts [] in
    forall p sess w who x y samples b, let e := term L 0 (EHold p) out in let loops := samples / b in
      p <> 0 -> ready sess out (W (set_training (gr w) true) (ctx w)) who -> (forall v q, nth_error ps v = Some q -> shape (vdata (vars (gr w) v)) = q) ->
      (forall v, v < length ps <-> exists b, In (v, b) sess) ->
      length x = samples * prod s -> length y = samples * prod t -> 1 <= b -> (N.of_nat (b * m) < 4294967296)%N ->
      let rows l := Batch b (group (b * prod s) l x) (group (b * prod t) l y) in
      let predicted l := predictions eps ls s (parameters (length ps) w) (rows l) in
      (forall l, l < loops -> domain L (b :: t) (targets (rows l)) (predicted l)) ->
      exists w', evaluate dbg e p (samples :: s, x) (samples :: t, y) b w = Ok (over (total (map (fun l => value L (b :: t) (targets (rows l)) (predicted l)) (seq 0 loops))) loops, w').
Proof.
  intros M W WF He Hlo Hin Dl. destruct (C87_evaluate act dbg eps smooth lo up m s ls ts ps L M W WF He Hlo Hin) as (ns & B & H). exists ns. split; [exact B|]. cbv zeta in *.
  intros p sess w who x y samples b Hp Rd Sh Se Lx Ly Hb Hbm Dom.
  destruct (H p sess w who x y samples b Hp Rd Sh Se Lx Ly Hb Hbm) as (w' & E & _); [|exists w'; exact E].
  intros l Hl. pose proof (part_fits m s ts p M Hp x y samples b Lx Ly Hb Hbm l Hl) as Ft.
  apply (docile_fittable act dbg eps m s ls ts ps ns 10 L p sess M W WF B Hp (OptModel.W (set_training (gr w) true) (ctx w)) who (part_of s ts x y b l) Rd Sh Se Ft Dl (Dom l Hl)).
  apply (last_shape dbg m s ls ts ps ns p M W WF B Hp).
Qed.
Print Assumptions C87_docile.

(** ** The network of FittingProps.v *)
Module Case.
Import FittingProps.Case EpochProps.Case.

(** evaluated with mean_absolute_error on any 5 samples in batches of 2 (the fifth is not seen), no prediction being right *)
Definition mae := of_differences mean_absolute_error Rabs (fun s => / LossSpec.elements s)%R (fun s => / LossSpec.samples s)%R.

Example C87_case (x y : list R) : length x = 10 -> length y = 15 ->
  let e := mean_absolute_error 0 (EHold 1) (graph act 10 (last nodes (Leaf 0))) in
  let eps := (1 / 1000000)%R in
  let rows l := Batch 2 (group 4 l x) (group 6 l y) in
  let predicted l := predictions eps ls [2%nat] (parameters 4 w0) (rows l) in
  (forall l i, l < 2 -> i < 6 -> nth i (targets (rows l)) 0%R <> nth i (predicted l) 0%R) ->
  exists w', evaluate true e 1 ([5; 2], x) ([5; 3], y) 2 w0 = Ok (Some ((/ 6 * spread Rabs (targets (rows 0%nat)) (predicted 0%nat) + / 6 * spread Rabs (targets (rows 1%nat)) (predicted 1%nat)) / 2)%R, w').
Proof.
  intros Lx Ly e eps rows predicted Ne.
  destruct (C87_docile act true eps 0 1 2 100 [2] ls [[2]; [2]; [2]; [3]] ps mae ltac:(reflexivity) ltac:(now apply LearnProps.Case.within_small) well ltac:(unfold eps; lra) ltac:(lra)
    ltac:(cbn [comparisons In]; do 3 right; left; reflexivity) tame) as (ns & B & H).
  change (map N.of_nat [2]) with [2%N] in B. rewrite built in B. injection B as <-. cbv zeta in H. cbn [last] in H.
  destruct (H 1 sess w0 who x y 5 2 ltac:(lia) set_off all_shaped all_there) as (w' & E); try (cbn; lia).
  - intros l Hl i Hi. change (5 / 2) with 2 in Hl. assert (Hi' : i < 6).
    { cbn [targets] in Hi. rewrite group_length in Hi; [exact Hi|]. change (prod [3]) with 3. rewrite Ly. nia. }
    specialize (Ne l i Hl Hi'). AutoDerive.auto_derive. intros Q. apply Ne. change (nth i (targets (rows l)) 0%R - nth i (predicted l) 0%R = 0)%R in Q. lra.
  - exists w'. etransitivity; [exact E|]. f_equal. f_equal. cbn [over]. change (5 / 2) with 2. cbn [over]. f_equal. cbn [seq map total fold_right]. rewrite Rplus_0_r.
    unfold mae, of_differences. cbn [value]. f_equal. f_equal; f_equal; unfold LossSpec.elements; f_equal; cbn; lra.
Qed.

(** fitted to any 8 samples in batches of 2, the last two of the four batches being meant for validation (training_loops = 2): batches 0, 1
    and 2 are trained on, and only batch 3 leaves the weights alone *)
Example C86_case (x y : list R) n : length x = 16 -> length y = 24 ->
  let e := mean_squared_error 0 (EHold 1) (graph act 10 (last nodes (Leaf 0))) in
  let o := new_adam 2 (1 / 1000) (9 / 10) (999 / 1000) in
  let eps := (1 / 1000000)%R in
  let rows k := Batch 2 (group 4 (k mod 4) x) (group 6 (k mod 4) y) in
  exists u : nat -> world,
    let error k := (/ 6 * spread (fun d => d * d) (targets (rows k)) (predictions eps ls [2%nat] (parameters 4 (u k)) (rows k)))%R in
    fit true eps sess e 1 ([8; 2], x) ([8; 3], y) 2 n 2 o w0 =
      Ok ((map (fun j => Some ((error (j * 4)%nat + (error (j * 4 + 1)%nat + error (j * 4 + 2)%nat)) / 2)%R) (seq 0 n), map (fun j => Some (error (j * 4 + 3)%nat / 2)%R) (seq 0 n), after o (n * 3)), u (n * 4)) /\
    weights (u 0) 0 = [3; 5; 0; -1]%R /\
    forall j, j < n -> weights (u (j * 4 + 4)) 0 = weights (u (j * 4 + 3)) 0 /\
      forall i, i < 4 -> exists g, (memory (u (j * 4 + 3)) 0 i, elem (u (j * 4 + 3)) 0 i) = move (alg o) eps (rate o) (j * 3 + 2) (memory_or_new (alg o) (u (j * 4 + 2)) 0 i) (elem (u (j * 4 + 2)) 0 i) g.
Proof.
  intros Lx Ly e o eps rows.
  destruct (C86_fit act true eps 0 1 2 100 [2] ls [[2]; [2]; [2]; [3]] ps mse ltac:(reflexivity) ltac:(now apply LearnProps.Case.within_small) well ltac:(unfold eps; lra) ltac:(lra)
    ltac:(cbn [comparisons In]; right; left; reflexivity) tame) as (ns & B & H).
  change (map N.of_nat [2]) with [2%N] in B. rewrite built in B. injection B as <-. cbv zeta in H. cbn [last] in H.
  destruct (H 1 sess w0 who o x y 8 2 n 2 ltac:(lia) set_off all_shaped all_there) as (u & E & U0 & D); try (cbn; lia).
  - intros v _. now left.
  - intros k pred _ i _. AutoDerive.auto_derive. exact I.
  - change (8 / 2) with 4 in *. assert (Md : forall j r, r < 4 -> (j * 4 + r) mod 4 = r /\ (j * 4 + r) / 4 = j).
    { intros j r Hr. rewrite Nat.add_comm, Nat.mod_add, Nat.div_add by lia. rewrite (Nat.mod_small r), (Nat.div_small r) by exact Hr. now split. }
    exists u. cbv zeta. split; [|split].
    + etransitivity; [exact E|]. rewrite Nat.mod_mul, Nat.div_mul by lia. cbn [Nat.min Nat.add]. rewrite Nat.add_0_r. f_equal. f_equal. f_equal. f_equal; apply map_ext; intros j; cbn [over seq map total fold_right]; cbn [Nat.sub over]; f_equal.
      * rewrite Nat.add_0_r, Rplus_0_r. unfold mse, of_differences. cbn [value]. f_equal. f_equal; [|f_equal]; f_equal; unfold LossSpec.elements; f_equal; cbn; lra.
      * cbn [seq map total fold_right]. rewrite Rplus_0_r. unfold mse, of_differences. cbn [value]. f_equal. f_equal; unfold LossSpec.elements; f_equal; cbn; lra.
    + rewrite (proj1 (U0 0 true 0 ltac:(cbn; tauto))). reflexivity.
    + intros j Hj. split.
      * destruct (D (j * 4 + 3) ltac:(lia)) as [_ D2]. rewrite (proj1 (Md j 3 ltac:(lia))) in D2. replace (j * 4 + 4) with (S (j * 4 + 3)) by lia. exact (proj1 (D2 ltac:(lia) 0 true 0 ltac:(cbn; tauto))).
      * intros i Hi. destruct (D (j * 4 + 2) ltac:(lia)) as [D1 _]. destruct (Md j 2 ltac:(lia)) as [Q1 Q2]. rewrite Q1, Q2 in D1. destruct (D1 ltac:(lia)) as [D3 _]. destruct (D3 0 i ltac:(cbn; tauto) Hi) as (g & _ & Mv). exists g.
        replace (j * 4 + 3) with (S (j * 4 + 2)) by lia. rewrite Mv. cbn [Nat.min Nat.add steps o new_adam]. f_equal.
        assert (Q : forall k, next_rate (after o k) = rate o); [|apply Q].
        clear. induction k as [|k IH]; [reflexivity|]. unfold next_rate at 1. rewrite (proj1 (after_alg o (S k))). cbn [alg o new_adam after rate]. exact IH.
Qed.
End Case.
