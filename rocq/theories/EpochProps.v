(** C84: compiled_model::fit, end to end. *)
From Coq Require Import List Arith Lia Bool PeanoNat NArith ZArith Reals Lra.
From Coquelicot Require Import Rcomplements Rbar Hierarchy Derive.
From Coquelicot Require AutoDerive.
From Verif Require Import PairSpec PairProps XentSpec XentProps.
From Verif Require Import FitModel FitSpec.
From Verif Require Import ListBase Loops TensorModel TensorSpec ArrayModel LayerModel LayerSpec LayerProofs GraphModel GraphSpec GraphProofs GraphProofs3 GradSpec GradProofs OpModel CalcSpec
  OpProofs OpProps GradProps ComplexModel LossModel LossSpec LossProps DeclModel NetModel NetSpec ValueModel ValueSpec NetProofs3 NetProps ValueProofs3
  ValueProps LearnModel LearnSpec LearnProofs LearnProofs2 LearnProofs3 LearnProps OptModel OptSpec OptProofs2 OptProps TrainSpec TrainProofs.
From Verif Require Import FittingSpec FittingProofs FittingProofs2 FittingProps EpochModel EpochProofs EpochProofs2.
Import ListNotations.
Local Open Scope nat_scope.

(** A well formed chain of layers that can be taught whatever their inputs, any of the losses of FittingSpec.v, any of the optimisers, a
    data set of samples and targets, a batch size b and n epochs; every batch is trained on (loops <= training + 1: in particular a
    validation_split of 0).  fit runs to its end, and there are worlds u 0, u 1, ... such that
    - u 0 has the weights and moments with which fit was called, and the world is left as u (n * loops);
    - batch k consists of the samples and targets of the next b rows of the data set, which begins again after every epoch;
    - between u k and u (k + 1) every element of every variable that the session calls trainable makes the optimiser's step with a
      gradient that is (for cross_entropy_loss: is up to eps times the derivatives of the predictions) the derivative of the objective
      of batch k plus the regularisers' cost, as a function of that element, at u k; the other variables keep their weights;
    - the training error returned for an epoch is the sum of the losses of its batches, each at the weights it met, divided by training.
    The tensors bound to the place holders are the same for all batches; that a loss overwrites its targets does no harm, for fit
    copies them anew. *)
Theorem C84_fit act dbg eps smooth lo up m s ls ts ps L :
  (N.of_nat m < 2147483648)%N -> NetSpec.within m s -> well_formed m [s] (chain ls) ts ps -> (0 < eps)%R -> (0 < lo < up)%R -> In L (comparisons dbg eps smooth lo up) ->
  (forall k l t, nth_error ls k = Some l -> nth_error ts k = Some t -> docile act l t) ->
  exists ns, build dbg (map N.of_nat s) (chain ls) = Ok (Net ns ps) /\
    let out := graph act 10 (last ns (Leaf 0)) in
    let t := last ts [] in
    forall p sess w who o x y samples b n training, let e := term L 0 (EHold p) out in let loops := samples / b in
      p <> 0 -> ready sess out (W (set_training (gr w) true) (ctx w)) who -> (forall v q, nth_error ps v = Some q -> shape (vdata (vars (gr w) v)) = q) ->
      (forall v, v < length ps <-> exists b, In (v, b) sess) -> (forall v, In (v, true) sess -> stocked (alg o) w v) ->
      length x = samples * prod s -> length y = samples * prod t -> 1 <= b -> (N.of_nat (b * m) < 4294967296)%N -> loops <= S training ->
      let rows k := Batch b (group (b * prod s) (k mod loops) x) (group (b * prod t) (k mod loops) y) in
      (forall k pred, k < loops -> domain L (b :: t) (targets (rows k)) pred) ->
      exists u : nat -> world,
        let error k := value L (b :: t) (targets (rows k)) (predictions eps ls s (parameters (length ps) (u k)) (rows k)) in
        fit dbg eps sess e p (samples :: s, x) (samples :: t, y) b n training o w =
          Ok ((map (fun j => over (total (map (fun l => error (j * loops + l)) (seq 0 loops))) training) (seq 0 n), repeat (over 0 (loops - training)) n, after o (n * loops)), u (n * loops)) /\
        (forall v f i, In (v, f) sess -> weights (u 0) v = weights w v /\ memory (u 0) v i = memory w v i) /\
        forall k, k < n * loops ->
          (forall v i, In (v, true) sess -> i < count w v -> let f z := predictions eps ls s (with_element (parameters (length ps) (u k)) v i z) (rows k) in exists g,
             ((forall k', At e k' (EVar v) -> trainable (vobjs (gr w) k') = true) ->
              (elem (u k) v i <> 0%R \/ forall k', At e k' (EVar v) -> (l1 (vobjs (gr w) k') < eps)%R) ->
              exists l, is_derive (fun z => objective L (b :: t) (targets (rows k)) (f z) + cost eps (vobjs (gr w)) v (uses None e) z)%R (elem (u k) v i) l /\
                        near L (b :: t) f (elem (u k) v i) g l) /\
             (memory (u (S k)) v i, elem (u (S k)) v i) = move (alg o) eps (next_rate (after o k)) (steps o + k) (memory_or_new (alg o) (u k) v i) (elem (u k) v i) g) /\
          (forall v, In (v, false) sess -> weights (u (S k)) v = weights (u k) v).
Proof.
  intros M W WF He Hlo Hin Dl. pose proof (every_law dbg eps smooth lo up L He Hlo Hin) as HL.
  destruct (C78_networks_compute dbg m s (chain ls) ts ps M W WF) as (ns & B & _). exists ns. split; [exact B|]. cbv zeta. set (out := graph act 10 (last ns (Leaf 0))). set (t := last ts []) in *.
  intros p sess w who o x y samples b n training Hp Rd Sh Se St Lx Ly Hb Hbm Ht Dom.
  set (zs := [(0, (b :: s, repeat 0%R (prod (b :: s)))); (p, (b :: t, repeat 0%R (prod (b :: t))))] : list (nat * val R)).
  set (s0 := set_training (gr w) true) in *. set (w0 := OptModel.W (bound zs s0) (ctx w)).
  set (h := length (hp (gr w))). set (tx := mkT (b :: s) h). set (ty := mkT (b :: t) (S h)).
  assert (Ll : forall v f r, In (v, f) sess -> In r (foot w v) -> r < h) by (intros v f r Hv Hr; exact (proj1 (t_live _ _ (o_tidy _ _ (r_ord _ _ _ _ Rd) v f Hv) r Hr))).
  destruct (bound_keeps zs s0) as (BV & BO & BT & BL & BF).
  assert (Dom' : forall l pred, l < samples / b -> domain L (b :: t) (targets (part_of s ts x y b l)) pred).
  { intros l pred Hl. specialize (Dom l pred Hl). cbv beta in Dom. rewrite (Nat.mod_small l) in Dom by exact Hl. exact Dom. }
  assert (S0 : EpochProofs2.state act s ts ns 10 p sess b tx ty w0 o w0).
  { constructor; [|exact St|reflexivity|auto].
    exists (who_new (who_new who h OLeaf) (S h) OLeaf), (repeat 0%R (prod (b :: s))), (repeat 0%R (prod (b :: t))).
    pose proof (ready_bound1 sess out s0 (ctx w) who 0 (b :: s, repeat 0%R (prod (b :: s))) Rd) as R1.
    pose proof (ready_bound1 sess out _ (ctx w) _ p (b :: t, repeat 0%R (prod (b :: t))) R1) as R2.
    assert (Eh : length (hp s0) = h) by reflexivity.
    assert (E1 : length (hp s0 ++ [repeat 0%R (prod (b :: s))]) = S h) by (rewrite app_length, Eh; cbn [length]; lia).
    cbn [set_holders set_hp hp fst snd] in R2. rewrite E1, Eh in R2.
    split; [|split].
    - unfold w0, zs. cbn [bound fst snd]. unfold w0, zs. cbn [set_holders set_hp hp]. rewrite E1, Eh. exact R2.
    - constructor; unfold w0, zs; cbn [gr ctx bound set_holders set_hp holders hp fst snd tx ty ref]; fold s0.
      + unfold fupd. rewrite (proj2 (Nat.eqb_neq 0 p)) by lia. cbn [Nat.eqb]. reflexivity.
      + unfold fupd. rewrite Nat.eqb_refl, E1. reflexivity.
      + rewrite nth_error_app1 by (rewrite E1; lia). rewrite nth_error_app2, Eh, Nat.sub_diag by (rewrite Eh; lia). reflexivity.
      + rewrite nth_error_app2, E1, Nat.sub_diag by (rewrite E1; lia). reflexivity.
      + lia.
      + unfold who_new. rewrite (proj2 (Nat.ltb_lt h (S h))), Nat.ltb_irrefl by lia. reflexivity.
      + unfold who_new. rewrite Nat.ltb_irrefl. reflexivity.
      + intros v f Hv Q. apply (Ll v f _ Hv) in Q. lia.
      + intros v f Hv Q. apply (Ll v f _ Hv) in Q. lia.
    - rewrite !repeat_length. split; reflexivity. }
  assert (Sh0 : forall v q, nth_error ps v = Some q -> shape (vdata (vars (gr w0) v)) = q) by (intros v q Hq; unfold w0; cbn [gr]; rewrite BV; now apply Sh).
  set (u := reached act dbg eps s ts ns 10 L p sess x y samples b tx ty w0 o).
  exists u. split; [|split].
  - pose proof (epochs_ok act dbg eps m s ls ts ps ns 10 L p sess M W WF B HL Hp Se Dl x y samples b training Lx Ly Hb Hbm Dom' tx ty w0 o eq_refl eq_refl Sh0 S0 Ht n 0) as E.
    cbn [Nat.mul Nat.add after reached] in E. unfold fit. cbn [fst snd]. rewrite (proj2 (Nat.eqb_neq b 0)) by lia.
    assert (Eb : forall f, (do tx' <- new_bound 0 (b :: s); do ty' <- new_bound p (b :: t); do _ <- on_graph (modify (fun s => set_training s true)); f tx' ty') w = (f tx ty : O (list (option R) * list (option R) * opt)) w0).
    { intros f. unfold obnd, new_bound, obnd, on_graph, new_tensor, heaply, alloc, modify, oret. cbn [gr ctx set_hp set_holders hp holders fst snd].
      rewrite app_length. cbn [length]. rewrite Nat.add_1_r. fold h. unfold w0, zs. cbn [bound fst snd set_hp set_holders hp holders]. rewrite app_length. cbn [length]. rewrite Nat.add_1_r. reflexivity. }
    rewrite (Eb (fun tx' ty' => epochs dbg eps sess _ tx' ty' x y (prod (b :: s)) (prod (b :: t)) (samples / b) training n o)). exact E.
  - intros v f i Hv. assert (Eh : forall r, In r (foot w v) -> nth r (hp (gr w0)) [] = nth r (hp (gr w)) []) by (intros r Hr; apply BF; exact (Ll v f r Hv Hr)).
    change (u 0) with w0. split.
    + unfold weights, OptSpec.elements. replace (vars (gr w0) v) with (vars (gr w) v) by (unfold w0; cbn [gr]; now rewrite BV). apply Eh. right. now left.
    + unfold memory, OptSpec.elements. apply map_ext_in. intros t0 Ht0. f_equal. apply Eh. right. right. now apply in_map.
  - intros k Hk. assert (Hl : 0 < samples / b) by (destruct (samples / b); lia).
    destruct (reached_ok act dbg eps m s ls ts ps ns 10 L p sess M W WF B HL Hp Se Dl x y samples b Lx Ly Hb Hbm Dom' tx ty w0 o eq_refl eq_refl Sh0 S0 k Hl) as ([_ _ Vs Fs] & _ & [H1 H2]).
    fold u in Vs, Fs, H1, H2. split; [|exact H2]. intros v i Hv Hi. destruct (H1 v Hv) as [_ Q]. unfold count in Q. rewrite Vs in Q. unfold w0 in Q at 1. cbn [gr] in Q. rewrite BV in Q.
    destruct (Q i Hi) as (g & D & Mv). exists g. destruct (after_alg o k) as [Ea Es]. rewrite Ea, Es in Mv. split; [|exact Mv].
    assert (Fw : forall q, trainable (vobjs (gr (u k)) q) = trainable (vobjs (gr w) q) /\ l1 (vobjs (gr (u k)) q) = l1 (vobjs (gr w) q) /\ l2 (vobjs (gr (u k)) q) = l2 (vobjs (gr w) q)).
    { intros q. destruct (Fs q) as (-> & -> & ->). unfold w0. cbn [gr]. rewrite BO. auto. }
    intros Tr Hx. cbv zeta in D. destruct D as (l & D1 & D2).
    + intros q Hq. rewrite (proj1 (Fw q)). now apply Tr.
    + destruct Hx as [Hx|Hx]; [now left|right]. intros q Hq. rewrite (proj1 (proj2 (Fw q))). now apply Hx.
    + exists l. split; [|exact D2]. revert D1. apply is_derive_ext. intros z. f_equal. apply cost_flags. intros q. split; apply Fw.
Qed.
Print Assumptions C84_fit.

(** ** The network of FittingProps.v fitted to any 5 samples, in batches of 2 (so the fifth sample is never seen), for any number of epochs,
    with mean_squared_error and adam; the learning phase was "prediction" when fit was called *)
Module Case.
Import FittingProps.Case.
Definition w0 : world := OptModel.W (set_training st false) (fun _ => []).
Definition mse := of_differences mean_squared_error (fun d => d * d)%R (fun s => / LossSpec.elements s)%R (fun s => / LossSpec.samples s)%R.

Example C84_case (x y : list R) n : length x = 10 -> length y = 15 ->
  let e := mean_squared_error 0 (EHold 1) (graph act 10 (last nodes (Leaf 0))) in
  let o := new_adam 2 (1 / 1000) (9 / 10) (999 / 1000) in
  let eps := (1 / 1000000)%R in
  let rows k := Batch 2 (group 4 (k mod 2) x) (group 6 (k mod 2) y) in
  exists u : nat -> world,
    let error k := (/ 6 * spread (fun d => d * d) (targets (rows k)) (predictions eps ls [2%nat] (parameters 4 (u k)) (rows k)))%R in
    fit true eps sess e 1 ([5; 2], x) ([5; 3], y) 2 n 2 o w0 =
      Ok ((map (fun j => Some ((error (j * 2)%nat + error (j * 2 + 1)%nat) / 2)%R) (seq 0 n), repeat None n, after o (n * 2)), u (n * 2)) /\
    weights (u 0) 0 = [3; 5; 0; -1]%R /\
    forall k i, k < n * 2 -> i < 4 -> exists g,
      is_derive (fun z => / 2 * spread (fun d => d * d) (targets (rows k)) (predictions eps ls [2%nat] (with_element (parameters 4 (u k)) 0 i z) (rows k)))%R (elem (u k) 0 i) g /\
      (memory (u (S k)) 0 i, elem (u (S k)) 0 i) = move (alg o) eps (rate o) k (memory_or_new (alg o) (u k) 0 i) (elem (u k) 0 i) g.
Proof.
  intros Lx Ly e o eps rows.
  destruct (C84_fit act true eps 0 1 2 100 [2] ls [[2]; [2]; [2]; [3]] ps mse ltac:(reflexivity) ltac:(now apply LearnProps.Case.within_small) well ltac:(unfold eps; lra) ltac:(lra)
    ltac:(cbn [comparisons In]; right; left; reflexivity) tame) as (ns & B & H).
  change (map N.of_nat [2]) with [2%N] in B. rewrite built in B. injection B as <-. cbv zeta in H. cbn [last] in H.
  destruct (H 1 sess w0 who o x y 5 2 n 2 ltac:(lia) set_off all_shaped all_there) as (u & E & U0 & D); try (cbn; lia).
  - intros v _. now left.
  - intros k pred _ i _. AutoDerive.auto_derive. exact I.
  - exists u. cbv zeta. split; [|split].
    + etransitivity; [exact E|]. f_equal. f_equal. f_equal. f_equal. apply map_ext. intros j. cbn [over]. f_equal. change (5 / 2) with 2. cbn [seq map total fold_right]. rewrite Nat.add_0_r, Rplus_0_r.
      unfold mse, of_differences. cbn [value]. f_equal. f_equal; f_equal; unfold LossSpec.elements; f_equal; cbn; lra.
    + rewrite (proj1 (U0 0 true 0 ltac:(cbn; tauto))). reflexivity.
    + intros k i Hk Hi. destruct (D k Hk) as [D1 _]. destruct (D1 0 i ltac:(cbn; tauto) Hi) as (g & Dg & Mv). exists g. cbv zeta in Dg.
      destruct Dg as (l & Dl & Nl); [reflexivity|right; intros; cbn; unfold eps; lra|]. change (g = l) in Nl. subst l. split.
      * eapply is_derive_ext; [|exact Dl]. intros z. cbv beta. unfold mse, of_differences. cbn [objective].
        replace (cost eps (vobjs (gr w0)) 0 _ z) with 0%R; [rewrite Rplus_0_r; unfold LossSpec.samples; cbn; f_equal; f_equal; lra|].
        symmetry. unfold cost. match goal with |- rsum (map _ ?u) = _ => generalize u end. intros us. induction us as [|v us IH]; [reflexivity|].
        cbn [map rsum]. rewrite IH. destruct (snd v =? 0); [|lra]. unfold cost1. cbn. unfold rleb. destruct (Rle_dec eps 0); lra.
      * rewrite Mv. f_equal. assert (Q : forall k, next_rate (after o k) = rate o); [|apply Q].
        clear. induction k as [|k IH]; [reflexivity|]. unfold next_rate at 1. rewrite (proj1 (after_alg o (S k))). cbn [alg o new_adam after rate]. exact IH.
Qed.
End Case.
