(** C80: fitting a chain of layers, batch after batch, with any optimiser. *)
From Coq Require Import List Arith Lia Bool PeanoNat NArith ZArith Reals Lra.
From Coquelicot Require Import Rcomplements Rbar Hierarchy Derive.
From Coquelicot Require AutoDerive.
From Verif Require Import ListBase Loops TensorModel TensorSpec ArrayModel LayerModel LayerSpec LayerProofs GraphModel GraphSpec GraphProofs GraphProofs3 GradSpec GradProofs OpModel CalcSpec
  OpProofs OpProps GradProps ComplexModel LossModel LossSpec LossProps DeclModel NetModel NetSpec ValueModel ValueSpec NetProofs3 NetProps ValueProofs3
  ValueProps LearnModel LearnSpec LearnProofs LearnProofs2 LearnProofs3 LearnProps OptModel OptSpec OptProofs2 OptProps TrainSpec TrainProofs TrainProofs2.
Import ListNotations.
Local Open Scope nat_scope.

(** A well formed chain of layers can be built.  Compare its last expression with targets, by squared or absolute differences (C58), and
    train the session's variables on batches that fit, with any of the optimisers.  As long as the layers can be taught at the weights
    reached, every batch runs; the loss returned is that of the predictions; and every element of every variable that the session calls
    trainable makes the optimiser's step (OptSpec.v) with the derivative of the objective, as a function of that element, at the
    weights reached, plus the regularisers' cost.  The other variables keep their weights. *)
Theorem C80_fitting act dbg eps m s ls ts ps loss h wgt c :
  (N.of_nat m < 2147483648)%N -> within m s -> well_formed m [s] (chain ls) ts ps -> In (loss, h, wgt, c) difference_losses ->
  exists ns, build dbg (map N.of_nat s) (chain ls) = Ok (Net ns ps) /\
    let out := graph act 4 (last ns (Leaf 0)) in
    let t := last ts [] in
    forall p sess w who o batches, let e := loss 0 (EHold p) out in
      p <> 0 -> ready sess out w who -> (forall v q, nth_error ps v = Some q -> shape (vdata (vars (gr w) v)) = q) ->
      (forall v, v < length ps <-> exists b, In (v, b) sess) -> (forall v, In (v, true) sess -> stocked (alg o) w v) ->
      (forall b, In b batches -> fits m s t b) ->
      let feeds := map (feed s t p) batches in
      let at_ := world_after dbg eps sess e feeds o w in
      forall k b, nth_error batches k = Some b ->
        (forall j b', j <= k -> nth_error batches j = Some b' -> learnable act eps h ls s (parameters (length ps) (at_ j)) b') ->
        let vs := parameters (length ps) (at_ k) in
        train dbg eps sess e (firstn (S k) feeds) o w = Ok (after o (S k), at_ (S k)) /\
        (exists y s1, run 0%R 1%R Rplus Rmult dbg e (bound (feed s t p b) (gr (at_ k))) = Ok (y, s1) /\
           val_of (hp s1) y = ([1], [(wgt (number b :: t) * spread h (targets b) (predictions eps ls s vs b))%R])) /\
        (forall v i, In (v, true) sess -> i < count w v -> exists g,
           ((forall k', At e k' (EVar v) -> trainable (vobjs (gr w) k') = true) ->
            (elem (at_ k) v i <> 0%R \/ forall k', At e k' (EVar v) -> (l1 (vobjs (gr w) k') < eps)%R) ->
            is_derive (fun z => c (number b :: t) * spread h (targets b) (predictions eps ls s (with_element vs v i z) b) + cost eps (vobjs (gr w)) v (uses None e) z)%R (elem (at_ k) v i) g) /\
           (memory (at_ (S k)) v i, elem (at_ (S k)) v i) = move (alg o) eps (next_rate (after o k)) (steps o + k) (memory_or_new (alg o) (at_ k) v i) (elem (at_ k) v i) g) /\
        (forall v, In (v, false) sess -> weights (at_ (S k)) v = weights w v).
Proof.
  intros M W WF Hin. destruct (C78_networks_compute dbg m s (chain ls) ts ps M W WF) as (ns & B & _). exists ns. split; [exact B|]. cbv zeta.
  intros p sess w who o batches Hp Rd Sh Se St Hf k b Eb Hl.
  pose proof (all_batches act dbg eps m s ls ts ps ns loss h wgt c p sess M W WF B Hin Hp w who o batches Rd Sh Se St Hf) as A. cbv zeta in A.
  destruct (A k b Eb Hl) as (A1 & (A2 & A3 & _) & A4 & A5). split; [exact A1|]. split; [exact A2|]. split.
  - intros v i Hv Hi. destruct (A3 v Hv) as [_ H]. unfold count in H. rewrite A4 in H. destruct (H i Hi) as (g & Dg & Mg). exists g. destruct (after_alg o k) as [Ea Es]. rewrite Ea, Es in Mg. split; [|exact Mg].
    intros Tr Hx. eapply is_derive_ext; [|apply Dg].
    + intros z. cbv beta. rewrite (cost_flags eps (vobjs (gr w)) _ v _ z); [reflexivity|]. intros q. apply A5.
    + intros q Hq. rewrite (proj1 (A5 q)). now apply Tr.
    + destruct Hx as [Hx|Hx]; [now left|right]. intros q Hq. rewrite (proj1 (proj2 (A5 q))). now apply Hx.
  - intros v Hv. clear A1 A2 A3 A4 A5. revert b Eb Hl. induction k as [|k IH]; intros b Eb Hl.
    + destruct (A 0 b Eb Hl) as (_ & (_ & _ & A6) & _). rewrite (A6 v Hv). reflexivity.
    + destruct (A (S k) b Eb Hl) as (_ & (_ & _ & A6) & _). rewrite (A6 v Hv).
      destruct (nth_error batches k) as [b0|] eqn:E0; [|apply nth_error_None in E0; assert (S k < length batches) by (apply nth_error_Some; congruence); lia].
      apply (IH b0 eq_refl). intros j b' Hj. apply Hl. lia.
Qed.
Print Assumptions C80_fitting.

(** If the layers can be taught whatever their inputs, and differences are squared, every training runs to its end. *)
Theorem C80_docile act dbg eps m s ls ts ps loss h wgt c :
  (N.of_nat m < 2147483648)%N -> within m s -> well_formed m [s] (chain ls) ts ps ->
  In (loss, h, wgt, c) [(squared_loss, fun d => d * d, fun _ => 1, fun _ => 1); (mean_squared_error, fun d => d * d, fun s => / LossSpec.elements s, fun s => / samples s)]%R ->
  (forall k l t, nth_error ls k = Some l -> nth_error ts k = Some t -> docile act l t) ->
  exists ns, build dbg (map N.of_nat s) (chain ls) = Ok (Net ns ps) /\
    let out := graph act 4 (last ns (Leaf 0)) in
    let t := last ts [] in
    forall p sess w who o batches, let e := loss 0 (EHold p) out in
      p <> 0 -> ready sess out w who -> (forall v q, nth_error ps v = Some q -> shape (vdata (vars (gr w) v)) = q) ->
      (forall v, v < length ps <-> exists b, In (v, b) sess) -> (forall v, In (v, true) sess -> stocked (alg o) w v) ->
      (forall b, In b batches -> fits m s t b) ->
      let feeds := map (feed s t p) batches in
      let at_ := world_after dbg eps sess e feeds o w in
      train dbg eps sess e feeds o w = Ok (after o (length batches), at_ (length batches)) /\
      forall k b, nth_error batches k = Some b -> learnable act eps h ls s (parameters (length ps) (at_ k)) b.
Proof.
  intros M W WF Hi Dl. assert (Hin : In (loss, h, wgt, c) difference_losses) by (cbn [difference_losses In] in *; tauto).
  assert (Dh : forall x, ex_derive h x) by (cbn [In] in Hi; destruct Hi as [Q|[Q|[]]]; injection Q as _ <- _ _; intros x; AutoDerive.auto_derive; trivial).
  destruct (C78_networks_compute dbg m s (chain ls) ts ps M W WF) as (ns & B & _). exists ns. split; [exact B|]. cbv zeta.
  intros p sess w who o batches Hp Rd Sh Se St Hf.
  pose proof (reach act dbg eps m s ls ts ps ns loss h wgt c p sess M W WF B Hin Hp w who o batches Rd Sh Se St Hf) as A. cbv zeta in A.
  set (at_ := world_after dbg eps sess _ _ o w) in *.
  assert (Ll : length ls <= length ts).
  { destruct (all_sound dbg m s ls ts ps ns M W WF B) as [Sn _]. pose proof (Forall2_len _ _ _ Sn) as Ln. destruct (LearnProofs3.built dbg m s ls ps ns M W B) as (_ & E & _).
    destruct (chain_ind dbg m s M ls 0 [s] ts ps [Leaf 0] [] ns WF ltac:(auto) (leaf_sound m s W) eq_refl E (fun _ _ _ => True)) as (L1 & L2 & _); [easy|easy|]. lia. }
  assert (L : forall k j b, j < k -> nth_error batches j = Some b -> learnable act eps h ls s (parameters (length ps) (at_ j)) b).
  { induction k as [|k IH]; intros j b Hj Eb; [lia|]. destruct (Nat.eq_dec j k) as [->|Nj]; [|apply IH; [lia|assumption]].
    assert (Hk : k < length batches) by (apply nth_error_Some; congruence).
    destruct (A k ltac:(lia) (fun j b' Hj' => IH j b' Hj')) as (_ & (who' & Rk) & _ & V & _).
    apply (docile_learnable act dbg eps m s ls ts ps ns h p sess M W WF B Hp (at_ k) who' b Rk); auto; [|apply Hf; now apply nth_error_In in Eb].
    intros v q Hq. rewrite V. now apply Sh. }
  split; [|intros k b; apply (L (S k)); lia].
  destruct (A (length batches) ltac:(lia) (fun j b' Hj => L (length batches) j b' Hj)) as (T & _). rewrite firstn_all2 in T by (rewrite map_length; lia). exact T.
Qed.
Print Assumptions C80_docile.

(** The textbook, for gradient descent without regularisers: at every batch every trainable element moves against the derivative. *)
Theorem C80_descent act dbg eps m s ls ts ps loss h wgt c :
  (N.of_nat m < 2147483648)%N -> within m s -> well_formed m [s] (chain ls) ts ps -> (0 < eps)%R ->
  In (loss, h, wgt, c) [(squared_loss, fun d => d * d, fun _ => 1, fun _ => 1); (mean_squared_error, fun d => d * d, fun s => / LossSpec.elements s, fun s => / samples s)]%R ->
  (forall k l t, nth_error ls k = Some l -> nth_error ts k = Some t -> docile act l t) ->
  exists ns, build dbg (map N.of_nat s) (chain ls) = Ok (Net ns ps) /\
    let out := graph act 4 (last ns (Leaf 0)) in
    let t := last ts [] in
    forall p sess w who bs lr mo batches, let e := loss 0 (EHold p) out in let o := new_descent bs lr mo in
      p <> 0 -> ready sess out w who -> (forall v q, nth_error ps v = Some q -> shape (vdata (vars (gr w) v)) = q) ->
      (forall v, v < length ps <-> exists b, In (v, b) sess) -> (forall v, In (v, true) sess -> stocked (alg o) w v) ->
      (forall k, trainable (vobjs (gr w) k) = true /\ l1 (vobjs (gr w) k) = 0%R /\ l2 (vobjs (gr w) k) = 0%R) ->
      (forall b, In b batches -> fits m s t b) ->
      let at_ := world_after dbg eps sess e (map (feed s t p) batches) o w in
      train dbg eps sess e (map (feed s t p) batches) o w = Ok (after o (length batches), at_ (length batches)) /\
      forall k b v i, nth_error batches k = Some b -> In (v, true) sess -> i < count w v -> exists g,
        is_derive (fun z => c (number b :: t) * spread h (targets b) (predictions eps ls s (with_element (parameters (length ps) (at_ k)) v i z) b))%R (elem (at_ k) v i) g /\
        elem (at_ (S k)) v i = (elem (at_ k) v i - lr / INR bs * g)%R.
Proof.
  intros M W WF He Hi Dl. assert (Hin : In (loss, h, wgt, c) difference_losses) by (cbn [difference_losses In] in *; tauto).
  destruct (C80_docile act dbg eps m s ls ts ps loss h wgt c M W WF Hi Dl) as (ns & B & D). destruct (C80_fitting act dbg eps m s ls ts ps loss h wgt c M W WF Hin) as (ns' & B' & F).
  rewrite B in B'. injection B' as <-. exists ns. split; [exact B|]. cbv zeta in *. intros p sess w who bs lr mo batches Hp Rd Sh Se St Fl Hf.
  destruct (D p sess w who (new_descent bs lr mo) batches Hp Rd Sh Se St Hf) as [T L]. split; [exact T|]. intros k b v i Eb Hv Hi'.
  destruct (F p sess w who (new_descent bs lr mo) batches Hp Rd Sh Se St Hf k b Eb (fun j b' _ => L j b')) as (_ & _ & Mv & _).
  destruct (Mv v i Hv Hi') as (g & Dg & Q). exists g. split.
  - eapply is_derive_ext; [|apply Dg].
    + intros z. cbv beta. replace (cost eps (vobjs (gr w)) v _ z) with 0%R; [apply Rplus_0_r|]. symmetry. unfold cost. generalize (uses None (loss 0 (EHold p) (graph act 4 (last ns (Leaf 0))))). intros us. induction us as [|u us IH]; [reflexivity|].
      cbn [map rsum]. rewrite IH. destruct (snd u =? v); [|lra]. unfold cost1. destruct (Fl (fst u)) as (_ & -> & ->). unfold rleb. destruct (Rle_dec eps 0); lra.
    + intros k' _. apply Fl.
    + right. intros k' _. destruct (Fl k') as (_ & -> & _). exact He.
  - destruct (after_alg (new_descent bs lr mo) k) as [Ea _]. unfold next_rate in Q. rewrite Ea in Q. cbn [alg new_descent move] in Q. injection Q as _ Q. rewrite Q.
    assert (Er : forall k, rate (after (new_descent bs lr mo) k) = (lr / INR bs)%R).
    { clear. induction k as [|k IH]; [reflexivity|]. cbn [after rate]. unfold next_rate. now rewrite (proj1 (after_alg _ k)), IH. }
    now rewrite Er.
Qed.
Print Assumptions C80_descent.

(** ** Dense, tanh, dense (LearnProps.v): any batches of samples of two numbers with one target each *)
Module Case.
Definition sess : list (nat * bool) := [(0, true); (1, true); (2, true); (3, false)].
Definition w : world := W LearnProps.Case.st (fun _ => []).

Lemma in_sess v b : In (v, b) sess -> v < 4.
Proof. intros [[= <- _]|[[= <- _]|[[= <- _]|[[= <- _]|[]]]]]; lia. Qed.

Lemma set_off : ready sess (graph LearnProps.Case.act 4 (last LearnProps.Case.nodes (Leaf 0))) w LearnProps.Case.who.
Proof.
  constructor; cbn [gr ctx w].
  - apply LearnProps.Case.apart.
  - constructor.
    + cbn. repeat constructor; cbn; intuition discriminate.
    + intros v b Hv. apply in_sess in Hv. constructor; [|intros t []| |]; destruct v as [|[|[|[|v]]]]; try lia; try reflexivity.
      1-4: intros r [<-|[<-|[]]]; split; cbn; lia.
      1-4: unfold foot, w; cbn; constructor; [cbn; intuition discriminate|]; constructor; [intros []|constructor].
    + intros v b v' b' Hv Hv' Ne r. apply in_sess in Hv. apply in_sess in Hv'. destruct v as [|[|[|[|v]]]]; try lia; destruct v' as [|[|[|[|v']]]]; try lia; cbn; intuition lia.
  - intros k v H. LearnProps.Case.places H; injection H as <- <-; eexists; cbn; tauto.
  - intros v b r Hv [<-|[]]. apply in_sess in Hv. destruct v as [|[|[|[|v]]]]; try lia; reflexivity.
  - intros v b Hv H. exfalso. apply in_sess in Hv. cbn [LearnProps.Case.nodes last] in H. destruct v as [|[|[|[|v]]]]; try lia; eapply H; cbn; eauto 10 using At_root, At_un, At_left, At_right.
  - intros k t H. LearnProps.Case.places H.
  - intros k p t H E. LearnProps.Case.places H. injection H as <- <-. injection E as <-. split; [cbn; lia|]. intros v b Hv. apply in_sess in Hv. destruct v as [|[|[|[|v]]]]; try lia; cbn; intuition lia.
  - reflexivity.
Qed.

Lemma tame : forall k l t, nth_error LearnProps.Case.ls k = Some l -> nth_error [[2]; [2]; [2]; [1]] k = Some t -> docile LearnProps.Case.act l t.
Proof.
  intros k l t H _. destruct k as [|[|[|k]]]; cbn in H; [injection H as <-; exact I| |injection H as <-; exact I|now destruct k].
  injection H as <-. destruct (proj1 (Forall_forall _ _) C79_smooth (op_tanh, tanh) (or_introl eq_refl)) as [(own & mm & b & E) R]. split; [now exists own, mm, b|]. exact R.
Qed.

Example C80_case bs lr batches : (forall b, In b batches -> 1 <= number b <= 1000 /\ length (inputs b) = number b * 2 /\ length (targets b) = number b) ->
  let e := mean_squared_error 0 (EHold 1) (graph LearnProps.Case.act 4 (last LearnProps.Case.nodes (Leaf 0))) in
  let at_ := world_after true 1 sess e (map (feed [2] [1] 1) batches) (new_descent bs lr 0) w in
  train true 1 sess e (map (feed [2] [1] 1) batches) (new_descent bs lr 0) w = Ok (after (new_descent bs lr 0) (length batches), at_ (length batches)) /\
  forall k b i, nth_error batches k = Some b -> i < 4 -> exists g,
    is_derive (fun z => / samples (number b :: [1%nat]) * spread (fun d => d * d) (targets b) (predictions 1 LearnProps.Case.ls [2%nat] (with_element (parameters 4%nat (at_ k)) 0%nat i z) b))%R (elem (at_ k) 0 i) g /\
    elem (at_ (S k)) 0 i = (elem (at_ k) 0 i - lr / INR bs * g)%R.
Proof.
  intros Hb. destruct (C80_descent LearnProps.Case.act true 1 100 [2] LearnProps.Case.ls _ LearnProps.Case.ps mean_squared_error (fun d => d * d)%R (fun s => / LossSpec.elements s)%R (fun s => / samples s)%R
    ltac:(reflexivity) ltac:(now apply LearnProps.Case.within_small) LearnProps.Case.well ltac:(lra) (or_intror (or_introl eq_refl)) tame) as (ns & B & H).
  change (map N.of_nat [2]) with [2%N] in B. rewrite LearnProps.Case.built in B. injection B as <-.
  destruct (H 1 sess w LearnProps.Case.who bs lr 0%R batches ltac:(lia) set_off) as [T D].
  - intros v q Hq. destruct v as [|[|[|[|v]]]]; cbn in Hq; try (injection Hq as <-; reflexivity). now destruct v.
  - intros v. cbn [length LearnProps.Case.ps]. split; [|intros [b Hv]; exact (in_sess v b Hv)]. intros Hv. destruct v as [|[|[|[|v]]]]; try lia; eexists; cbn; tauto.
  - intros v _. now left.
  - intros k. cbn. auto.
  - intros b Hi. destruct (Hb b Hi) as (H1 & H2 & H3). split; [lia|]. split; [nia|]. cbn. split; [exact H2|]. rewrite Nat.mul_1_r. exact H3.
  - split; [exact T|]. intros k b i Eb Hi'. apply D; [assumption|cbn; tauto|exact Hi'].
Qed.
End Case.
