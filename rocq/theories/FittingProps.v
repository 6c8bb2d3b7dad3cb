(** C82: fitting a chain of layers with any of the losses; classifiers. *)
From Coq Require Import List Arith Lia Bool PeanoNat NArith ZArith Reals Lra.
From Coquelicot Require Import Rcomplements Rbar Hierarchy Derive.
From Coquelicot Require AutoDerive.
From Verif Require Import PairSpec PairProps XentSpec XentProps.
From Verif Require Import ListBase Loops TensorModel TensorSpec ArrayModel LayerModel LayerSpec LayerProofs GraphModel GraphSpec GraphProofs GraphProofs3 GradSpec GradProofs OpModel CalcSpec
  OpProofs OpProps GradProps ComplexModel LossModel LossSpec LossProps DeclModel NetModel NetSpec ValueModel ValueSpec NetProofs3 NetProps ValueProofs3
  ValueProps LearnModel LearnSpec LearnProofs LearnProofs2 LearnProofs3 LearnProps OptModel OptSpec OptProofs2 OptProps TrainSpec TrainProofs.
From Verif Require Import FittingSpec FittingProofs FittingProofs2.
Import ListNotations.
Local Open Scope nat_scope.

(** A well formed chain of layers can be built.  Compare its last expression with targets by any of the losses of FittingSpec.v and train
    the session's variables on batches that fit, with any of the optimisers.  As long as the layers can be taught and the loss is in its
    domain at the weights reached, every batch runs; the loss returned is that of the predictions; and every element of every variable
    that the session calls trainable makes the optimiser's step (OptSpec.v) with a gradient that is the derivative of the objective, as
    a function of that element, at the weights reached, plus the regularisers' cost: exactly, or for cross_entropy_loss up to eps
    times the derivatives of the predictions.  The other variables keep their weights. *)
Theorem C82_fitting act dbg eps smooth lo up m s ls ts ps L :
  (N.of_nat m < 2147483648)%N -> NetSpec.within m s -> well_formed m [s] (chain ls) ts ps -> (0 < eps)%R -> (0 < lo < up)%R -> In L (comparisons dbg eps smooth lo up) ->
  exists ns, build dbg (map N.of_nat s) (chain ls) = Ok (Net ns ps) /\
    let out := graph act 10 (last ns (Leaf 0)) in
    let t := last ts [] in
    forall p sess w who o batches, let e := term L 0 (EHold p) out in
      p <> 0 -> ready sess out w who -> (forall v q, nth_error ps v = Some q -> shape (vdata (vars (gr w) v)) = q) ->
      (forall v, v < length ps <-> exists b, In (v, b) sess) -> (forall v, In (v, true) sess -> stocked (alg o) w v) ->
      (forall b, In b batches -> fits m s t b) ->
      let feeds := map (feed s t p) batches in
      let at_ := world_after dbg eps sess e feeds o w in
      forall k b, nth_error batches k = Some b ->
        (forall j b', j <= k -> nth_error batches j = Some b' -> fittable act eps L ls s t (parameters (length ps) (at_ j)) b') ->
        let vs := parameters (length ps) (at_ k) in
        train dbg eps sess e (firstn (S k) feeds) o w = Ok (after o (S k), at_ (S k)) /\
        (exists y s1, run 0%R 1%R Rplus Rmult dbg e (bound (feed s t p b) (gr (at_ k))) = Ok (y, s1) /\
           val_of (hp s1) y = ([1], [value L (number b :: t) (targets b) (predictions eps ls s vs b)])) /\
        (forall v i, In (v, true) sess -> i < count w v -> let f z := predictions eps ls s (with_element vs v i z) b in exists g,
           ((forall k', At e k' (EVar v) -> trainable (vobjs (gr w) k') = true) ->
            (elem (at_ k) v i <> 0%R \/ forall k', At e k' (EVar v) -> (l1 (vobjs (gr w) k') < eps)%R) ->
            exists l, is_derive (fun z => objective L (number b :: t) (targets b) (f z) + cost eps (vobjs (gr w)) v (uses None e) z)%R (elem (at_ k) v i) l /\
                      near L (number b :: t) f (elem (at_ k) v i) g l) /\
           (memory (at_ (S k)) v i, elem (at_ (S k)) v i) = move (alg o) eps (next_rate (after o k)) (steps o + k) (memory_or_new (alg o) (at_ k) v i) (elem (at_ k) v i) g) /\
        (forall v, In (v, false) sess -> weights (at_ (S k)) v = weights w v).
Proof.
  intros M W WF He Hlo Hin. pose proof (every_law dbg eps smooth lo up L He Hlo Hin) as HL.
  destruct (C78_networks_compute dbg m s (chain ls) ts ps M W WF) as (ns & B & _). exists ns. split; [exact B|]. cbv zeta.
  intros p sess w who o batches Hp Rd Sh Se St Hf k b Eb Hl.
  pose proof (all_batches act dbg eps m s ls ts ps ns 10 L p sess M W WF B HL Hp w who o batches Rd Sh Se St Hf) as A. cbv zeta in A.
  destruct (A k b Eb Hl) as (A1 & (A2 & A3 & _) & A4 & A5). split; [exact A1|]. split; [exact A2|]. split.
  - intros v i Hv Hi. destruct (A3 v Hv) as [_ H]. unfold count in H. rewrite A4 in H. destruct (H i Hi) as (g & Dg & Mg). exists g. destruct (after_alg o k) as [Ea Es]. rewrite Ea, Es in Mg. split; [|exact Mg].
    intros Tr Hx. cbv zeta in Dg. destruct Dg as (l & Dl & Nl).
    + intros q Hq. rewrite (proj1 (A5 q)). now apply Tr.
    + destruct Hx as [Hx|Hx]; [now left|right]. intros q Hq. rewrite (proj1 (proj2 (A5 q))). now apply Hx.
    + exists l. split; [|exact Nl]. eapply is_derive_ext; [|exact Dl]. intros z. cbv beta. rewrite (cost_flags eps (vobjs (gr w)) _ v _ z); [reflexivity|]. intros q. apply A5.
  - intros v Hv. clear A1 A2 A3 A4 A5. revert b Eb Hl. induction k as [|k IH]; intros b Eb Hl.
    + destruct (A 0 b Eb Hl) as (_ & (_ & _ & A6) & _). rewrite (A6 v Hv). reflexivity.
    + destruct (A (S k) b Eb Hl) as (_ & (_ & _ & A6) & _). rewrite (A6 v Hv).
      destruct (nth_error batches k) as [b0|] eqn:E0; [|apply nth_error_None in E0; assert (S k < length batches) by (apply nth_error_Some; congruence); lia].
      apply (IH b0 eq_refl). intros j b' Hj. apply Hl. lia.
Qed.
Print Assumptions C82_fitting.

(** If the layers can be taught whatever their inputs, and the targets are in the loss's domain whatever the predictions, every training
    runs to its end. *)
Theorem C82_docile act dbg eps smooth lo up m s ls ts ps L :
  (N.of_nat m < 2147483648)%N -> NetSpec.within m s -> well_formed m [s] (chain ls) ts ps -> (0 < eps)%R -> (0 < lo < up)%R -> In L (comparisons dbg eps smooth lo up) ->
  (forall k l t, nth_error ls k = Some l -> nth_error ts k = Some t -> docile act l t) ->
  exists ns, build dbg (map N.of_nat s) (chain ls) = Ok (Net ns ps) /\
    let out := graph act 10 (last ns (Leaf 0)) in
    let t := last ts [] in
    forall p sess w who o batches, let e := term L 0 (EHold p) out in
      p <> 0 -> ready sess out w who -> (forall v q, nth_error ps v = Some q -> shape (vdata (vars (gr w) v)) = q) ->
      (forall v, v < length ps <-> exists b, In (v, b) sess) -> (forall v, In (v, true) sess -> stocked (alg o) w v) ->
      (forall b, In b batches -> fits m s t b) -> (forall b pred, In b batches -> domain L (number b :: t) (targets b) pred) ->
      let feeds := map (feed s t p) batches in
      let at_ := world_after dbg eps sess e feeds o w in
      train dbg eps sess e feeds o w = Ok (after o (length batches), at_ (length batches)) /\
      forall k b, nth_error batches k = Some b -> fittable act eps L ls s t (parameters (length ps) (at_ k)) b.
Proof.
  intros M W WF He Hlo Hin Dl. pose proof (every_law dbg eps smooth lo up L He Hlo Hin) as HL.
  destruct (C78_networks_compute dbg m s (chain ls) ts ps M W WF) as (ns & B & _). exists ns. split; [exact B|]. cbv zeta.
  intros p sess w who o batches Hp Rd Sh Se St Hf Dom. set (t := last ts []) in *.
  pose proof (reach act dbg eps m s ls ts ps ns 10 L p sess M W WF B HL Hp w who o batches Rd Sh Se St Hf) as A. cbv zeta in A.
  set (at_ := world_after dbg eps sess _ _ o w) in *.
  assert (Ll : length ls <= length ts).
  { destruct (all_sound dbg m s ls ts ps ns M W WF B) as [Sn _]. pose proof (Forall2_len _ _ _ Sn) as Ln. destruct (LearnProofs3.built dbg m s ls ps ns M W B) as (_ & E & _).
    destruct (chain_ind dbg m s M ls 0 [s] ts ps [Leaf 0] [] ns WF ltac:(auto) (leaf_sound m s W) eq_refl E (fun _ _ _ => True)) as (L1 & L2 & _); [easy|easy|]. lia. }
  assert (Q : forall k j b, j < k -> nth_error batches j = Some b -> fittable act eps L ls s t (parameters (length ps) (at_ j)) b).
  { induction k as [|k IH]; intros j b Hj Eb; [lia|]. destruct (Nat.eq_dec j k) as [->|Nj]; [|apply IH; [lia|assumption]].
    assert (Hk : k < length batches) by (apply nth_error_Some; congruence).
    destruct (A k ltac:(lia) (fun j b' Hj' => IH j b' Hj')) as (_ & (who' & Rk) & _ & V & _).
    apply (docile_fittable act dbg eps m s ls ts ps ns 10 L p sess M W WF B Hp (at_ k) who' b Rk); auto; [|apply Hf; now apply nth_error_In in Eb|apply Dom; now apply nth_error_In in Eb].
    intros v q Hq. rewrite V. now apply Sh. }
  split; [|intros k b; apply (Q (S k)); lia].
  destruct (A (length batches) ltac:(lia) (fun j b' Hj => Q (length batches) j b' Hj)) as (T & _). rewrite firstn_all2 in T by (rewrite map_length; lia). exact T.
Qed.
Print Assumptions C82_docile.

(** A classifier: a network whose last layer makes rows of at least two scores, cross_entropy_loss, labels one-hot, gradient descent, no
    regularisers.  Every training runs to its end, and at every batch every trainable element moves against the derivative of the cross
    entropy of labels and softmax of the scores, summed over the batch, up to eps times the derivatives of the scores.
    What run returns is not that sum but about its quotient by the number of samples (C60_value). *)
Theorem C82_classifier act dbg eps smooth m s ls ts ps :
  (N.of_nat m < 2147483648)%N -> NetSpec.within m s -> well_formed m [s] (chain ls) ts ps -> (0 < eps)%R -> 2 <= last (last ts []) 0 ->
  (forall k l t, nth_error ls k = Some l -> nth_error ts k = Some t -> docile act l t) ->
  exists ns, build dbg (map N.of_nat s) (chain ls) = Ok (Net ns ps) /\
    let out := graph act 10 (last ns (Leaf 0)) in
    let t := last ts [] in
    let n := last t 0 in
    forall p sess w who bs lr mo batches, let e := cross_entropy_loss dbg eps smooth 0 (EHold p) out in let o := new_descent bs lr mo in
      p <> 0 -> ready sess out w who -> (forall v q, nth_error ps v = Some q -> shape (vdata (vars (gr w) v)) = q) ->
      (forall v, v < length ps <-> exists b, In (v, b) sess) -> (forall v, In (v, true) sess -> stocked (alg o) w v) ->
      (forall k, trainable (vobjs (gr w) k) = true /\ l1 (vobjs (gr w) k) = 0%R /\ l2 (vobjs (gr w) k) = 0%R) ->
      (forall b, In b batches -> fits m s t b /\ one_hot eps (number b * prod (removelast t)) n (fun i => nth i (targets b) 0%R)) ->
      let at_ := world_after dbg eps sess e (map (feed s t p) batches) o w in
      train dbg eps sess e (map (feed s t p) batches) o w = Ok (after o (length batches), at_ (length batches)) /\
      forall k b, nth_error batches k = Some b ->
        let rows := number b * prod (removelast t) in
        let lab i := XentSpec.given eps smooth n (nth i (targets b) 0%R) in
        (exists y s1, run 0%R 1%R Rplus Rmult dbg e (bound (feed s t p b) (gr (at_ k))) = Ok (y, s1) /\
           val_of (hp s1) y = ([1], [reported eps (number b) rows n lab (fun i => nth i (predictions eps ls s (parameters (length ps) (at_ k)) b) 0%R)])) /\
        forall v i, In (v, true) sess -> i < count w v ->
          let f z := predictions eps ls s (with_element (parameters (length ps) (at_ k)) v i z) b in
          exists g l dy, is_derive (fun z => entropy rows n lab (fun j => nth j (f z) 0%R)) (elem (at_ k) v i) l /\
            (forall j, j < rows * n -> is_derive (fun z => nth j (f z) 0%R) (elem (at_ k) v i) (dy j)) /\
            (Rabs (g - l) <= eps * rsum (tab (rows * n) (fun j => Rabs (dy j))))%R /\
            elem (at_ (S k)) v i = (elem (at_ k) v i - lr / INR bs * g)%R.
Proof.
  intros M W WF He Hn Dl. assert (Hin : In (of_scores dbg eps smooth) (comparisons dbg eps smooth 1 2)) by (cbn [comparisons In]; tauto).
  assert (H12 : (0 < 1 < 2)%R) by lra.
  destruct (C82_docile act dbg eps smooth 1 2 m s ls ts ps _ M W WF He H12 Hin Dl) as (ns & B & D). destruct (C82_fitting act dbg eps smooth 1 2 m s ls ts ps _ M W WF He H12 Hin) as (ns' & B' & F).
  rewrite B in B'. injection B' as <-. exists ns. split; [exact B|]. cbv zeta in *. intros p sess w who bs lr mo batches Hp Rd Sh Se St Fl Hf.
  set (t := last ts []) in *. assert (Nt : t <> []) by (intros E; rewrite E in Hn; cbn in Hn; lia).
  assert (Ec : forall q, classes (q :: t) = last t 0) by (intros q; unfold classes; cbn [last]; now destruct t).
  assert (Er : forall q, rows_of (q :: t) = q * prod (removelast t)) by (intros q; unfold rows_of; cbn [removelast]; destruct t; [congruence|reflexivity]).
  assert (Pt : prod t = prod (removelast t) * last t 0) by (rewrite (app_removelast_last 0 Nt) at 1; rewrite prod_app; cbn; lia).
  destruct (D p sess w who (new_descent bs lr mo) batches Hp Rd Sh Se St (fun b Hb => proj1 (Hf b Hb))) as [T L].
  { intros b pred Hb. cbn [of_scores domain]. rewrite Ec, Er. split; [exact Hn|]. apply (Hf b Hb). }
  split; [exact T|]. intros k b Eb.
  destruct (F p sess w who (new_descent bs lr mo) batches Hp Rd Sh Se St (fun b Hb => proj1 (Hf b Hb)) k b Eb (fun j b' _ => L j b')) as (_ & Rn & Mv & _).
  split.
  - destruct Rn as (y & s1 & R1 & V1). exists y, s1. split; [exact R1|]. rewrite V1. cbn [of_scores value hd]. unfold labels. now rewrite Ec, Er.
  - intros v i Hv Hi'. destruct (Mv v i Hv Hi') as (g & Dg & Q). exists g. cbv zeta in Dg.
    destruct Dg as (l & Dl' & dy & Dd & Ng).
    + intros k' _. apply Fl.
    + right. intros k' _. destruct (Fl k') as (_ & -> & _). exact He.
    + replace (prod (number b :: t)) with (number b * prod (removelast t) * last t 0) in * by (rewrite prod_cons, Pt; ring).
      exists l, dy. split; [|split; [exact Dd|split; [exact Ng|]]].
      * eapply is_derive_ext; [|exact Dl']. intros z. cbv beta. replace (cost eps (vobjs (gr w)) v _ z) with 0%R.
        -- rewrite Rplus_0_r. cbn [of_scores objective]. unfold labels. now rewrite Ec, Er.
        -- symmetry. unfold cost. match goal with |- rsum (map _ ?u) = _ => generalize u end. intros us. induction us as [|u us IH]; [reflexivity|].
           cbn [map rsum]. rewrite IH. destruct (snd u =? v); [|lra]. unfold cost1. destruct (Fl (fst u)) as (_ & -> & ->). unfold rleb. destruct (Rle_dec eps 0); lra.
      * destruct (after_alg (new_descent bs lr mo) k) as [Ea _]. unfold next_rate in Q. rewrite Ea in Q. cbn [alg new_descent move] in Q. injection Q as _ Q. rewrite Q.
        assert (Ra : forall k, rate (after (new_descent bs lr mo) k) = (lr / INR bs)%R).
        { clear. induction k as [|k IH]; [reflexivity|]. cbn [after rate]. unfold next_rate. now rewrite (proj1 (after_alg _ k)), IH. }
        now rewrite Ra.
Qed.
Print Assumptions C82_classifier.

(** ** A classifier with three classes: dense, tanh, dense; any batches of samples of two numbers, each of one of three classes *)
Module Case.
Definition ls : list layer1 := [Dense 2; Activation tanh; Dense 3].
Definition ps : list (list nat) := [[2; 2]; [1; 2]; [2; 3]; [1; 3]].
Definition act (_ : R -> R) : uop R := op_tanh.
Definition st : GraphModel.st R :=
  St [[1; 2; 0; -1]; [3; 5; 0; -1]; [1; 1]; [2; 1; 0; 1; -2; 3]; [7; 0; 1]; [0; 0; 0; 0]; [0; 0]; [0; 0; 0; 0; 0; 0]; [0; 0; 0]]%R (fun _ => None) (fun _ => Obj None None None) (fun _ => VObj true true 0%R 0%R)
     (fun v => match v with 0 => VState (mkT [2; 2] 1) (mkT [2; 2] 5) | 1 => VState (mkT [1; 2] 2) (mkT [1; 2] 6) | 2 => VState (mkT [2; 3] 3) (mkT [2; 3] 7) | _ => VState (mkT [1; 3] 4) (mkT [1; 3] 8) end)
     (fun p => match p with 0 => Some (mkT [2; 2] 0) | _ => None end) (fun _ => None) (fun _ _ => None) true [].
Definition who (r : nat) : owner := match r with 5 => OGrad 0 | 6 => OGrad 1 | 7 => OGrad 2 | 8 => OGrad 3 | _ => OLeaf end.
Definition sess : list (nat * bool) := [(0, true); (1, true); (2, true); (3, false)].
Definition w : world := W st (fun _ => []).

Lemma well : well_formed 100 [[2]] (chain ls) [[2]; [2]; [2]; [3]] ps.
Proof.
  unfold ps. change [[2; 2]; [1; 2]; [2; 3]; [1; 3]] with ([[2; 2]; [1; 2]] ++ [] ++ [[2; 3]; [1; 3]] ++ []).
  repeat (eapply wf_one; [reflexivity|constructor|now apply LearnProps.Case.within_small|]). apply wf_done.
Qed.

Definition nodes : list ex :=
  let d := Bin Plus (Bin Matmul (Leaf 0) (Leaf 1)) (Leaf 2) in [Leaf 0; d; Un (Map tanh) d; Bin Plus (Bin Matmul (Un (Map tanh) d) (Leaf 3)) (Leaf 4)].
Lemma built : build true [2%N] (chain ls) = Ok (Net nodes ps).
Proof. reflexivity. Qed.

Lemma apart n : separate (graph act n (last nodes (Leaf 0))) st who.
Proof.
  split; [|split; [|split; [|split]]]; try discriminate.
  - intros k v H. LearnProps.Case.places H; injection H as <- <-; cbn; repeat split; lia.
  - intros k p t H E. cbn in E. destruct p; [|discriminate]. injection E as <-; reflexivity.
  - intros k t H. LearnProps.Case.places H.
Qed.

Lemma in_sess v b : In (v, b) sess -> v < 4.
Proof. intros [[= <- _]|[[= <- _]|[[= <- _]|[[= <- _]|[]]]]]; lia. Qed.

Lemma set_off : ready sess (graph act 10 (last nodes (Leaf 0))) w who.
Proof.
  constructor; cbn [gr ctx w].
  - apply apart.
  - constructor.
    + cbn. repeat constructor; cbn; intuition discriminate.
    + intros v b Hv. apply in_sess in Hv. constructor; [|intros t []| |]; destruct v as [|[|[|[|v]]]]; try lia; try reflexivity.
      1-4: intros r [<-|[<-|[]]]; split; cbn; lia.
      1-4: unfold foot, w; cbn; constructor; [cbn; intuition discriminate|]; constructor; [intros []|constructor].
    + intros v b v' b' Hv Hv' Ne r. apply in_sess in Hv. apply in_sess in Hv'. destruct v as [|[|[|[|v]]]]; try lia; destruct v' as [|[|[|[|v']]]]; try lia; cbn; intuition lia.
  - intros k v H. LearnProps.Case.places H; injection H as <- <-; eexists; cbn; tauto.
  - intros v b r Hv [<-|[]]. apply in_sess in Hv. destruct v as [|[|[|[|v]]]]; try lia; reflexivity.
  - intros v b Hv H. exfalso. apply in_sess in Hv. cbn [nodes last] in H. destruct v as [|[|[|[|v]]]]; try lia; eapply H; cbn; eauto 10 using At_root, At_un, At_left, At_right.
  - intros k t H. LearnProps.Case.places H.
  - intros k p t H E. LearnProps.Case.places H. injection H as <- <-. injection E as <-. split; [cbn; lia|]. intros v b Hv. apply in_sess in Hv. destruct v as [|[|[|[|v]]]]; try lia; cbn; intuition lia.
  - reflexivity.
Qed.

Lemma tame : forall k l t, nth_error ls k = Some l -> nth_error [[2]; [2]; [2]; [3]] k = Some t -> docile act l t.
Proof.
  intros k l t H _. destruct k as [|[|[|k]]]; cbn in H; [injection H as <-; exact I| |injection H as <-; exact I|now destruct k].
  injection H as <-. destruct (proj1 (Forall_forall _ _) C79_smooth (op_tanh, tanh) (or_introl eq_refl)) as [(own & mm & b & E) R]. split; [now exists own, mm, b|]. exact R.
Qed.

Lemma all_shaped v q : nth_error ps v = Some q -> shape (vdata (vars (gr w) v)) = q.
Proof. intros Hq. destruct v as [|[|[|[|v]]]]; cbn in Hq; try (injection Hq as <-; reflexivity). now destruct v. Qed.
Lemma all_there v : v < length ps <-> exists b, In (v, b) sess.
Proof. cbn [length ps]. split; [|intros [b Hv]; exact (in_sess v b Hv)]. intros Hv. destruct v as [|[|[|[|v]]]]; try lia; eexists; cbn; tauto. Qed.

(** the targets: for sample i a one in the place of its class, zeros elsewhere *)
Definition one (c : nat) : list R := [if c =? 0 then 1%R else 0%R; if c =? 1 then 1%R else 0%R; if c =? 2 then 1%R else 0%R].
Definition samples_of (l : list (R * R * nat)) : batch := Batch (length l) (flat_map (fun x => [fst (fst x); snd (fst x)]) l) (flat_map (fun x => one (snd x)) l).

Lemma one_hots eps l : (0 < eps < 1)%R -> Forall (fun x => snd x < 3) l -> one_hot eps (length l) 3 (fun i => nth i (flat_map (fun x : R * R * nat => one (snd x)) l) 0%R).
Proof.
  intros He H r Hr. revert r Hr. induction H as [|[xy c] l Hc Hl IH]; intros r Hr; [cbn in Hr; lia|]. cbn [snd flat_map length] in *. destruct r as [|r].
  - exists c. split; [exact Hc|]. split.
    + rewrite app_nth1 by (cbn; lia). destruct c as [|[|[|c]]]; cbn; try lia; lra.
    + intros i Hi Ne. rewrite app_nth1 by (cbn; lia). destruct c as [|[|[|c]]]; try lia; destruct i as [|[|[|i]]]; cbn; try lia; lra.
  - destruct (IH r ltac:(lia)) as (j & Hj & A & B). exists j. split; [exact Hj|].
    assert (Sh : forall i, i < 3 -> nth (S r * 3 + i) (one c ++ flat_map (fun x => one (snd x)) l) 0%R = nth (r * 3 + i) (flat_map (fun x => one (snd x)) l) 0%R)
      by (intros i _; rewrite app_nth2 by (cbn; lia); f_equal; cbn [one length]; lia).
    split; [now rewrite Sh|]. intros i Hi Ne. rewrite Sh by exact Hi. now apply B.
Qed.

Example C82_case bs lr data : (forall l, In l data -> 1 <= length l <= 1000 /\ Forall (fun x => snd x < 3) l) ->
  let eps := (1 / 2)%R in
  let batches := map samples_of data in
  let e := cross_entropy_loss true eps 0 0 (EHold 1) (graph act 10 (last nodes (Leaf 0))) in
  let at_ := world_after true eps sess e (map (feed [2] [3] 1) batches) (new_descent bs lr 0) w in
  train true eps sess e (map (feed [2] [3] 1) batches) (new_descent bs lr 0) w = Ok (after (new_descent bs lr 0) (length batches), at_ (length batches)) /\
  forall k b i, nth_error batches k = Some b -> i < 4 ->
    let f z := predictions eps ls [2] (with_element (parameters 4 (at_ k)) 0 i z) b in
    exists g l dy, is_derive (fun z => entropy (number b) 3 (fun i => XentSpec.given eps 0 3 (nth i (targets b) 0%R)) (fun j => nth j (f z) 0%R)) (elem (at_ k) 0 i) l /\
      (forall j, j < number b * 3 -> is_derive (fun z => nth j (f z) 0%R) (elem (at_ k) 0 i) (dy j)) /\
      (Rabs (g - l) <= eps * rsum (tab (number b * 3) (fun j => Rabs (dy j))))%R /\
      elem (at_ (S k)) 0 i = (elem (at_ k) 0 i - lr / INR bs * g)%R.
Proof.
  intros Hd. cbv zeta. destruct (C82_classifier act true (1 / 2) 0 100 [2] ls _ ps ltac:(reflexivity) ltac:(now apply LearnProps.Case.within_small) well ltac:(lra) ltac:(cbn; lia) tame) as (ns & B & H).
  change (map N.of_nat [2]) with [2%N] in B. rewrite built in B. injection B as <-.
  destruct (H 1 sess w who bs lr 0%R (map samples_of data) ltac:(lia) set_off all_shaped all_there) as [T D].
  - intros v _. now left.
  - intros k. cbn. auto.
  - intros b Hi. apply in_map_iff in Hi. destruct Hi as (l & <- & Hl). destruct (Hd l Hl) as [Ln Lc]. cbn [samples_of number inputs targets last removelast]. split.
    + split; [cbn; lia|]. split; [cbn [samples_of number]; nia|]. cbn [samples_of number inputs targets last]. split.
      * clear. induction l as [|x l IH]; [reflexivity|]. cbn [flat_map app length]. rewrite IH. cbn. lia.
      * clear. induction l as [|x l IH]; [reflexivity|]. cbn [flat_map]. rewrite app_length, IH. cbn. lia.
    + replace (length l * prod []) with (length l) by (cbn; lia). apply one_hots; [lra|exact Lc].
  - split; [exact T|]. intros k b i Eb Hi'. destruct (D k b Eb) as [_ Mv]. specialize (Mv 0 i ltac:(cbn; tauto) Hi').
    cbv zeta in Mv. cbn [last removelast] in Mv. replace (number b * prod []) with (number b) in Mv by (cbn; lia). exact Mv.
Qed.
End Case.
