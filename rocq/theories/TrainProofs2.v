(** Proofs about fitting a chain of layers: one batch, and batch after batch. *)
From Coq Require Import List Arith Lia Bool PeanoNat NArith ZArith Reals Lra.
From Coquelicot Require Import Rcomplements Rbar Hierarchy Derive.
From Coquelicot Require AutoDerive.
From Verif Require Import ListBase Loops TensorModel TensorSpec ArrayModel LayerModel LayerSpec LayerProofs GraphModel GraphSpec GraphProofs GraphProofs3 GradSpec GradProofs OpModel CalcSpec
  OpProofs OpProps GradProps ComplexModel LossModel LossSpec LossProps DeclModel NetModel NetSpec ValueModel ValueSpec NetProofs3 NetProps ValueProofs3
  ValueProps LearnModel LearnSpec LearnProofs LearnProofs2 LearnProofs3 LearnProps OptModel OptSpec OptProofs2 OptProps TrainSpec TrainProofs.
Import ListNotations.
Local Open Scope nat_scope.

Lemma train_snoc dbg eps sess e fs f : forall o w o1 w1 y o2 w2, train dbg eps sess e fs o w = Ok (o1, w1) -> train_batch dbg eps sess e f o1 w1 = Ok (y, o2, w2) ->
  train dbg eps sess e (fs ++ [f]) o w = Ok (o2, w2).
Proof.
  induction fs as [|g fs IH]; intros o w o1 w1 y o2 w2 H1 H2; cbn [train app] in *.
  - unfold oret in H1. injection H1 as <- <-. unfold obnd. rewrite H2. reflexivity.
  - unfold obnd in *. destruct (train_batch dbg eps sess e g o w) as [[yo w']| |]; try discriminate. exact (IH _ _ _ _ _ _ _ H1 H2).
Qed.

Lemma only_input act e : forall n root k x, At root k x -> root = graph act n e -> (forall p, x = EHold p -> p = 0) /\ forall t, x <> EConst t.
Proof.
  assert (G : forall e n k x, At (graph act n e) k x -> exists n' e', x = graph act n' e').
  { intros e0 n0 k x H. induction H as [|k n o x H IH|k n o l r H IH|k n o l r H IH]; [now exists n0, e0| | |];
      destruct IH as (n' & e' & E'); destruct e' as [[|i]|c|o' e'|o' l' r']; cbn [graph] in E'; try discriminate; injection E' as -> -> ->; eauto; subst; eauto. }
  intros n root k x H ->. destruct (G e n k x H) as (n' & e' & ->). destruct e' as [[|i]|c|o' e'|o' l' r']; cbn [graph]; split; intros; try discriminate; congruence.
Qed.

Lemma cost_flags eps (vo vo' : slot -> vobj (A:=R)) v us x : (forall k, l1 (vo' k) = l1 (vo k) /\ l2 (vo' k) = l2 (vo k)) -> cost eps vo' v us x = cost eps vo v us x.
Proof. intros H. unfold cost. f_equal. apply map_ext. intros [k u]. cbn [fst snd]. unfold cost1. destruct (H k) as [-> ->]. reflexivity. Qed.

Section Fit.
Variables (act : (R -> R) -> uop R) (dbg : bool) (eps : R) (m : nat) (s : list nat) (ls : list layer1) (ts : list (list nat)) (ps : list (list nat)) (ns : list ex).
Variables (loss : nat -> expr R -> expr R -> expr R) (h : R -> R) (wgt c : list nat -> R) (p : nat) (sess : list (nat * bool)).
Hypotheses (M : (N.of_nat m < 2147483648)%N) (W : within m s) (WF : well_formed m [s] (chain ls) ts ps) (B : build dbg (map N.of_nat s) (chain ls) = Ok (Net ns ps))
  (Hin : In (loss, h, wgt, c) difference_losses) (Hp0 : p <> 0).
Notation out := (graph act 4 (last ns (Leaf 0))).
Notation e := (loss 0 (EHold p) out).
Notation t := (last ts []).

(** the variables' shapes *)
Definition shaped_as (w : world) : Prop := forall v q, nth_error ps v = Some q -> shape (vdata (vars (gr w) v)) = q.

Lemma denoted_made q b : e_hold q 0 = Some (number b :: s, inputs b) -> forall k,
  denoted eps ls s (number b) (length ps) q k = made_of eps ls s (map (fun v => snd (e_var q v)) (seq 0 (length ps))) b k.
Proof. intros H k. unfold denoted, made_of. rewrite H. reflexivity. Qed.

Lemma denoted_last q bs : 1 <= bs -> (N.of_nat (bs * m) < 4294967296)%N -> given s ps bs q -> fst (denoted eps ls s bs (length ps) q (length ls)) = bs :: t.
Proof.
  intros B1 B2 G. destruct (C78_networks_compute dbg m s (chain ls) ts ps M W WF) as (ns' & B' & _ & H). rewrite B in B'. injection B' as <-.
  destruct (all_sound dbg m s ls ts ps ns M W WF B) as [Sn _]. pose proof (Forall2_len _ _ _ Sn) as Ln.
  destruct (built dbg m s ls ps ns M W B) as (_ & E & _).
  destruct (chain_ind dbg m s M ls 0 [s] ts ps [Leaf 0] [] ns WF ltac:(auto) (leaf_sound m s W) eq_refl E (fun _ _ _ => True)) as (L1 & L2 & _); [easy|easy|].
  cbn [Nat.add] in L1, L2. set (k := length ls) in *.
  destruct (nth_error ns k) as [x|] eqn:Ee; [|apply nth_error_None in Ee; lia]. destruct (nth_error ts k) as [t0|] eqn:Et; [|apply nth_error_None in Et; lia].
  destruct (H bs (leaf_of q) eps B1 B2 G k x Ee) as ((y & C) & _).
  rewrite <- (value_denoted dbg eps m s ls ts ps ns bs M W WF B B1 B2 q k x y G Ee C). cbn [val_arr fst].
  destruct (computes_shape dbg eps m s ls ts ps ns bs M W WF B B1 B2 q k x t0 y G Ee Et C) as [_ ->]. f_equal.
  destruct (exists_last (l := ts)) as (l' & a & El); [intros ->; destruct k; discriminate|]. rewrite El, last_last. rewrite El in Et, L2. rewrite app_length in L2. cbn [length] in L2.
  rewrite nth_error_app2 in Et by lia. replace (k - length l') with 0 in Et by lia. cbn in Et. congruence.
Qed.

Lemma fed_params w who b : ready sess out w who -> (forall v, v < length ps -> exists b, In (v, b) sess) ->
  map (fun v => snd (e_var (env_of (bound (feed s t p b) (gr w))) v)) (seq 0 (length ps)) = parameters (length ps) w.
Proof.
  intros Rd Oc. unfold parameters. apply map_ext_in. intros v Hv. apply in_seq in Hv. destruct (Oc v ltac:(lia)) as [f Hf].
  destruct (bound_keeps (feed s t p b) (gr w)) as (BV & _ & _ & _ & BF). cbn [env_of e_var]. unfold val_of. cbn [snd]. rewrite BV.
  unfold weights, OptSpec.elements. apply BF. apply (t_live _ _ (o_tidy _ _ (r_ord _ _ _ _ Rd) v f Hf)). right. now left.
Qed.

Lemma nudged_params q v i z : v < length ps ->
  map (fun u => snd (e_var (nudge q v i z) u)) (seq 0 (length ps)) = with_element (map (fun u => snd (e_var q u)) (seq 0 (length ps))) v i z.
Proof.
  intros Hv. unfold with_element. apply (nth_ext _ _ [] []); [now rewrite upd_length, !map_length|]. intros j Hj. rewrite map_length, seq_length in Hj.
  rewrite nth_upd by (now rewrite map_length, seq_length).
  assert (N : forall f : nat -> list R, forall u, u < length ps -> nth u (map f (seq 0 (length ps))) [] = f u).
  { intros f u Hu. rewrite (nth_indep _ [] (f 0)) by (now rewrite map_length, seq_length). rewrite map_nth, seq_nth by assumption. reflexivity. }
  rewrite !N by assumption. cbn [nudge e_var]. rewrite (Nat.eqb_sym v j). destruct (Nat.eqb_spec j v) as [->|]; reflexivity.
Qed.

Lemma fed_input w b : e_hold (env_of (bound (feed s t p b) (gr w))) 0 = Some (number b :: s, inputs b).
Proof.
  unfold feed. cbn [bound env_of e_hold set_holders holders set_hp hp fst snd]. unfold fupd. rewrite (proj2 (Nat.eqb_neq 0 p)) by lia. cbn [Nat.eqb]. f_equal. unfold val_of. cbn [shape ref]. f_equal.
  rewrite app_nth1 by (rewrite app_length; cbn; lia). rewrite app_nth2, Nat.sub_diag by lia. reflexivity.
Qed.

Lemma fed_given w who b : ready sess out w who -> shaped_as w -> (forall v, v < length ps <-> exists b, In (v, b) sess) -> fits m s t b ->
  given s ps (number b) (env_of (bound (feed s t p b) (gr w))).
Proof.
  intros Rd Sh Se (_ & _ & Li & _). destruct (bound_keeps (feed s t p b) (gr w)) as (BV & _ & _ & _ & BF). split.
  - cbn [leaf_of]. rewrite fed_input. split; [reflexivity|]. cbn [adata fst snd]. rewrite Li. cbn [prod fold_right]. reflexivity.
  - intros v q Hq. assert (Hv : v < length ps) by (apply nth_error_Some; congruence).
    destruct (proj1 (Se v) Hv) as [f Hf]. cbn [leaf_of env_of e_var]. unfold val_of. cbn [fst snd]. rewrite BV. split; cbn [ashape adata]; [now apply Sh|].
    destruct (t_live _ _ (o_tidy _ _ (r_ord _ _ _ _ Rd) v f Hf) (ref (vdata (vars (gr w) v)))) as [Q1 Q2]; [right; now left|].
    rewrite <- (Sh v q Hq). rewrite BF by exact Q1. exact Q2.
Qed.

Lemma made_sized w who b k tk : ready sess out w who -> shaped_as w -> (forall v, v < length ps <-> exists b, In (v, b) sess) -> fits m s t b -> nth_error ts k = Some tk ->
  let v := made_of eps ls s (parameters (length ps) w) b k in fst v = number b :: tk /\ length (snd v) = prod (fst v).
Proof.
  intros Rd Sh Se Ft Et. pose proof (fed_given w who b Rd Sh Se Ft) as G. destruct Ft as (B1 & B2 & _). set (q := env_of (bound (feed s t p b) (gr w))) in *.
  assert (Dm : denoted eps ls s (number b) (length ps) q k = made_of eps ls s (parameters (length ps) w) b k).
  { rewrite (denoted_made q b (fed_input w b)). unfold q. rewrite (fed_params w who b Rd); [reflexivity|]. intros v Hv. now apply Se. }
  cbv zeta. rewrite <- Dm.
  destruct (C78_networks_compute dbg m s (chain ls) ts ps M W WF) as (ns' & B' & _ & H). rewrite B in B'. injection B' as <-.
  destruct (all_sound dbg m s ls ts ps ns M W WF B) as [Sn _]. destruct (Forall2_nth_error_r _ _ _ _ _ Sn Et) as (x & Ee & _).
  destruct (H (number b) (leaf_of q) eps B1 B2 G k x Ee) as ((y & C) & _).
  rewrite <- (value_denoted dbg eps m s ls ts ps ns (number b) M W WF B B1 B2 q k x y G Ee C). cbn [val_arr fst snd].
  destruct (computes_shape dbg eps m s ls ts ps ns (number b) M W WF B B1 B2 q k x tk y G Ee Et C) as [Wy Sy]. unfold ArrayProofs.wf in Wy. split; [exact Sy|exact Wy].
Qed.

Definition fitted (o : opt) (b : batch) (w w' : world) : Prop :=
  (exists y s1, run 0%R 1%R Rplus Rmult dbg e (bound (feed s t p b) (gr w)) = Ok (y, s1) /\
     val_of (hp s1) y = ([1], [(wgt (number b :: t) * spread h (targets b) (predictions eps ls s (parameters (length ps) w) b))%R])) /\
  (forall v, In (v, true) sess -> length (weights w' v) = count w v /\
    forall i, i < count w v -> exists g,
      ((forall k, At e k (EVar v) -> trainable (vobjs (gr w) k) = true) ->
       (nth i (weights w v) 0%R <> 0%R \/ forall k, At e k (EVar v) -> (l1 (vobjs (gr w) k) < eps)%R) ->
       is_derive (fun z => c (number b :: t) * spread h (targets b) (predictions eps ls s (with_element (parameters (length ps) w) v i z) b) +
                           cost eps (vobjs (gr w)) v (uses None e) z)%R (nth i (weights w v) 0%R) g) /\
      (memory w' v i, nth i (weights w' v) 0%R) = move (alg o) eps (next_rate o) (steps o) (memory_or_new (alg o) w v i) (nth i (weights w v) 0%R) g) /\
  (forall v, In (v, false) sess -> weights w' v = weights w v).

Lemma one_batch w who o b : ready sess out w who -> shaped_as w -> (forall v, v < length ps <-> exists b, In (v, b) sess) -> (forall v, In (v, true) sess -> stocked (alg o) w v) ->
  fits m s t b -> learnable act eps h ls s (parameters (length ps) w) b ->
  exists y w' who', train_batch dbg eps sess e (feed s t p b) o w = Ok (y, Opt (alg o) (next_rate o) (S (steps o)), w') /\ ready sess out w' who' /\
    (forall v, In (v, true) sess -> stocked (alg o) w' v) /\ (forall v, vars (gr w') v = vars (gr w) v) /\
    (forall k, trainable (vobjs (gr w') k) = trainable (vobjs (gr w) k) /\ l1 (vobjs (gr w') k) = l1 (vobjs (gr w) k) /\ l2 (vobjs (gr w') k) = l2 (vobjs (gr w) k)) /\
    fitted o b w w'.
Proof.
  intros Rd Sh Se St (B1 & B2 & Li & Lt) [Te Dh].
  set (s0 := gr w) in *. set (n0 := length (hp s0)).
  set (fd := feed s t p b). set (sb := bound fd s0). set (whob := who_new (who_new who n0 OLeaf) (S n0) OLeaf).
  assert (Rd0 : ready sess out w whob /\ ready sess out (OptModel.W sb (ctx w)) whob).
  { assert (Ew : w = OptModel.W s0 (ctx w)) by (now destruct w).
    pose proof (ready_bound1 sess out s0 (ctx w) who 0 (number b :: s, inputs b) ltac:(rewrite <- Ew; exact Rd)) as R1.
    pose proof (ready_bound1 sess out _ (ctx w) _ p (number b :: t, targets b) R1) as R2.
    assert (Ewh : whob = who_new (who_new who (length (hp s0)) OLeaf) (length (hp s0 ++ [inputs b])) OLeaf) by (unfold whob, n0; rewrite app_length, Nat.add_1_r; reflexivity).
    rewrite <- Ewh in R2 || (cbn [set_holders set_hp hp fst snd] in R2; rewrite <- Ewh in R2). split; [|exact R2].
    assert (X : forall r, r < n0 -> whob r = who r) by (intros r Hr; unfold whob, who_new; rewrite !(proj2 (Nat.ltb_lt _ _)) by lia; reflexivity).
    assert (XL : forall r, who r = OLeaf -> whob r = OLeaf) by (intros r Hr; unfold whob, who_new; destruct (r <? S n0), (r <? n0); auto).
    destruct Rd as [(S1 & S2 & S3 & S4 & S5) Or Rv Rl Ri Rc Rh Rt]. fold s0 in S1, S2, S3, S4, S5, Rl, Ri, Rc, Rh, Rt. constructor; fold s0; auto; [|intros; apply XL; eauto..].
    split; [|split; [|split; [|split]]].
    - intros k v Hk. destruct (S1 k v Hk) as (Q1 & Q2 & Q3). rewrite (X _ Q3). auto.
    - intros; apply XL; eauto.
    - intros; apply XL; eauto.
    - intros k q Hk. destruct (S4 k q Hk). rewrite X by (unfold n0; assumption). auto.
    - intros k bb q Hk. destruct (S5 k bb q Hk). rewrite X by (unfold n0; assumption). auto. }
  destruct Rd0 as [Rd0 Rb].
  destruct (bound_keeps fd s0) as (BV & BO & BT & BL & BF). fold sb in BV, BO, BT, BL, BF.
  assert (Hh0 : e_hold (env_of sb) 0 = Some (number b :: s, inputs b)).
  { unfold sb, fd, feed. cbn [bound env_of e_hold set_holders holders set_hp hp fst snd]. unfold fupd. rewrite (proj2 (Nat.eqb_neq 0 p)) by lia. cbn [Nat.eqb]. f_equal. unfold val_of. cbn [shape ref]. f_equal.
    rewrite app_nth1 by (rewrite app_length; cbn; lia). rewrite app_nth2, Nat.sub_diag by lia. reflexivity. }
  assert (Hhp : holders sb p = Some (mkT (number b :: t) (S n0))).
  { unfold sb, fd, feed. cbn [bound set_holders holders set_hp hp fst snd]. unfold fupd. rewrite Nat.eqb_refl, app_length. cbn [length]. f_equal. f_equal. unfold n0. lia. }
  assert (Htgt : nth_error (hp sb) (S n0) = Some (targets b)).
  { unfold sb, fd, feed. cbn [bound set_holders set_hp hp fst snd]. rewrite nth_error_app2 by (rewrite app_length; cbn; unfold n0; lia).
    rewrite app_length. cbn [length]. replace (S n0 - (length (hp s0) + 1)) with 0 by (unfold n0; lia). reflexivity. }
  assert (Gv : given s ps (number b) (env_of sb)).
  { split.
    - cbn [leaf_of]. rewrite Hh0. split; [reflexivity|]. cbn [adata fst snd]. rewrite Li. cbn [prod fold_right]. reflexivity.
    - intros v q Hq. assert (Hv : v < length ps) by (apply nth_error_Some; congruence).
      destruct (proj1 (Se v) Hv) as [f Hf]. cbn [leaf_of env_of e_var]. unfold val_of. cbn [fst snd]. rewrite BV. split; cbn [ashape adata]; [now apply Sh|].
      destruct (t_live _ _ (o_tidy _ _ (r_ord _ _ _ _ Rd) v f Hf) (ref (vdata (vars s0 v)))) as [Q1 Q2]; [right; now left|].
      rewrite <- (Sh v q Hq). fold s0. rewrite BF by exact Q1. exact Q2. }
  assert (Pm : map (fun v => snd (e_var (env_of sb) v)) (seq 0 (length ps)) = parameters (length ps) w) by (apply (fed_params w who b Rd); intros v Hv; now apply Se).
  assert (Dm : forall k, denoted eps ls s (number b) (length ps) (env_of sb) k = made_of eps ls s (parameters (length ps) w) b k) by (intros k; rewrite (denoted_made _ b Hh0), Pm; reflexivity).
  assert (Te' : forall k l, nth_error ls k = Some l -> teachable act l (denoted eps ls s (number b) (length ps) (env_of sb) k)) by (intros k l Hl; rewrite Dm; now apply Te).
  destruct (last_expression act dbg eps m s ls ts ps ns (number b) M W WF B B1 B2 (env_of sb) Gv Te') as (Mn & H). destruct (H 4) as ((E & F) & N).
  destruct (fine_trainable dbg _ sb F (graph_tree act (last ns (Leaf 0)) 4)) as [Tt Rt].
  pose proof (denoted_last _ _ B1 B2 Gv) as Ef.
  assert (E' : evalR (env_of sb) out = Some (shape (mkT (number b :: t) (S n0)), predictions eps ls s (parameters (length ps) w) b)).
  { rewrite E. f_equal. rewrite (surjective_pairing (denoted _ _ _ _ _ _ _)), Ef. cbn [shape]. f_equal. now rewrite Dm. }
  assert (As : aside sb out (S n0)).
  { split; [|split].
    - intros k v Hk Q. rewrite BV in Q. destruct (r_vars _ _ _ _ Rd k v Hk) as [f Hf].
      destruct (t_live _ _ (o_tidy _ _ (r_ord _ _ _ _ Rd) v f Hf) (ref (vdata (vars s0 v)))) as [Q1 _]; [right; now left|]. fold s0 in Q1. unfold n0 in Q. lia.
    - intros k q u Hk Q. destruct (only_input act _ 4 _ k _ Hk eq_refl) as [Z _]. rewrite (Z q eq_refl) in Q. unfold sb, fd, feed in Q. cbn [bound set_holders holders set_hp hp fst snd] in Q. unfold fupd in Q.
      rewrite (proj2 (Nat.eqb_neq 0 p)) in Q by lia. cbn [Nat.eqb] in Q. injection Q as <-. cbn [ref]. unfold n0. lia.
    - intros k u Hk. destruct (only_input act _ 4 _ k _ Hk eq_refl) as [_ Z]. now destruct (Z u). }
  assert (Wt : whob (S n0) = OLeaf) by (unfold whob, who_new; rewrite (proj2 (Nat.ltb_ge _ _)) by lia; reflexivity).
  assert (Lt' : length (targets b) = prod (shape (mkT (number b :: t) (S n0)))) by (rewrite Lt; reflexivity).
  pose proof (C58_training dbg eps loss h wgt c 0 p (mkT (number b :: t) (S n0)) out sb whob (targets b) _ Hin Tt (r_sep _ _ _ _ Rb) (ready_graded _ _ _ _ Rb) Rt
    (r_train _ _ _ _ Rb) (loss_ids act loss h wgt c p _ Hin) Hhp Wt As Htgt Lt' ltac:(discriminate) E' Dh) as T. cbn [ref shape] in T.
  assert (Ao : exists k, At e k out).
  { cbn [difference_losses In] in Hin. destruct Hin as [Q|[Q|[Q|[Q|[]]]]]; injection Q as <- _ _ _; eexists; eapply At_un, At_right, At_un, At_un, At_root. }
  destruct Ao as (k0 & Ao).
  destruct (loss_batch dbg eps sess e out w whob fd o (S n0) _ _ _ _ Rd0 Rb ltac:(unfold n0; fold s0; lia) T) as (y & s1 & w' & who' & TB & R1 & V1 & Rd' & St' & _ & [Nv Nf Nm Ns]).
  { intros v f Hf. destruct (mentions_at act out _ v (Mn v ltac:(apply Se; eauto)) 4 None (At_root _)) as (k & Hk). eauto. } { exact St. }
  exists y, w', who'. split; [exact TB|]. split; [exact Rd'|]. split; [exact St'|]. split; [exact Nv|]. split; [exact Nf|].
  split; [exists y, s1; split; [exact R1|exact V1]|]. split; [|intros v Hv; now apply Ns].
  intros v Hv. destruct (Nm v Hv) as (Q1 & _ & Q3). split; [exact Q1|]. intros i Hi. destruct (Q3 i Hi) as (g & Dg & Mg). exists g. split; [|exact Mg].
  intros Tr Hx. assert (Hvp : v < length ps) by (apply Se; eauto). destruct (mentions_at act e _ v (Mn v Hvp) 4 k0 Ao) as (k & Hk).
  destruct (Dg k Hk Tr Hx) as (l & De & Ex). unfold exactly in Ex. rewrite Ex. revert De. apply is_derive_ext. intros z. fold s0 fd sb. rewrite N. cbn [spread_of].
  f_equal. f_equal. f_equal. unfold predictions. rewrite <- Pm, <- (nudged_params (env_of sb) v i z Hvp). f_equal. apply denoted_made. exact Hh0.
Qed.

Lemma reach w who o batches : ready sess out w who -> shaped_as w -> (forall v, v < length ps <-> exists b, In (v, b) sess) -> (forall v, In (v, true) sess -> stocked (alg o) w v) ->
  (forall b, In b batches -> fits m s t b) ->
  let feeds := map (feed s t p) batches in let at_ := world_after dbg eps sess e feeds o w in
  forall k, k <= length batches -> (forall j b', j < k -> nth_error batches j = Some b' -> learnable act eps h ls s (parameters (length ps) (at_ j)) b') ->
    train dbg eps sess e (firstn k feeds) o w = Ok (after o k, at_ k) /\ (exists who', ready sess out (at_ k) who') /\ (forall v, In (v, true) sess -> stocked (alg o) (at_ k) v) /\
    (forall v, vars (gr (at_ k)) v = vars (gr w) v) /\
    (forall q, trainable (vobjs (gr (at_ k)) q) = trainable (vobjs (gr w) q) /\ l1 (vobjs (gr (at_ k)) q) = l1 (vobjs (gr w) q) /\ l2 (vobjs (gr (at_ k)) q) = l2 (vobjs (gr w) q)) /\
    (forall j b', k = S j -> nth_error batches j = Some b' -> fitted (after o j) b' (at_ j) (at_ k)).
Proof.
  intros Rd Sh Se St Hf feeds at_.
  induction k as [|k IH]; intros Hk Hl.
    - unfold at_, world_after. cbn [firstn train oret after]. split; [reflexivity|]. split; [eauto|]. split; [exact St|]. split; [reflexivity|]. split; [auto|discriminate].
    - destruct IH as (I1 & (who1 & I2) & I3 & I4 & I5 & _); [lia|intros j b' Hj; apply Hl; lia|].
      destruct (nth_error batches k) as [b|] eqn:Eb; [|apply nth_error_None in Eb; lia].
      assert (Sh1 : shaped_as (at_ k)) by (intros v q Hq; rewrite I4; now apply Sh).
      assert (St1 : forall v, In (v, true) sess -> stocked (alg (after o k)) (at_ k) v) by (intros v Hv; rewrite (proj1 (after_alg o k)); now apply I3).
      destruct (one_batch (at_ k) who1 (after o k) b I2 Sh1 Se St1 (Hf b (nth_error_In _ _ Eb)) (Hl k b ltac:(lia) Eb)) as (y & w' & who' & TB & Rd' & St' & V' & F' & Ft).
      assert (Ef : firstn (S k) feeds = firstn k feeds ++ [feed s t p b]).
      { assert (En : nth_error feeds k = Some (feed s t p b)) by (unfold feeds; now apply map_nth_error). clear - En. revert k En. induction feeds as [|f fs IHf]; intros [|k] En; try discriminate; cbn in *; [congruence|]. now rewrite IHf. }
      pose proof (train_snoc dbg eps sess e _ _ _ _ _ _ _ _ _ I1 TB) as T. rewrite <- Ef in T.
      assert (Ew : at_ (S k) = w') by (unfold at_, world_after; now rewrite T). rewrite Ew. rewrite (proj1 (after_alg o k)) in St'.
      split; [exact T|]. split; [eauto|]. split; [exact St'|]. split; [intros v; now rewrite V'|]. split.
      + intros q. destruct (F' q) as (-> & -> & ->). apply I5.
      + intros j b' [= <-] Ej. rewrite Eb in Ej. injection Ej as <-. exact Ft.
Qed.

Lemma docile_learnable w who b : ready sess out w who -> shaped_as w -> (forall v, v < length ps <-> exists b, In (v, b) sess) -> fits m s t b ->
  (forall k l tk, nth_error ls k = Some l -> nth_error ts k = Some tk -> docile act l tk) -> (forall x, ex_derive h x) -> length ls <= length ts ->
  learnable act eps h ls s (parameters (length ps) w) b.
Proof.
  intros Rd Sh Se Ft Dl Dh Ll. split; [|intros i _; apply Dh]. intros k l Hl.
  destruct (nth_error ts k) as [tk|] eqn:Et; [|apply nth_error_None in Et; assert (k < length ls) by (apply nth_error_Some; congruence); lia].
  destruct (made_sized w who b k tk Rd Sh Se Ft Et) as [Ef El]. specialize (Dl k l tk Hl Et).
  destruct l; cbn [docile teachable] in *; auto.
  - split; [tauto|]. now apply Dl.
  - rewrite Ef. exact Dl.
Qed.

Theorem all_batches w who o batches : ready sess out w who -> shaped_as w -> (forall v, v < length ps <-> exists b, In (v, b) sess) -> (forall v, In (v, true) sess -> stocked (alg o) w v) ->
  (forall b, In b batches -> fits m s t b) ->
  let feeds := map (feed s t p) batches in let at_ := world_after dbg eps sess e feeds o w in
  forall k b, nth_error batches k = Some b ->
    (forall j b', j <= k -> nth_error batches j = Some b' -> learnable act eps h ls s (parameters (length ps) (at_ j)) b') ->
    train dbg eps sess e (firstn (S k) feeds) o w = Ok (after o (S k), at_ (S k)) /\ fitted (after o k) b (at_ k) (at_ (S k)) /\
    (forall v, vars (gr (at_ k)) v = vars (gr w) v) /\
    (forall q, trainable (vobjs (gr (at_ k)) q) = trainable (vobjs (gr w) q) /\ l1 (vobjs (gr (at_ k)) q) = l1 (vobjs (gr w) q) /\ l2 (vobjs (gr (at_ k)) q) = l2 (vobjs (gr w) q)).
Proof.
  intros Rd Sh Se St Hf feeds at_.
  pose proof (reach w who o batches Rd Sh Se St Hf) as A. cbv zeta in A. fold feeds in A. fold at_ in A.
  intros k b Eb Hl. assert (Hk : k < length batches) by (apply nth_error_Some; congruence).
  destruct (A (S k) ltac:(lia)) as (A1 & _ & _ & _ & _ & A6); [intros j b' Hj; apply Hl; lia|].
  destruct (A k ltac:(lia)) as (_ & _ & _ & A4 & A5 & _); [intros j b' Hj; apply Hl; lia|].
  split; [exact A1|]. split; [now apply A6|]. split; [exact A4|exact A5].
Qed.
End Fit.
