(** Proofs about fit: a batch from tensors already bound, an epoch, and epoch after epoch. *)
From Coq Require Import List Arith Lia Bool PeanoNat NArith ZArith Reals Lra.
From Coquelicot Require Import Rcomplements Rbar Hierarchy Derive.
From Coquelicot Require AutoDerive.
From Verif Require Import PairSpec PairProps XentSpec XentProps.
From Verif Require Import FitModel FitSpec.
From Verif Require Import ListBase Loops TensorModel TensorSpec ArrayModel LayerModel LayerSpec LayerProofs GraphModel GraphSpec GraphProofs GraphProofs3 GradSpec GradProofs OpModel CalcSpec
  OpProofs OpProps GradProps ComplexModel LossModel LossSpec LossProps DeclModel NetModel NetSpec ValueModel ValueSpec NetProofs3 NetProps ValueProofs3
  ValueProps LearnModel LearnSpec LearnProofs LearnProofs2 LearnProofs3 LearnProps OptModel OptSpec OptProofs2 OptProps TrainSpec TrainProofs.
From Verif Require Import FittingSpec FittingProofs EpochModel.
Import ListNotations.
Local Open Scope nat_scope.

Lemma nth_upd_other {A} (l : list (list A)) a d r : r <> a -> nth r (upd l a d) [] = nth r l [].
Proof.
  intros Ne. revert a r Ne. induction l as [|x l IH]; intros [|a] [|r] Ne; cbn; try reflexivity; try congruence. apply IH. congruence.
Qed.

(** overwriting a storage that belongs to no variable *)
Lemma ready_upd sess e w who a d : ready sess e w who -> (forall v b, In (v, b) sess -> ~ In a (foot w v)) ->
  ready sess e (W (set_hp (gr w) (upd (hp (gr w)) a d)) (ctx w)) who.
Proof.
  intros [(S1 & S2 & S3 & S4 & S5) [O1 O2 O3] Rv Rl Ri Rc Rh Rt] Na.
  assert (L : length (upd (hp (gr w)) a d) = length (hp (gr w))) by apply upd_length.
  constructor; cbn [gr ctx set_hp vars holders own ownb training]; auto.
  - split; [|split; [|split; [|split]]]; cbn [gr ctx set_hp hp vars holders own ownb training]; rewrite ?L; auto.
  - constructor; [exact O1| |exact O3]. intros v b Hv. destruct (O2 v b Hv) as [T1 T2 T3 T4]. constructor; cbn [gr ctx set_hp vars hp]; auto.
    intros r Hr. rewrite L. destruct (T3 r Hr) as [Q1 Q2]. split; [exact Q1|]. unfold count. cbn [gr set_hp vars]. rewrite nth_upd_other; [exact Q2|].
    intros ->. exact (Na v b Hv Hr).
  - intros k t Hk. cbn [hp set_hp]. rewrite L. exact (Rc k t Hk).
  - intros k p t Hk Et. cbn [hp set_hp]. rewrite L. exact (Rh k p t Hk Et).
Qed.

Section Fit.
Variables (act : (R -> R) -> uop R) (dbg : bool) (eps : R) (m : nat) (s : list nat) (ls : list layer1) (ts : list (list nat)) (ps : list (list nat)) (ns : list ex).
Variables (n0 : nat) (L : comparison) (p : nat) (sess : list (nat * bool)).
Hypotheses (M : (N.of_nat m < 2147483648)%N) (W : NetSpec.within m s) (WF : well_formed m [s] (chain ls) ts ps) (B : build dbg (map N.of_nat s) (chain ls) = Ok (Net ns ps))
  (HL : law dbg eps n0 L) (Hp0 : p <> 0) (Se : forall v, v < length ps <-> exists b, In (v, b) sess).
Notation out := (graph act n0 (last ns (Leaf 0))).
Notation e := (term L 0 (EHold p) out).
Notation t := (last ts []).
Notation shaped w := (forall v q, nth_error ps v = Some q -> shape (vdata (vars (gr w) v)) = q).

Lemma last_shape : nth_error ts (length ls) = Some t /\ length ls <= length ts.
Proof.
  destruct (all_sound dbg m s ls ts ps ns M W WF B) as [Sn _]. pose proof (Forall2_len _ _ _ Sn) as Ln.
  destruct (LearnProofs3.built dbg m s ls ps ns M W B) as (_ & E & _).
  destruct (chain_ind dbg m s M ls 0 [s] ts ps [Leaf 0] [] ns WF ltac:(auto) (leaf_sound m s W) eq_refl E (fun _ _ _ => True)) as (L1 & L2 & _); [easy|easy|].
  cbn [Nat.add] in L1, L2. split; [|lia]. destruct (nth_error ts (length ls)) as [t0|] eqn:Et; [|apply nth_error_None in Et; lia].
  destruct (exists_last (l := ts)) as (l' & a & El); [intros ->; destruct (length ls); discriminate|]. rewrite El, last_last. rewrite El in Et, L2. rewrite app_length in L2. cbn [length] in L2.
  rewrite nth_error_app2 in Et by lia. replace (length ls - length l') with 0 in Et by lia. cbn in Et. congruence.
Qed.

(** one batch's effect on the weights *)
Definition lesson (o : opt) (b : batch) (w w' : world) : Prop :=
  (forall v, In (v, true) sess -> length (weights w' v) = count w v /\
    forall i, i < count w v -> exists g,
      ((forall k, At e k (EVar v) -> trainable (vobjs (gr w) k) = true) ->
       (nth i (weights w v) 0%R <> 0%R \/ forall k, At e k (EVar v) -> (l1 (vobjs (gr w) k) < eps)%R) ->
       let f z := predictions eps ls s (with_element (parameters (length ps) w) v i z) b in
       exists l, is_derive (fun z => objective L (number b :: t) (targets b) (f z) + cost eps (vobjs (gr w)) v (uses None e) z)%R (nth i (weights w v) 0%R) l /\
         near L (number b :: t) f (nth i (weights w v) 0%R) g l) /\
      (memory w' v i, nth i (weights w' v) 0%R) = move (alg o) eps (next_rate o) (steps o) (memory_or_new (alg o) w v i) (nth i (weights w v) 0%R) g) /\
  (forall v, In (v, false) sess -> weights w' v = weights w v).

(** the two tensors are bound, and belong to no variable *)
Record holding (tx ty : tensor) (w : world) (who : nat -> owner) (dx dy : list R) : Prop := {
  h_x : holders (gr w) 0 = Some tx;
  h_y : holders (gr w) p = Some ty;
  h_dx : nth_error (hp (gr w)) (ref tx) = Some dx;
  h_dy : nth_error (hp (gr w)) (ref ty) = Some dy;
  h_ne : ref tx <> ref ty;
  h_wx : who (ref tx) = OLeaf;
  h_wy : who (ref ty) = OLeaf;
  h_fx : forall v b, In (v, b) sess -> ~ In (ref tx) (foot w v);
  h_fy : forall v b, In (v, b) sess -> ~ In (ref ty) (foot w v)
}.

Lemma one_bound w who o b tx ty : ready sess out w who -> shaped w -> (forall v, In (v, true) sess -> stocked (alg o) w v) ->
  fits m s t b -> fittable act eps L ls s t (parameters (length ps) w) b -> holding tx ty w who (inputs b) (targets b) -> shape tx = number b :: s -> shape ty = number b :: t ->
  exists y s1 w' who' rest, run 0%R 1%R Rplus Rmult dbg e (gr w) = Ok (y, s1) /\ val_of (hp s1) y = ([1], [value L (number b :: t) (targets b) (predictions eps ls s (parameters (length ps) w) b)]) /\
    train_batch dbg eps sess e [] o w = Ok (y, Opt (alg o) (next_rate o) (S (steps o)), w') /\ ready sess out w' who' /\
    (forall v, In (v, true) sess -> stocked (alg o) w' v) /\ (forall v, vars (gr w') v = vars (gr w) v) /\
    (forall k, trainable (vobjs (gr w') k) = trainable (vobjs (gr w) k) /\ l1 (vobjs (gr w') k) = l1 (vobjs (gr w) k) /\ l2 (vobjs (gr w') k) = l2 (vobjs (gr w) k)) /\
    length rest = length (targets b) /\ holding tx ty w' who' (inputs b) rest /\ lesson o b w w'.
Proof.
  intros Rd Sh St Ft Fi Ho Sx Sy. pose proof Ft as (B1 & B2 & Li & Lt). destruct Fi as [Te Dh]. destruct Ho as [Hx Hy Hdx Hdy Hne Hwx Hwy Hfx Hfy].
  set (s0 := gr w) in *.
  assert (Hh0 : e_hold (env_of s0) 0 = Some (number b :: s, inputs b)).
  { cbn [env_of e_hold]. rewrite Hx. unfold val_of. rewrite Sx. rewrite (nth_error_nth _ _ [] Hdx). reflexivity. }
  assert (Gv : given s ps (number b) (env_of s0)).
  { split.
    - cbn [leaf_of]. rewrite Hh0. split; [reflexivity|]. cbn [adata fst snd]. rewrite Li. cbn [prod fold_right]. reflexivity.
    - intros v q Hq. assert (Hv : v < length ps) by (apply nth_error_Some; congruence).
      destruct (proj1 (Se v) Hv) as [f Hf]. cbn [leaf_of env_of e_var]. unfold val_of. cbn [fst snd]. split; cbn [ashape adata]; [now apply Sh|].
      destruct (t_live _ _ (o_tidy _ _ (r_ord _ _ _ _ Rd) v f Hf) (ref (vdata (vars s0 v)))) as [Q1 Q2]; [right; now left|].
      rewrite <- (Sh v q Hq). exact Q2. }
  assert (Pm : map (fun v => snd (e_var (env_of s0) v)) (seq 0 (length ps)) = parameters (length ps) w) by reflexivity.
  assert (Dm : forall k, denoted eps ls s (number b) (length ps) (env_of s0) k = made_of eps ls s (parameters (length ps) w) b k) by (intros k; rewrite (denoted_made eps s ls ps _ b Hh0), Pm; reflexivity).
  assert (Te' : forall k l, nth_error ls k = Some l -> teachable act l (denoted eps ls s (number b) (length ps) (env_of s0) k)) by (intros k l Hl; rewrite Dm; now apply Te).
  destruct (last_expression act dbg eps m s ls ts ps ns (number b) M W WF B B1 B2 (env_of s0) Gv Te') as (Mn & H). destruct (H n0) as ((E & F) & N).
  destruct (fine_trainable dbg _ s0 F (graph_tree act (last ns (Leaf 0)) n0)) as [Tt Rt].
  pose proof (denoted_last dbg eps m s ls ts ps ns p M W WF B Hp0 _ _ B1 B2 Gv) as Ef.
  assert (E' : evalR (env_of s0) out = Some (shape ty, predictions eps ls s (parameters (length ps) w) b)).
  { rewrite E. f_equal. rewrite (surjective_pairing (denoted _ _ _ _ _ _ _)), Ef, Sy. f_equal. now rewrite Dm. }
  assert (As : aside s0 out (ref ty)).
  { split; [|split].
    - intros k v Hk Q. destruct (r_vars _ _ _ _ Rd k v Hk) as [f Hf]. apply (Hfy v f Hf). rewrite <- Q. right. now left.
    - intros k q u Hk Q. destruct (only_input act _ n0 _ k _ Hk eq_refl) as [Z _]. rewrite (Z q eq_refl) in Q. rewrite Hx in Q. injection Q as <-. exact Hne.
    - intros k u Hk. destruct (only_input act _ n0 _ k _ Hk eq_refl) as [_ Z]. now destruct (Z u). }
  assert (Lt' : length (targets b) = prod (shape ty)) by (rewrite Lt, Sy; reflexivity).
  assert (Lp : length (predictions eps ls s (parameters (length ps) w) b) = length (targets b)).
  { destruct (made_sized act dbg eps m s ls ts ps ns n0 p sess M W WF B Hp0 w who b (length ls) t Rd Sh Se Ft (proj1 last_shape)) as [M1 M2].
    unfold predictions. rewrite M2, M1, Lt. reflexivity. }
  assert (Dh' : domain L (shape ty) (targets b) (predictions eps ls s (parameters (length ps) w) b)) by (rewrite Sy; exact Dh).
  destruct (l_train _ _ _ _ HL p ty out s0 who (targets b) _ Tt (r_sep _ _ _ _ Rd) (ready_graded _ _ _ _ Rd) Rt
    (r_train _ _ _ _ Rd) (l_ids _ _ _ _ HL act _ p) Hy Hwy As Hdy Lt' ltac:(rewrite Sy; discriminate) E' Dh') as (rest & Lr & T). rewrite Sy in T.
  destruct (l_at _ _ _ _ HL (EHold p) out) as (k0 & Ao).
  destruct (loss_batch_at dbg eps sess e out w who [] o (ref ty) _ _ _ _ Rd ltac:(now destruct w) Hfy T) as (y & s1 & w' & who' & TB & R1 & V1 & Rd' & St' & Hh' & [Nv Nf Nm Ns] & X).
  { intros v f Hf. destruct (mentions_at act out _ v (Mn v ltac:(apply Se; eauto)) n0 None (At_root _)) as (k & Hk). eauto. } { exact St. }
  cbn [bound] in R1, Hh', X. cbv zeta in X. fold s0 in X. destruct X as (X1 & X2 & X3 & X4 & X5).
  assert (Lx : ref tx < length (hp s0)) by (apply nth_error_Some; congruence). assert (Ly : ref ty < length (hp s0)) by (apply nth_error_Some; congruence).
  exists y, s1, w', who', rest. split; [exact R1|]. split; [exact V1|]. split; [exact TB|]. split; [exact Rd'|]. split; [exact St'|]. split; [exact Nv|]. split; [exact Nf|].
  split; [now apply Lr|]. split.
  - constructor; auto.
    + now rewrite Hh'.
    + now rewrite Hh'.
    + rewrite X3; auto.
    + intros v f Hv Q. destruct (X5 v _ Q) as [Q'|Q']; [exact (Hfx v f Hv Q')|lia].
    + intros v f Hv Q. destruct (X5 v _ Q) as [Q'|Q']; [exact (Hfy v f Hv Q')|lia].
  - split; [|intros v Hv; now apply Ns].
    intros v Hv. destruct (Nm v Hv) as (Q1 & _ & Q3). split; [exact Q1|]. intros i Hi. destruct (Q3 i Hi) as (g & Dg & Mg). exists g. split; [|exact Mg].
    intros Tr Hxx. assert (Hvp : v < length ps) by (apply Se; eauto). destruct (mentions_at act e _ v (Mn v Hvp) n0 k0 Ao) as (k & Hk).
    destruct (Dg k Hk Tr Hxx) as (l & De & Ex). cbv zeta. exists l. cbn [bound] in De, Ex. fold s0 in De, Ex.
    assert (Xp : forall z, pred_of (evalR (nudge (env_of s0) v i z) out) = predictions eps ls s (with_element (parameters (length ps) w) v i z) b).
    { intros z. rewrite N. cbn [pred_of]. unfold predictions. rewrite <- Pm, <- (nudged_params ps (env_of s0) v i z Hvp). f_equal. apply denoted_made. exact Hh0. }
    split.
    + revert De. apply is_derive_ext. intros z. now rewrite Xp.
    + revert Ex. now apply (l_ext _ _ _ _ HL).
Qed.
End Fit.
