(** Proofs about fit and evaluate: batches that are measured but not trained on. *)
From Coq Require Import List Arith Lia Bool PeanoNat NArith ZArith Reals Lra.
From Coquelicot Require Import Rcomplements Rbar Hierarchy Derive.
From Coquelicot Require AutoDerive.
From Verif Require Import PairSpec PairProps XentSpec XentProps.
From Verif Require Import FitModel FitSpec.
From Verif Require Import ListBase Loops TensorModel TensorSpec ArrayModel LayerModel LayerSpec LayerProofs GraphModel GraphSpec GraphProofs GraphProofs3 GradSpec GradProofs OpModel CalcSpec
  OpProofs OpProps GradProps ComplexModel LossModel LossSpec LossProps DeclModel NetModel NetSpec ValueModel ValueSpec NetProofs3 NetProps ValueProofs3
  ValueProps LearnModel LearnSpec LearnProofs LearnProofs2 LearnProofs3 LearnProps OptModel OptSpec OptProofs2 OptProps TrainSpec TrainProofs.
From Verif Require Import FittingSpec FittingProofs EpochModel EpochProofs EpochProofs2 EvalModel EvalProofs.
Import ListNotations.
Local Open Scope nat_scope.

(** the world in the learning phase or the prediction phase *)
Definition phased (bt : bool) (w : world) : world := OptModel.W (set_training (gr w) bt) (ctx w).

Section Fit.
Variables (act : (R -> R) -> uop R) (dbg : bool) (eps : R) (m : nat) (s : list nat) (ls : list layer1) (ts : list (list nat)) (ps : list (list nat)) (ns : list ex).
Variables (n0 : nat) (L : comparison) (p : nat) (sess : list (nat * bool)).
Hypotheses (M : (N.of_nat m < 2147483648)%N) (W : NetSpec.within m s) (WF : well_formed m [s] (chain ls) ts ps) (B : build dbg (map N.of_nat s) (chain ls) = Ok (Net ns ps))
  (HL : law dbg eps n0 L) (Hp0 : p <> 0) (Se : forall v, v < length ps <-> exists b, In (v, b) sess)
  (HM : forall a b, made_from a b (term L 0 a b)).
Notation out := (graph act n0 (last ns (Leaf 0))).
Notation e := (term L 0 (EHold p) out).
Notation t := (last ts []).
Notation shaped w := (forall v q, nth_error ps v = Some q -> shape (vdata (vars (gr w) v)) = q).

Lemma look_bound bt w who b tx ty : ready sess out w who -> shaped w ->
  fits m s t b -> fittable act eps L ls s t (parameters (length ps) w) b -> holding p sess tx ty w who (inputs b) (targets b) -> shape tx = number b :: s -> shape ty = number b :: t ->
  exists y s1 who' rest, run 0%R 1%R Rplus Rmult dbg e (set_training (gr w) bt) = Ok (y, s1) /\ val_of (hp s1) y = ([1], [value L (number b :: t) (targets b) (predictions eps ls s (parameters (length ps) w) b)]) /\
    training s1 = bt /\ let w' := OptModel.W (set_training (set_cache s1 no_cache) true) (ctx w) in
    ready sess out w' who' /\ (forall v, vars (gr w') v = vars (gr w) v) /\
    (forall k, trainable (vobjs (gr w') k) = trainable (vobjs (gr w) k) /\ l1 (vobjs (gr w') k) = l1 (vobjs (gr w) k) /\ l2 (vobjs (gr w') k) = l2 (vobjs (gr w) k)) /\
    length rest = length (targets b) /\ holding p sess tx ty w' who' (inputs b) rest /\
    forall v f, In (v, f) sess -> weights w' v = weights w v /\ forall i, memory w' v i = memory w v i.
Proof.
  intros Rd Sh Ft Fi Ho Sx Sy. pose proof Ft as (B1 & B2 & Li & Lt). destruct Fi as [Te Dh]. destruct Ho as [Hx Hy Hdx Hdy Hne Hwx Hwy Hfx Hfy].
  set (s0 := gr w) in *.
  assert (Hh0 : e_hold (env_of s0) 0 = Some (number b :: s, inputs b)).
  { cbn [env_of e_hold]. rewrite Hx. unfold val_of. rewrite Sx. rewrite (nth_error_nth _ _ [] Hdx). reflexivity. }
  assert (Gv : given s ps (number b) (env_of s0)).
  { split.
    - cbn [leaf_of]. rewrite Hh0. split; [reflexivity|]. cbn [adata fst snd]. rewrite Li. cbn [prod fold_right]. reflexivity.
    - intros v q Hq. assert (Hv : v < length ps) by (apply nth_error_Some; congruence).
      destruct (proj1 (Se v) Hv) as [f Hf]. cbn [leaf_of env_of e_var]. unfold val_of. cbn [fst snd]. split; cbn [ashape adata]; [now apply Sh|].
      destruct (t_live _ _ (o_tidy _ _ (r_ord _ _ _ _ Rd) v f Hf) (ref (vdata (vars s0 v)))) as [Q1 Q2]; [right; now left|].
      rewrite <- (Sh v q Hq). exact Q2. }
  assert (Pm : map (fun v => snd (e_var (env_of s0) v)) (seq 0 (length ps)) = parameters (length ps) w) by reflexivity.
  assert (Dm : forall k, denoted eps ls s (number b) (length ps) (env_of s0) k = made_of eps ls s (parameters (length ps) w) b k) by (intros k; rewrite (denoted_made eps s ls ps _ b Hh0), Pm; reflexivity).
  assert (Te' : forall k l, nth_error ls k = Some l -> teachable act l (denoted eps ls s (number b) (length ps) (env_of s0) k)) by (intros k l Hl; rewrite Dm; now apply Te).
  destruct (last_expression act dbg eps m s ls ts ps ns (number b) M W WF B B1 B2 (env_of s0) Gv Te') as (Mn & H). destruct (H n0) as ((E & F) & N).
  destruct (fine_trainable dbg _ s0 F (graph_tree act (last ns (Leaf 0)) n0)) as [Tt Rt].
  pose proof (denoted_last dbg eps m s ls ts ps ns p M W WF B Hp0 _ _ B1 B2 Gv) as Ef.
  assert (E' : evalR (env_of s0) out = Some (shape ty, predictions eps ls s (parameters (length ps) w) b)).
  { rewrite E. f_equal. rewrite (surjective_pairing (denoted _ _ _ _ _ _ _)), Ef, Sy. f_equal. now rewrite Dm. }
  assert (As : aside s0 out (ref ty)).
  { split; [|split].
    - intros k v Hk Q. destruct (r_vars _ _ _ _ Rd k v Hk) as [f Hf]. apply (Hfy v f Hf). rewrite <- Q. right. now left.
    - intros k q u Hk Q. destruct (only_input act _ n0 _ k _ Hk eq_refl) as [Z _]. rewrite (Z q eq_refl) in Q. rewrite Hx in Q. injection Q as <-. exact Hne.
    - intros k u Hk. destruct (only_input act _ n0 _ k _ Hk eq_refl) as [_ Z]. now destruct (Z u). }
  assert (Lt' : length (targets b) = prod (shape ty)) by (rewrite Lt, Sy; reflexivity).
  assert (Dh' : domain L (shape ty) (targets b) (predictions eps ls s (parameters (length ps) w) b)) by (rewrite Sy; exact Dh).
  destruct (l_train _ _ _ _ HL p ty out s0 who (targets b) _ Tt (r_sep _ _ _ _ Rd) (ready_graded _ _ _ _ Rd) Rt
    (r_train _ _ _ _ Rd) (l_ids _ _ _ _ HL act _ p) Hy Hwy As Hdy Lt' ltac:(rewrite Sy; discriminate) E' Dh') as (rest & Lr & T). rewrite Sy in T.
  assert (Lx : ref tx < length (hp s0)) by (apply nth_error_Some; congruence). assert (Ly : ref ty < length (hp s0)) by (apply nth_error_Some; congruence).
  assert (Oc : forall v f, In (v, f) sess -> exists k, At out k (EVar v)).
  { intros v f Hf. destruct (mentions_at act out _ v (Mn v ltac:(apply Se; eauto)) n0 None (At_root _)) as (k & Hk). eauto. }
  assert (Rd0 : ready sess out (OptModel.W s0 (ctx w)) who) by (now destruct w).
  destruct (looked dbg eps sess e out s0 (ctx w) who p ty _ rest _ _ bt Rd0 Oc Hfy (HM _ _) Hy Ly Hwy T) as (y & s1 & who1 & R1 & V1 & Rd' & T1 & Vs & Hd & Lh & Fl & Ra & Lf & Wh).
  exists y, s1, who1, rest. split; [exact R1|]. split; [exact V1|]. split; [exact T1|]. cbv zeta. split; [exact Rd'|]. cbn [gr ctx set_training set_cache vars vobjs]. split; [intros v; now rewrite Vs|]. split; [exact Fl|].
  assert (Lp : length (predictions eps ls s (parameters (length ps) w) b) = length (targets b)).
  { destruct (made_sized act dbg eps m s ls ts ps ns n0 p sess M W WF B Hp0 w who b (length ls) t Rd Sh Se Ft (proj1 (last_shape dbg m s ls ts ps ns p M W WF B Hp0))) as [M1 M2].
    unfold predictions. rewrite M2, M1, Lt. reflexivity. }
  split; [now apply Lr|].
  assert (Eft : forall v, foot (OptModel.W (set_training (set_cache s1 no_cache) true) (ctx w)) v = foot w v) by (intros v; unfold foot; cbn [gr ctx set_training set_cache vars]; now rewrite Vs).
  split.
  - constructor; cbn [gr set_training set_cache hp holders]; rewrite ?Hd; auto.
    + rewrite Lf; auto.
    + now rewrite Wh.
    + now rewrite Wh.
    + intros v f Hv. rewrite Eft. exact (Hfx v f Hv).
    + intros v f Hv. rewrite Eft. exact (Hfy v f Hv).
  - intros v f Hv.
    assert (Q : forall r, In r (ref (vdata (vars s0 v)) :: map ref (ctx w v)) -> nth r (hp s1) [] = nth r (hp s0) []).
    { intros r Hr. assert (Hf : In r (foot w v)) by (right; exact Hr). apply nth_of_error. apply Lf.
      - apply (t_live _ _ (o_tidy _ _ (r_ord _ _ _ _ Rd) v f Hv) r Hf).
      - intros ->. exact (Hfy v f Hv Hf).
      - exact (r_leaf _ _ _ _ Rd v f r Hv Hr). }
    split.
    + unfold weights, OptSpec.elements. cbn [gr set_training set_cache hp vars]. rewrite Vs. apply Q. now left.
    + intros i. unfold memory, OptSpec.elements. cbn [gr ctx set_training set_cache hp]. apply map_ext_in. intros t0 Ht. f_equal. apply Q. right. now apply in_map.
Qed.

Variables (x y : list R) (samples b training : nat).
Notation loops := (samples / b).
Hypotheses (Lx : length x = samples * prod s) (Ly : length y = samples * prod t) (Hb : 1 <= b) (Hbm : (N.of_nat (b * m) < 4294967296)%N).
Notation part_of := (part_of s ts x y b).
Variables (tx ty : tensor) (w0 : world) (o : opt).
Hypotheses (Sx : shape tx = b :: s) (Sy : shape ty = b :: t).
Notation state := (EpochProofs2.state act s ts ns n0 p sess b tx ty w0 o).
Hypotheses (Sh0 : shaped w0) (St0 : state w0).
Notation loss_at w l := (value L (b :: t) (targets (part_of l)) (predictions eps ls s (parameters (length ps) w) (part_of l))).

(** one batch, measured *)
Definition look_at (l : nat) : O R :=
  do _ <- refill tx x (l * (b * prod s)) (b * prod s);
  do _ <- refill ty y (l * (b * prod t)) (b * prod t);
  run_loss dbg e.

Definition unmoved (w w' : world) : Prop := ctx w' = ctx w /\ forall v f, In (v, f) sess -> weights w' v = weights w v /\ forall i, memory w' v i = memory w v i.

Lemma look_ok bt l w : l < loops -> state w -> fittable act eps L ls s t (parameters (length ps) w) (part_of l) -> exists w', look_at l (phased bt w) = Ok (loss_at w l, phased bt w') /\ state w' /\ unmoved w w'.
Proof.
  intros Hl [(who & dx & dy & Rd & Ho & Lx0 & Ly0) St Vs Fs] Fi0. destruct (bounds m s ts p M Hp0 x y samples b Lx Ly Hb Hbm l Hl) as [Q1 Q2]. pose proof (part_fits m s ts p M Hp0 x y samples b Lx Ly Hb Hbm l Hl) as Ft.
  destruct Ho as [Hx Hy Hdx Hdy Hne Hwx Hwy Hfx Hfy].
  assert (Rx : ref tx < length (hp (gr w))) by (apply nth_error_Some; congruence). assert (Ry : ref ty < length (hp (gr w))) by (apply nth_error_Some; congruence).
  set (wa := OptModel.W (set_hp (gr w) (upd (hp (gr w)) (ref tx) (group (b * prod s) l x))) (ctx w)).
  set (w1 := OptModel.W (set_hp (gr wa) (upd (hp (gr wa)) (ref ty) (group (b * prod t) l y))) (ctx wa)).
  assert (Ra : ready sess out wa who) by (apply ready_upd; assumption).
  assert (R1 : ready sess out w1 who) by (apply ready_upd; assumption).
  assert (Ho1 : holding p sess tx ty w1 who (inputs (part_of l)) (targets (part_of l))).
  { constructor; auto.
    - unfold w1. cbn [gr set_hp hp]. rewrite nth_error_upd_other by auto. unfold wa. cbn [gr set_hp hp]. rewrite nth_error_upd_same by exact Rx. reflexivity.
    - unfold w1. cbn [gr set_hp hp]. apply nth_error_upd_same. unfold wa. cbn [gr set_hp hp]. now rewrite upd_length. }
  assert (Eh : forall v f r, In (v, f) sess -> In r (foot w v) -> nth r (hp (gr w1)) [] = nth r (hp (gr w)) []).
  { intros v f r Hv Hr. unfold w1, wa. cbn [gr set_hp hp]. rewrite !nth_upd_other; [reflexivity| |]; intros ->; [exact (Hfx v f Hv Hr)|exact (Hfy v f Hv Hr)]. }
  assert (U1 : unmoved w w1).
  { split; [reflexivity|]. intros v f Hv. split.
    - unfold weights, OptSpec.elements. apply (Eh v f); [exact Hv|]. right. now left.
    - intros i. unfold memory, OptSpec.elements. apply map_ext_in. intros t0 Ht. f_equal. apply (Eh v f); [exact Hv|]. right. right. now apply in_map. }
  assert (Ep : parameters (length ps) w1 = parameters (length ps) w).
  { unfold parameters. apply map_ext_in. intros v Hv. apply in_seq in Hv. destruct (proj1 (Se v) ltac:(lia)) as [f Hf]. exact (proj1 (proj2 U1 v f Hf)). }
  assert (Sh1 : shaped w1) by (intros v q Hq; change (vars (gr w1) v) with (vars (gr w) v); rewrite Vs; now apply Sh0).
  assert (Fi : fittable act eps L ls s t (parameters (length ps) w1) (part_of l)).
  { rewrite Ep. exact Fi0. }
  destruct (look_bound bt w1 who (part_of l) tx ty R1 Sh1 Ft Fi Ho1 Sx Sy) as (yt & s1 & who' & rest & Rn & Vl & T1 & Rd' & Vs' & Fs' & Lr & Ho' & Um).
  set (w' := OptModel.W (set_training (set_cache s1 no_cache) true) (ctx w1)) in *.
  exists w'. split; [|split].
  - unfold look_at. unfold obnd at 1. rewrite (refill_ok tx x l (b * prod s) (phased bt w) dx Hdx Lx0 Q1). change (OptModel.W _ (ctx (phased bt w))) with (phased bt wa). unfold obnd at 1.
    rewrite (refill_ok ty y l (b * prod t) (phased bt wa) dy); [|unfold wa; cbn [phased gr set_hp set_training hp]; rewrite nth_error_upd_other by exact Hne; exact Hdy|exact Ly0|exact Q2].
    change (OptModel.W _ (ctx (phased bt wa))) with (phased bt w1).
    unfold run_loss. unfold obnd, on_graph. unfold phased at 1. cbn [gr ctx]. rewrite Rn. unfold modify. cbn [gr ctx].
    unfold scalar. destruct yt as [sh r]. unfold val_of in Vl. cbn [shape ref] in *. injection Vl as -> Vl. cbn [prod fold_right]. cbn [Nat.mul Nat.add Nat.eqb negb andb]. rewrite andb_false_r. cbn [gr set_cache hp ctx].
    destruct (nth_error (hp s1) r) as [d|] eqn:Er; [|apply nth_error_None in Er; rewrite nth_overflow in Vl by exact Er; discriminate].
    rewrite (nth_error_nth _ _ [] Er) in Vl. subst d. rewrite Ep. f_equal. f_equal. unfold phased, w'. cbn [gr ctx phased]. f_equal.
    clear -T1. destruct s1. cbn in T1. subst. reflexivity.
  - constructor.
    + exists who', (inputs (part_of l)), rest. split; [exact Rd'|]. split; [exact Ho'|]. rewrite Lr. unfold part_of. cbn [inputs targets]. now rewrite !group_length.
    + exact St.
    + intros v. rewrite Vs'. exact (Vs v).
    + intros q. destruct (Fs' q) as (-> & -> & ->). exact (Fs q).
  - split; [reflexivity|]. intros v f Hv. destruct (proj2 U1 v f Hv) as [A1 A2]. destruct (Um v f Hv) as [A3 A4]. split; [congruence|]. intros i. now rewrite A4, A2.
Qed.

Lemma state_phase w : state w -> phased true w = w.
Proof. intros [(who & dx & dy & Rd & _) _ _ _]. pose proof (r_train _ _ _ _ Rd) as T. destruct w as [[] c]. cbn in *. now subst. Qed.

(** ** evaluate *)
Lemma unmoved_params w w' : unmoved w w' -> parameters (length ps) w' = parameters (length ps) w.
Proof. intros [_ U]. unfold parameters. apply map_ext_in. intros v Hv. apply in_seq in Hv. destruct (proj1 (Se v) ltac:(lia)) as [f Hf]. exact (proj1 (U v f Hf)). Qed.
Lemma unmoved_trans w1 w2 w3 : unmoved w1 w2 -> unmoved w2 w3 -> unmoved w1 w3.
Proof. intros [C1 U1] [C2 U2]. split; [congruence|]. intros v f Hv. destruct (U1 v f Hv) as [A1 A2]. destruct (U2 v f Hv) as [A3 A4]. split; [congruence|]. intros i. now rewrite A4, A2. Qed.

Lemma tests_ok todo : forall l w ve, l + todo <= loops -> state w -> (forall l, l < loops -> fittable act eps L ls s t (parameters (length ps) w) (part_of l)) ->
  exists w', tests dbg e tx ty x y (b * prod s) (b * prod t) l todo ve (phased false w) = Ok ((ve + total (map (fun i => loss_at w (l + i)) (seq 0 todo)))%R, phased false w') /\ state w' /\ unmoved w w'.
Proof.
  induction todo as [|todo IH]; intros l w ve Hl Sw Fi.
  - exists w. cbn [tests seq map total fold_right]. unfold oret. rewrite Rplus_0_r. split; [reflexivity|]. split; [exact Sw|]. split; [reflexivity|]. intros v f _. split; reflexivity.
  - destruct (look_ok false l w ltac:(lia) Sw (Fi l ltac:(lia))) as (w1 & E1 & S1 & U1). destruct (IH (S l) w1 (ve + loss_at w l)%R ltac:(lia) S1 ltac:(now rewrite (unmoved_params w w1 U1))) as (w' & E2 & S2 & U2).
    exists w'. split; [|split; [exact S2|eapply unmoved_trans; eassumption]]. cbn [tests]. unfold look_at in E1. unfold obnd in *.
    destruct (refill tx x (l * (b * prod s)) (b * prod s) (phased false w)) as [[u1 z1]| |]; try discriminate.
    destruct (refill ty y (l * (b * prod t)) (b * prod t) z1) as [[u2 z2]| |]; try discriminate. rewrite E1. rewrite E2. f_equal. f_equal.
    cbn [seq map total fold_right]. rewrite Nat.add_0_r, Rplus_assoc. f_equal. f_equal. rewrite <- seq_shift, map_map. unfold total. f_equal. apply map_ext. intros i.
    rewrite (unmoved_params w w1 U1). now rewrite Nat.add_succ_r.
Qed.

(** ** fit *)
Hypotheses (Dl : forall k l tk, nth_error ls k = Some l -> nth_error ts k = Some tk -> docile act l tk) (Dom : forall l pred, l < loops -> domain L (b :: t) (targets (part_of l)) pred).

Lemma always_fittable l w : l < loops -> state w -> fittable act eps L ls s t (parameters (length ps) w) (part_of l).
Proof.
  intros Hl [(who & dx & dy & Rd & _) _ Vs _]. assert (Sh1 : shaped w) by (intros v q Hq; rewrite Vs; now apply Sh0). pose proof (part_fits m s ts p M Hp0 x y samples b Lx Ly Hb Hbm l Hl) as Ft.
  apply (docile_fittable act dbg eps m s ls ts ps ns n0 L p sess M W WF B Hp0 w who (part_of l) Rd Sh1 Se Ft Dl (Dom l _ Hl)). apply (last_shape dbg m s ls ts ps ns p M W WF B Hp0).
Qed.

Definition lessons_before (k : nat) : nat := length (filter (fun j => j mod loops <=? training) (seq 0 k)).

Lemma lessons_S k : lessons_before (S k) = lessons_before k + (if k mod loops <=? training then 1 else 0).
Proof. unfold lessons_before. rewrite seq_S, filter_app, app_length. cbn [filter Nat.add]. now destruct (k mod loops <=? training). Qed.

Fixpoint met (k : nat) : world :=
  match k with
  | 0 => w0
  | S k => if k mod loops <=? training
           then match batch_at act dbg eps s ts ns n0 L p sess x y b tx ty (k mod loops) (after o (lessons_before k)) (met k) with Ok (_, w') => w' | _ => met k end
           else match look_at (k mod loops) (met k) with Ok (_, w') => w' | _ => met k end
  end.

Lemma met_ok k : 0 < loops -> state (met k) /\
  (k mod loops <= training ->
     batch_at act dbg eps s ts ns n0 L p sess x y b tx ty (k mod loops) (after o (lessons_before k)) (met k) = Ok ((loss_at (met k) (k mod loops), after o (S (lessons_before k))), met (S k)) /\
     lesson act eps s ls ts ps ns n0 L p sess (after o (lessons_before k)) (part_of (k mod loops)) (met k) (met (S k))) /\
  (training < k mod loops -> look_at (k mod loops) (met k) = Ok (loss_at (met k) (k mod loops), met (S k)) /\ unmoved (met k) (met (S k))).
Proof.
  intros Hl. assert (Q : forall k, k mod loops < loops) by (intros j; apply Nat.mod_upper_bound; lia).
  assert (Bk := fun l k w => batch_ok act dbg eps m s ls ts ps ns n0 L p sess M W WF B HL Hp0 Se Dl x y samples b Lx Ly Hb Hbm Dom tx ty w0 o Sx Sy Sh0 l k w).
  assert (G : forall k, state (met k)).
  { intros i. induction i as [|j IH]; [exact St0|]. cbn [met]. destruct (j mod loops <=? training).
    - destruct (Bk (j mod loops) (lessons_before j) (met j) (Q j) IH) as (w' & E & S' & _). rewrite E. exact S'.
    - destruct (look_ok true (j mod loops) (met j) (Q j) IH (always_fittable _ _ (Q j) IH)) as (w' & E & S' & _). rewrite (state_phase _ IH) in E. rewrite E, (state_phase _ S'). exact S'. }
  split; [apply G|]. split; intros H; cbn [met].
  - rewrite (proj2 (Nat.leb_le _ _) H). destruct (Bk (k mod loops) (lessons_before k) (met k) (Q k) (G k)) as (w' & E & S' & Le). rewrite E. auto.
  - rewrite (proj2 (Nat.leb_gt _ _) H). destruct (look_ok true (k mod loops) (met k) (Q k) (G k) (always_fittable _ _ (Q k) (G k))) as (w' & E & S' & U). rewrite (state_phase _ (G k)) in E. rewrite E.
    rewrite (state_phase _ S'). auto.
Qed.

Notation err k := (loss_at (met k) (k mod loops)).

Lemma fit_loop_ok : forall todo l j te ve, l + todo <= loops -> let k := j * loops + l in
  loop dbg eps sess e tx ty x y (b * prod s) (b * prod t) training l todo te ve (after o (lessons_before k)) (met k) =
  Ok ((te + total (map (fun i => err (j * loops + i)) (filter (fun i => i <=? training) (seq l todo))), ve + total (map (fun i => err (j * loops + i)) (filter (fun i => training <? i) (seq l todo))),
       after o (lessons_before (k + todo)))%R, met (k + todo)).
Proof.
  induction todo as [|todo IH]; intros l j te ve Hl k.
  - cbn [loop seq filter map total fold_right]. unfold oret. rewrite !Rplus_0_r, Nat.add_0_r. reflexivity.
  - assert (Ek : k mod loops = l). { unfold k. rewrite Nat.add_comm, Nat.mod_add by lia. apply Nat.mod_small. lia. }
    destruct (met_ok k ltac:(lia)) as (_ & Hle & Hgt). rewrite Ek in Hle, Hgt. cbn [loop seq filter].
    pose proof (lessons_S k) as Ls. rewrite Ek in Ls. replace (k + S todo) with (S k + todo) by lia.
    destruct (l <=? training) eqn:C.
    + apply Nat.leb_le in C. destruct (Hle C) as [Eb _]. rewrite (proj2 (Nat.ltb_ge training l)) by lia. clear Hle Hgt.
      unfold batch_at in Eb. unfold obnd in *.
      destruct (refill tx x (l * (b * prod s)) (b * prod s) (met k)) as [[u1 w1]| |]; try discriminate.
      destruct (refill ty y (l * (b * prod t)) (b * prod t) w1) as [[u2 w2]| |]; try discriminate.
      destruct (run_loss dbg e w2) as [[v w3]| |]; try discriminate.
      destruct (step dbg eps sess e (after o (lessons_before k)) w3) as [[o' w4]| |]; try discriminate. unfold oret in Eb.
      remember (after o (S (lessons_before k))) as o2 eqn:Eo2. remember (met (S k)) as w5 eqn:Ew5. injection Eb as -> -> ->. subst o2 w5.
      pose proof (IH (S l) j (te + loss_at (met k) l)%R ve ltac:(lia)) as I. cbv zeta in I. replace (j * loops + S l) with (S k) in I by (unfold k; lia).
      rewrite Ls, Nat.add_1_r in I. etransitivity; [exact I|]. f_equal. f_equal. f_equal. f_equal. cbn [map total fold_right]. fold k. rewrite Ek, Rplus_assoc. reflexivity.
    + apply Nat.leb_gt in C. destruct (Hgt C) as [Eb _]. rewrite (proj2 (Nat.ltb_lt training l)) by lia. clear Hle Hgt.
      unfold look_at in Eb. unfold obnd in *.
      destruct (refill tx x (l * (b * prod s)) (b * prod s) (met k)) as [[u1 w1]| |]; try discriminate.
      destruct (refill ty y (l * (b * prod t)) (b * prod t) w1) as [[u2 w2]| |]; try discriminate. rewrite Eb.
      pose proof (IH (S l) j te (ve + loss_at (met k) l)%R ltac:(lia)) as I. cbv zeta in I. replace (j * loops + S l) with (S k) in I by (unfold k; lia).
      rewrite Ls, Nat.add_0_r in I. etransitivity; [exact I|]. f_equal. f_equal. f_equal. f_equal. cbn [map total fold_right]. fold k. rewrite Ek, Rplus_assoc. reflexivity.
Qed.

Lemma fit_epochs_ok : forall n j,
  epochs dbg eps sess e tx ty x y (b * prod s) (b * prod t) loops training n (after o (lessons_before (j * loops))) (met (j * loops)) =
  Ok ((map (fun j => over (total (map (fun i => err (j * loops + i)) (filter (fun i => i <=? training) (seq 0 loops)))) training) (seq j n),
       map (fun j => over (total (map (fun i => err (j * loops + i)) (filter (fun i => training <? i) (seq 0 loops)))) (loops - training)) (seq j n),
       after o (lessons_before ((j + n) * loops))), met ((j + n) * loops)).
Proof.
  induction n as [|n IH]; intros j.
  - cbn [epochs seq map repeat]. unfold oret. now rewrite Nat.add_0_r.
  - cbn [epochs]. unfold obnd at 1. pose proof (fit_loop_ok loops 0 j 0%R 0%R ltac:(lia)) as I. cbv zeta in I. rewrite Nat.add_0_r in I. rewrite I. cbn [fst snd].
    replace (j * loops + loops) with (S j * loops) by lia. unfold obnd. rewrite IH. cbn [fst snd oret]. unfold oret. replace (S j + n) with (j + S n) by lia.
    rewrite !quotient_over, !Rplus_0_l. reflexivity.
Qed.
End Fit.
