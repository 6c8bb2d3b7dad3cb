(** Proofs about fit: batch after batch, epoch after epoch. *)
From Coq Require Import List Arith Lia Bool PeanoNat NArith ZArith Reals Lra.
From Coquelicot Require Import Rcomplements Rbar Hierarchy Derive.
From Coquelicot Require AutoDerive.
From Verif Require Import PairSpec PairProps XentSpec XentProps.
From Verif Require Import FitModel FitSpec.
From Verif Require Import ListBase Loops TensorModel TensorSpec ArrayModel LayerModel LayerSpec LayerProofs GraphModel GraphSpec GraphProofs GraphProofs3 GradSpec GradProofs OpModel CalcSpec
  OpProofs OpProps GradProps ComplexModel LossModel LossSpec LossProps DeclModel NetModel NetSpec ValueModel ValueSpec NetProofs3 NetProps ValueProofs3
  ValueProps LearnModel LearnSpec LearnProofs LearnProofs2 LearnProofs3 LearnProps OptModel OptSpec OptProofs2 OptProps TrainSpec TrainProofs.
From Verif Require Import FittingSpec FittingProofs EpochModel EpochProofs.
Import ListNotations.
Local Open Scope nat_scope.

Lemma group_length {A} n l (x : list A) : (l + 1) * n <= length x -> length (group n l x) = n.
Proof. intros H. unfold group. rewrite firstn_length, skipn_length. nia. Qed.

(** refilling a bound tensor *)
Lemma refill_ok t x l n w d : nth_error (hp (gr w)) (ref t) = Some d -> length d = n -> (l + 1) * n <= length x ->
  refill t x (l * n) n w = Ok (tt, OptModel.W (set_hp (gr w) (upd (hp (gr w)) (ref t) (group n l x))) (ctx w)).
Proof.
  intros Hd Ld Hn. unfold refill. rewrite Hd. unfold copy_n. rewrite (proj2 (Nat.leb_le (l * n + n) (length x))) by nia. rewrite (proj2 (Nat.leb_le n _)) by lia. cbn [andb].
  rewrite (skipn_all2 d) by lia. now rewrite app_nil_r.
Qed.

Section Fit.
Variables (act : (R -> R) -> uop R) (dbg : bool) (eps : R) (m : nat) (s : list nat) (ls : list layer1) (ts : list (list nat)) (ps : list (list nat)) (ns : list ex).
Variables (n0 : nat) (L : comparison) (p : nat) (sess : list (nat * bool)).
Hypotheses (M : (N.of_nat m < 2147483648)%N) (W : NetSpec.within m s) (WF : well_formed m [s] (chain ls) ts ps) (B : build dbg (map N.of_nat s) (chain ls) = Ok (Net ns ps))
  (HL : law dbg eps n0 L) (Hp0 : p <> 0) (Se : forall v, v < length ps <-> exists b, In (v, b) sess)
  (Dl : forall k l tk, nth_error ls k = Some l -> nth_error ts k = Some tk -> docile act l tk).
Notation out := (graph act n0 (last ns (Leaf 0))).
Notation e := (term L 0 (EHold p) out).
Notation t := (last ts []).
Notation shaped w := (forall v q, nth_error ps v = Some q -> shape (vdata (vars (gr w) v)) = q).

Variables (x y : list R) (samples b training : nat).
Notation loops := (samples / b).
Hypotheses (Lx : length x = samples * prod s) (Ly : length y = samples * prod t) (Hb : 1 <= b) (Hbm : (N.of_nat (b * m) < 4294967296)%N).
Definition part_of (l : nat) : batch := Batch b (group (b * prod s) l x) (group (b * prod t) l y).
Hypothesis (Dom : forall l pred, l < loops -> domain L (b :: t) (targets (part_of l)) pred).

Lemma bounds l : l < loops -> (l + 1) * (b * prod s) <= length x /\ (l + 1) * (b * prod t) <= length y.
Proof.
  intros Hl. assert (Q : (l + 1) * b <= samples). { pose proof (Nat.mul_div_le samples b ltac:(lia)). nia. }
  rewrite Lx, Ly. split; [replace ((l + 1) * (b * prod s)) with ((l + 1) * b * prod s) by ring|replace ((l + 1) * (b * prod t)) with ((l + 1) * b * prod t) by ring]; now apply Nat.mul_le_mono_r.
Qed.

Lemma part_fits l : l < loops -> fits m s t (part_of l).
Proof.
  intros Hl. destruct (bounds l Hl) as [Q1 Q2]. unfold fits, part_of. cbn [number inputs targets]. split; [exact Hb|]. split; [exact Hbm|]. now rewrite !group_length.
Qed.

Variables (tx ty : tensor) (w0 : world) (o : opt).
Hypotheses (Sx : shape tx = b :: s) (Sy : shape ty = b :: t).

(** one batch of the loop, trained on *)
Definition batch_at (l : nat) (o : opt) : O (R * opt) :=
  do _ <- refill tx x (l * (b * prod s)) (b * prod s);
  do _ <- refill ty y (l * (b * prod t)) (b * prod t);
  do v <- run_loss dbg e;
  do o' <- step dbg eps sess e o;
  oret (v, o').

Fixpoint reached (k : nat) : world :=
  match k with
  | 0 => w0
  | S k => match batch_at (k mod loops) (after o k) (reached k) with Ok (_, w') => w' | _ => reached k end
  end.

Record state (w : world) : Prop := {
  s_ready : exists who dx dy, ready sess out w who /\ holding p sess tx ty w who dx dy /\ length dx = b * prod s /\ length dy = b * prod t;
  s_stock : forall v, In (v, true) sess -> stocked (alg o) w v;
  s_vars : forall v, vars (gr w) v = vars (gr w0) v;
  s_flags : forall k, trainable (vobjs (gr w) k) = trainable (vobjs (gr w0) k) /\ l1 (vobjs (gr w) k) = l1 (vobjs (gr w0) k) /\ l2 (vobjs (gr w) k) = l2 (vobjs (gr w0) k)
}.

Hypotheses (Sh0 : shaped w0) (St0 : state w0).

Notation loss_at w l := (value L (b :: t) (targets (part_of l)) (predictions eps ls s (parameters (length ps) w) (part_of l))).

Lemma lesson_from o1 c w w1 w' : (forall v, vars (gr w1) v = vars (gr w) v) -> (forall k, vobjs (gr w1) k = vobjs (gr w) k) -> (forall v, ctx w1 v = ctx w v) ->
  (forall v f r, In (v, f) sess -> In r (foot w v) -> nth r (hp (gr w1)) [] = nth r (hp (gr w)) []) ->
  lesson act eps s ls ts ps ns n0 L p sess o1 c w1 w' -> lesson act eps s ls ts ps ns n0 L p sess o1 c w w'.
Proof.
  intros Ev Eo Ec Eh [H1 H2].
  assert (Ew : forall v f, In (v, f) sess -> weights w1 v = weights w v).
  { intros v f Hv. unfold weights, OptSpec.elements. rewrite Ev. apply (Eh v f); [exact Hv|]. right. now left. }
  assert (Em : forall v f i, In (v, f) sess -> memory w1 v i = memory w v i).
  { intros v f i Hv. unfold memory, OptSpec.elements. rewrite Ec. apply map_ext_in. intros t0 Ht. f_equal. apply (Eh v f); [exact Hv|]. right. right. now apply in_map. }
  assert (Ep : parameters (length ps) w1 = parameters (length ps) w).
  { unfold parameters. apply map_ext_in. intros v Hv. apply in_seq in Hv. destruct (proj1 (Se v) ltac:(lia)) as [f Hf]. now apply (Ew v f). }
  split; [|intros v Hv; rewrite (H2 v Hv); now apply (Ew v false)].
  intros v Hv. destruct (H1 v Hv) as [Q1 Q2]. unfold count in *. rewrite Ev in Q1, Q2. split; [exact Q1|]. intros i Hi. destruct (Q2 i Hi) as (g & D & Mv). exists g.
  rewrite (Ew v true Hv), Ep in D. split.
  - intros Tr Hz. cbv zeta in *. destruct D as (l & D1 & D2).
    + intros k Hk. rewrite Eo. now apply Tr.
    + destruct Hz as [Hz|Hz]; [now left|right]. intros k Hk. rewrite Eo. now apply Hz.
    + exists l. split; [|exact D2]. revert D1. apply is_derive_ext. intros z. f_equal. apply cost_flags. intros k. now rewrite Eo.
  - rewrite Mv. f_equal; [|now rewrite (Ew v true Hv)]. unfold memory_or_new. rewrite Ec. destruct (ctx w v) eqn:E; [reflexivity|]. now apply (Em v true).
Qed.

Lemma batch_ok l k w : l < loops -> state w ->
  exists w', batch_at l (after o k) w = Ok ((loss_at w l, after o (S k)), w') /\ state w' /\ lesson act eps s ls ts ps ns n0 L p sess (after o k) (part_of l) w w'.
Proof.
  intros Hl [(who & dx & dy & Rd & Ho & Lx0 & Ly0) St Vs Fs]. destruct (bounds l Hl) as [Q1 Q2]. pose proof (part_fits l Hl) as Ft.
  destruct Ho as [Hx Hy Hdx Hdy Hne Hwx Hwy Hfx Hfy].
  assert (Rx : ref tx < length (hp (gr w))) by (apply nth_error_Some; congruence). assert (Ry : ref ty < length (hp (gr w))) by (apply nth_error_Some; congruence).
  set (wa := OptModel.W (set_hp (gr w) (upd (hp (gr w)) (ref tx) (group (b * prod s) l x))) (ctx w)).
  set (w1 := OptModel.W (set_hp (gr wa) (upd (hp (gr wa)) (ref ty) (group (b * prod t) l y))) (ctx wa)).
  assert (Ra : ready sess out wa who) by (apply ready_upd; assumption).
  assert (R1 : ready sess out w1 who) by (apply ready_upd; assumption).
  assert (Ho1 : holding p sess tx ty w1 who (inputs (part_of l)) (targets (part_of l))).
  { constructor; auto.
    - unfold w1. cbn [gr set_hp hp]. rewrite nth_error_upd_other by auto. unfold wa. cbn [gr set_hp hp]. rewrite nth_error_upd_same by exact Rx. reflexivity.
    - unfold w1. cbn [gr set_hp hp]. apply nth_error_upd_same. unfold wa. cbn [gr set_hp hp]. now rewrite upd_length. }
  assert (Eh : forall v f r, In (v, f) sess -> In r (foot w v) -> nth r (hp (gr w1)) [] = nth r (hp (gr w)) []).
  { intros v f r Hv Hr. unfold w1, wa. cbn [gr set_hp hp]. rewrite !nth_upd_other; [reflexivity| |]; intros ->; [exact (Hfx v f Hv Hr)|exact (Hfy v f Hv Hr)]. }
  assert (Ep : parameters (length ps) w1 = parameters (length ps) w).
  { unfold parameters. apply map_ext_in. intros v Hv. apply in_seq in Hv. destruct (proj1 (Se v) ltac:(lia)) as [f Hf]. unfold weights, OptSpec.elements. apply (Eh v f); [exact Hf|]. right. now left. }
  assert (Sh1 : shaped w1) by (intros v q Hq; change (vars (gr w1) v) with (vars (gr w) v); rewrite Vs; now apply Sh0).
  assert (St1 : forall v, In (v, true) sess -> stocked (alg (after o k)) w1 v) by (intros v Hv; rewrite (proj1 (after_alg o k)); exact (St v Hv)).
  assert (Fi : fittable act eps L ls s t (parameters (length ps) w1) (part_of l)).
  { apply (docile_fittable act dbg eps m s ls ts ps ns n0 L p sess M W WF B Hp0 w1 who (part_of l) R1 Sh1 Se Ft Dl (Dom l _ Hl)). apply (last_shape dbg m s ls ts ps ns p M W WF B Hp0). }
  destruct (one_bound act dbg eps m s ls ts ps ns n0 L p sess M W WF B HL Hp0 Se w1 who (after o k) (part_of l) tx ty R1 Sh1 St1 Ft Fi Ho1 Sx Sy)
    as (yt & s1 & w' & who' & rest & Rn & Vl & TB & Rd' & St' & Vs' & Fs' & Lr & Ho' & Le).
  exists w'. split; [|split].
  - unfold batch_at. unfold obnd at 1. rewrite (refill_ok tx x l (b * prod s) w dx Hdx Lx0 Q1). fold wa. unfold obnd at 1.
    rewrite (refill_ok ty y l (b * prod t) wa dy); [|unfold wa; cbn [gr set_hp hp]; rewrite nth_error_upd_other by exact Hne; exact Hdy|exact Ly0|exact Q2]. fold w1.
    unfold train_batch in TB. cbn [bind_all] in TB. unfold obnd in TB at 1. unfold on_graph at 1 in TB. unfold gret in TB.
    unfold run_loss. unfold obnd in *. unfold on_graph in *. cbn [gr ctx] in *. rewrite Rn in *. unfold modify in *. cbn [gr ctx] in *.
    change (gr wa) with (gr wa) in *.
    unfold scalar. destruct yt as [sh r]. unfold val_of in Vl. cbn [shape ref] in *. injection Vl as -> Vl. cbn [prod fold_right]. cbn [Nat.mul Nat.add Nat.eqb negb andb]. rewrite andb_false_r. cbn [gr set_cache hp ctx].
    destruct (nth_error (hp s1) r) as [d|] eqn:Er; [|apply nth_error_None in Er; rewrite nth_overflow in Vl by exact Er; discriminate].
    rewrite (nth_error_nth _ _ [] Er) in Vl. subst d. rewrite Ep in *.
    match goal with TB : match ?q with _ => _ end = _ |- _ => destruct q as [[o' w2]| |]; try discriminate end. unfold oret in *. injection TB as -> ->. reflexivity.
  - constructor.
    + exists who', (inputs (part_of l)), rest. split; [exact Rd'|]. split; [exact Ho'|]. rewrite Lr. unfold part_of. cbn [inputs targets]. now rewrite !group_length.
    + intros v Hv. specialize (St' v Hv). now rewrite (proj1 (after_alg o k)) in St'.
    + intros v. rewrite Vs'. exact (Vs v).
    + intros q. destruct (Fs' q) as (-> & -> & ->). exact (Fs q).
  - revert Le. apply lesson_from; auto.
Qed.

Lemma reached_ok k : 0 < loops -> state (reached k) /\
  batch_at (k mod loops) (after o k) (reached k) = Ok ((loss_at (reached k) (k mod loops), after o (S k)), reached (S k)) /\
  lesson act eps s ls ts ps ns n0 L p sess (after o k) (part_of (k mod loops)) (reached k) (reached (S k)).
Proof.
  intros Hl. assert (Q : forall k, k mod loops < loops) by (intros j; apply Nat.mod_upper_bound; lia).
  assert (G : forall k, state (reached k)).
  { intros i. induction i as [|j IH]; [exact St0|]. destruct (batch_ok (j mod loops) j (reached j) (Q j) IH) as (w' & E & S' & _). cbn [reached]. rewrite E. exact S'. }
  split; [apply G|]. destruct (batch_ok (k mod loops) k (reached k) (Q k) (G k)) as (w' & E & S' & Le). cbn [reached]. rewrite E. auto.
Qed.

Notation err k := (loss_at (reached k) (k mod loops)).

Lemma loop_ok : loops <= S training -> forall todo l j te ve, l + todo <= loops -> let k := j * loops + l in
  loop dbg eps sess e tx ty x y (b * prod s) (b * prod t) training l todo te ve (after o k) (reached k) =
  Ok ((te + total (map (fun i => err (k + i)) (seq 0 todo)), ve, after o (k + todo))%R, reached (k + todo)).
Proof.
  intros Ht. induction todo as [|todo IH]; intros l j te ve Hl k.
  - cbn [loop seq map total fold_right]. unfold oret. rewrite Rplus_0_r, Nat.add_0_r. reflexivity.
  - assert (Ek : k mod loops = l). { unfold k. rewrite Nat.add_comm, Nat.mod_add by lia. apply Nat.mod_small. lia. }
    destruct (reached_ok k ltac:(lia)) as (_ & Eb & _). rewrite Ek in Eb. cbn [loop]. rewrite (proj2 (Nat.leb_le l training)) by lia.
    unfold batch_at in Eb. unfold obnd in *.
    destruct (refill tx x (l * (b * prod s)) (b * prod s) (reached k)) as [[u1 w1]| |]; try discriminate.
    destruct (refill ty y (l * (b * prod t)) (b * prod t) w1) as [[u2 w2]| |]; try discriminate.
    destruct (run_loss dbg e w2) as [[v w3]| |]; try discriminate.
    destruct (step dbg eps sess e (after o k) w3) as [[o' w4]| |]; try discriminate. unfold oret in Eb.
    remember (after o (S k)) as o2 eqn:Eo2. remember (reached (S k)) as w5 eqn:Ew5. injection Eb as -> -> ->. subst o2 w5. pose proof (IH (S l) j (te + loss_at (reached k) l)%R ve ltac:(lia)) as I. cbv zeta in I. replace (j * loops + S l) with (S k) in I by (unfold k; lia).
    etransitivity; [exact I|]. replace (S k + todo) with (k + S todo) by lia. f_equal. f_equal. f_equal. f_equal. cbn [seq map total fold_right]. rewrite Nat.add_0_r, Ek, Rplus_assoc. f_equal. f_equal.
    rewrite <- seq_shift, map_map. unfold total. f_equal. apply map_ext. intros i. now rewrite Nat.add_succ_r.
Qed.

Definition epoch_error (j : nat) : option R := over (total (map (fun i => err (j * loops + i)) (seq 0 loops))) training.

Lemma quotient_over r n : quotient r n = over r n.
Proof. destruct n; reflexivity. Qed.

Lemma epochs_ok : loops <= S training -> forall n j,
  epochs dbg eps sess e tx ty x y (b * prod s) (b * prod t) loops training n (after o (j * loops)) (reached (j * loops)) =
  Ok ((map epoch_error (seq j n), repeat (over 0 (loops - training)) n, after o ((j + n) * loops)), reached ((j + n) * loops)).
Proof.
  intros Ht. induction n as [|n IH]; intros j.
  - cbn [epochs seq map repeat]. unfold oret. now rewrite Nat.add_0_r.
  - cbn [epochs]. unfold obnd at 1. pose proof (loop_ok Ht loops 0 j 0%R 0%R ltac:(lia)) as I. cbv zeta in I. rewrite Nat.add_0_r in I. rewrite I. cbn [fst snd].
    replace (j * loops + loops) with (S j * loops) by lia. unfold obnd. rewrite IH. cbn [fst snd oret]. unfold oret. replace (S j + n) with (j + S n) by lia.
    rewrite !quotient_over, Rplus_0_l. reflexivity.
Qed.
End Fit.
