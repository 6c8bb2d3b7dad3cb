(** C43, C44: training, evaluating and predicting. *)
From Coq Require Import List Arith ZArith Bool PeanoNat Reals Lia Lra.
From Verif Require Import ListBase TensorModel TextSpec FitModel FitSpec FitProofs.
Import ListNotations.
Local Open Scope nat_scope.

(** C43.  What fit does, for every loss, optimiser, data set, batch size, number of epochs and number of training batches: in each epoch
    it runs, in learning phase 1, through the batches in order, each once, and trains on the first training + 1 of them.
    The errors it reports are those of the trained batches over the number of training batches, and those of the others over the number of validation batches. *)
Theorem C43_fit : forall (E W : Type) (zero : E) loss (optimise : W -> Z -> (list E * list E) -> W * (list E * list E)) x y b n training w
    samples rx targets ry,
  keeps_sizes loss optimise -> full x -> full y -> fst x = samples :: rx -> fst y = targets :: ry ->
  b <> 0 -> samples / b * b <= targets ->
  exists s es, courses loss optimise 1 (lessons x y b (samples / b) (S training)) n w = (es, world s) /\ phase s = 1%Z /\
    fit zero loss optimise x y b n training w =
    Ok (map (fun e => over (total (fst e)) training) es, map (fun e => over (total (snd e)) (samples / b - training)) es, s).
Proof.
  intros E W zero loss optimise x y b n training w samples rx targets ry Hk Hx Hy Ex Ey Hb Ht.
  unfold fit. rewrite Ex, Ey. destruct (Nat.eqb_spec b 0) as [|_]; [contradiction|]. cbn [batch_shape].
  change (prod (b :: rx)) with (b * prod rx). change (prod (b :: ry)) with (b * prod ry).
  unfold full in Hx, Hy. rewrite Ex in Hx. rewrite Ey in Hy. cbn [fold_right] in Hx, Hy. fold (prod rx) in Hx. fold (prod ry) in Hy.
  pose proof (Nat.mul_div_le samples b Hb) as Hd.
  destruct (epochs_ok loss optimise Hk x y (b * prod rx) (b * prod ry) (samples / b) training n
              (State w 1%Z (repeat zero (b * prod rx), repeat zero (b * prod ry)))) as (s' & Es).
  { rewrite Hx. nia. } { rewrite Hy. nia. } { apply repeat_length. } { apply repeat_length. }
  rewrite Es. cbn [phase world]. rewrite lessons_eq. rewrite Ex, Ey. unfold per_sample. cbn [tl].
  change (fold_right Nat.mul 1 rx) with (prod rx). change (fold_right Nat.mul 1 ry) with (prod ry).
  destruct (courses loss optimise 1 _ n w) as [es w'].
  exists (State w' 1%Z (bufs s')), es. split; [reflexivity|]. split; [reflexivity|].
  assert (forall e m, quotient e m = over e m) as Hq by (intros e [|m]; reflexivity).
  f_equal. f_equal. f_equal; apply map_ext; intros e; apply Hq.
Qed.
Print Assumptions C43_fit.

(** C43, refuted.  With a validation share (training < batches) every epoch trains on one batch more than the training share, batch number
    [training], and reports as mean training error the sum of training + 1 errors divided by training. *)
Theorem C43_share_refuted : forall (E W : Type) loss (optimise : W -> Z -> (list E * list E) -> W * (list E * list E)) x y b loops training n w es w',
  training < loops -> courses loss optimise 1 (lessons x y b loops (S training)) n w = (es, w') ->
  (forall e, In e es -> length (fst e) = training + 1 /\ length (snd e) = loops - training - 1) /\
  nth_error (map fst (filter snd (lessons x y b loops (S training)))) training =
    Some (group (b * per_sample (fst x)) training (snd x), group (b * per_sample (fst y)) training (snd y)).
Proof.
  intros E W loss optimise x y b loops training n w es w' Ht H.
  assert (length (filter snd (lessons x y b loops (S training))) = training + 1) as L1.
  { rewrite lessons_trained, firstn_length. unfold lessons. rewrite map_length, seq_length. lia. }
  assert (length (filter (fun b => negb (snd b)) (lessons x y b loops (S training))) = loops - training - 1) as L2.
  { assert (forall l : list ((list E * list E) * bool), length (filter snd l) + length (filter (fun b => negb (snd b)) l) = length l) as G.
    { induction l as [|[a []] l IH]; cbn [filter snd negb length]; lia. }
    pose proof (G (lessons x y b loops (S training))) as G'. rewrite L1 in G'. unfold lessons in G' at 2. rewrite map_length, seq_length in G'. lia. }
  split.
  - revert w es H. induction n as [|n IH]; intros w es H; cbn [courses] in H; [injection H as <- _; intros e []|].
    pose proof (course_counts loss optimise 1 (lessons x y b loops (S training)) w) as C.
    destruct (course loss optimise 1 (lessons x y b loops (S training)) w) as [[te ve] w1].
    destruct (courses loss optimise 1 (lessons x y b loops (S training)) n w1) as [es1 w2] eqn:E2. injection H as <- Hw.
    intros e [<-|He]; [cbn [fst snd]; destruct C; split; congruence|].
    apply (IH w1 es1); [rewrite E2; congruence|exact He].
  - rewrite lessons_trained. unfold lessons. rewrite firstn_map, !map_map. cbn [fst].
    rewrite nth_error_map.
    assert (nth_error (firstn (S training) (seq 0 loops)) training = Some training) as ->; [|reflexivity].
    assert (forall (l : list nat) m k, k < m -> nth_error (firstn m l) k = nth_error l k) as G.
    { clear. intros l m. revert l. induction m as [|m IH]; intros l k Hk; [lia|]. destruct l as [|a l]; [reflexivity|].
      destruct k as [|k]; [reflexivity|]. cbn [firstn nth_error]. apply IH. lia. }
    rewrite G by lia. rewrite nth_error_nth' with (d := 0) by (rewrite seq_length; exact Ht). now rewrite seq_nth.
Qed.
Print Assumptions C43_share_refuted.

(** C43.  Without a validation share (training = batches) every batch is trained on and the mean training error is right; the validation error is a division of zero by zero. *)
Theorem C43_no_validation : forall (E W : Type) (zero : E) loss (optimise : W -> Z -> (list E * list E) -> W * (list E * list E)) x y b n w
    samples rx targets ry,
  keeps_sizes loss optimise -> full x -> full y -> fst x = samples :: rx -> fst y = targets :: ry ->
  b <> 0 -> samples / b * b <= targets ->
  exists s es, courses loss optimise 1 (lessons x y b (samples / b) (samples / b)) n w = (es, world s) /\
    (forall e, In e es -> length (fst e) = samples / b /\ snd e = []) /\
    fit zero loss optimise x y b n (samples / b) w = Ok (map (fun e => over (total (fst e)) (length (fst e))) es, repeat None n, s).
Proof.
  intros E W zero loss optimise x y b n w samples rx targets ry Hk Hx Hy Ex Ey Hb Ht.
  destruct (C43_fit E W zero loss optimise x y b n (samples / b) w samples rx targets ry Hk Hx Hy Ex Ey Hb Ht) as (s & es & C & _ & F).
  exists s, es. set (loops := samples / b) in *.
  assert (forall f, loops <= f -> lessons x y b loops f = map (fun l => (group (b * per_sample (fst x)) l (snd x), group (b * per_sample (fst y)) l (snd y), true)) (seq 0 loops)) as Hall.
  { intros f Hf. unfold lessons. apply map_ext_in. intros l Hl. apply in_seq in Hl. f_equal. apply Nat.ltb_lt. lia. }
  rewrite (Hall (S loops)) in C by lia. rewrite (Hall loops) by lia. split; [exact C|].
  assert (forall e, In e es -> length (fst e) = loops /\ snd e = []) as He.
  { clear F. set (bs := map _ (seq 0 loops)) in C.
    assert (length (filter snd bs) = loops /\ length (filter (fun b => negb (snd b)) bs) = 0) as [L1 L2].
    { subst bs. match goal with |- context [map ?F _] => set (f := F) end.
      assert (forall ls, length (filter snd (map f ls)) = length ls /\ length (filter (fun b => negb (snd b)) (map f ls)) = 0) as G.
      { induction ls as [|l ls IH]; cbn [map filter length]; [split; reflexivity|]. cbn [f snd negb length]. destruct IH; split; congruence. }
      destruct (G (seq 0 loops)) as [G1 G2]. rewrite seq_length in G1. split; assumption. }
    clearbody bs. revert w C. clear -L1 L2. revert es. induction n as [|n IH]; intros es w H; cbn [courses] in H; [injection H as <- _; intros e []|].
    pose proof (course_counts loss optimise 1 bs w) as C. destruct (course loss optimise 1 bs w) as [[te ve] w1].
    destruct (courses loss optimise 1 bs n w1) as [es1 w2] eqn:E2. injection H as <- Hw.
    intros e [<-|He]; [cbn [fst snd]; destruct C as [C1 C2]; split; [congruence|]; rewrite L2 in C2; destruct ve; [reflexivity|discriminate C2]|].
    apply (IH es1 w1); [rewrite E2; congruence|exact He]. }
  split; [exact He|]. rewrite F. do 2 f_equal. f_equal.
  - apply map_ext_in. intros e Hin. destruct (He e Hin) as [-> _]. reflexivity.
  - rewrite Nat.sub_diag. assert (length es = n) as Hn.
    { clear -C. revert w es C. induction n as [|n IH]; intros w es C; cbn [courses] in C; [injection C as <- _; reflexivity|].
      destruct (course loss optimise 1 _ w) as [[te ve] w1]. destruct (courses loss optimise 1 _ n w1) as [es1 w2] eqn:E2. injection C as <- Hw.
      cbn [length]. f_equal. apply (IH w1). rewrite E2. congruence. }
    rewrite <- Hn. clear. induction es as [|e es IH]; cbn [map length repeat]; [reflexivity|]. f_equal. exact IH.
Qed.
Print Assumptions C43_no_validation.

(** C43.  The samples after the last whole batch are never looked at. *)
Theorem C43_rest_unused : forall (E W : Type) (zero : E) loss (optimise : W -> Z -> (list E * list E) -> W * (list E * list E)) x x' y b n training w
    samples rx targets ry,
  keeps_sizes loss optimise -> full x -> full x' -> full y -> fst x = samples :: rx -> fst x' = fst x -> fst y = targets :: ry ->
  b <> 0 -> samples / b * b <= targets ->
  firstn (samples / b * b * per_sample (fst x)) (snd x') = firstn (samples / b * b * per_sample (fst x)) (snd x) ->
  exists r s s', fit zero loss optimise x y b n training w = Ok (r, s) /\ fit zero loss optimise x' y b n training w = Ok (r, s') /\ world s = world s'.
Proof.
  intros E W zero loss optimise x x' y b n training w samples rx targets ry Hk Hx Hx' Hy Ex Ex' Ey Hb Ht Heq.
  destruct (C43_fit E W zero loss optimise x y b n training w samples rx targets ry Hk Hx Hy Ex Ey Hb Ht) as (s & es & C & _ & F).
  destruct (C43_fit E W zero loss optimise x' y b n training w samples rx targets ry Hk Hx' Hy ltac:(congruence) Ey Hb Ht) as (s' & es' & C' & _ & F').
  assert (lessons x' y b (samples / b) (S training) = lessons x y b (samples / b) (S training)) as Hl.
  { unfold lessons. apply map_ext_in. intros l Hl. apply in_seq in Hl. rewrite Ex'. do 2 f_equal.
    unfold group. set (k := b * per_sample (fst x)).
    assert (forall d : list E, firstn k (skipn (l * k) d) = firstn k (skipn (l * k) (firstn (samples / b * b * per_sample (fst x)) d))) as G.
    { intros d. rewrite skipn_firstn_comm, firstn_firstn. f_equal. subst k. nia. }
    rewrite (G (snd x')), (G (snd x)), Heq. reflexivity. }
  rewrite Hl, C in C'. injection C' as <- Hw. do 3 eexists. split; [exact F|]. split; [exact F'|exact Hw].
Qed.
Print Assumptions C43_rest_unused.

(** C43.  Fewer targets than the batches need, or a batch size of zero: undefined behaviour (in the first epoch). *)
Theorem C43_short_targets : forall (E W : Type) (zero : E) loss (optimise : W -> Z -> (list E * list E) -> W * (list E * list E)) x y b n training w
    samples rx targets ry,
  keeps_sizes loss optimise -> full x -> full y -> fst x = samples :: rx -> fst y = targets :: ry ->
  (b = 0 \/ targets < samples / b * b /\ 0 < prod ry) -> 0 < n ->
  fit zero loss optimise x y b n training w = UB.
Proof.
  intros E W zero loss optimise x y b n training w samples rx targets ry Hk Hx Hy Ex Ey Hs Hn.
  unfold fit. rewrite Ex, Ey. destruct (Nat.eqb_spec b 0) as [|Hb]; [reflexivity|]. destruct Hs as [|[Hs Hr]]; [contradiction|].
  cbn [batch_shape]. change (prod (b :: rx)) with (b * prod rx). change (prod (b :: ry)) with (b * prod ry).
  unfold full in Hx, Hy. rewrite Ex in Hx. rewrite Ey in Hy. cbn [fold_right] in Hx, Hy. fold (prod rx) in Hx. fold (prod ry) in Hy.
  pose proof (Nat.mul_div_le samples b Hb) as Hd. destruct n as [|n]; [lia|]. cbn [epochs].
  rewrite epoch_short; [reflexivity|exact Hk| | | | |].
  - rewrite Hx. cbn [plus]. nia.
  - rewrite Hy. cbn [plus]. nia.
  - lia.
  - apply repeat_length.
  - apply repeat_length.
Qed.
Print Assumptions C43_short_targets.

(** C44.  evaluate runs the loss, and nothing else, on every batch in order, in learning phase 0, and returns the mean of the errors (no number if there is no whole
    batch); afterwards learning_phase is 1. *)
Theorem C44_evaluate : forall (E W : Type) (zero : E) loss (optimise : W -> Z -> (list E * list E) -> W * (list E * list E)) x y b w
    samples rx targets ry,
  keeps_sizes loss optimise -> full x -> full y -> fst x = samples :: rx -> fst y = targets :: ry ->
  b <> 0 -> samples / b * b <= targets ->
  exists s ves, course loss optimise 0 (lessons x y b (samples / b) 0) w = ([], ves, world s) /\
    length ves = samples / b /\ phase s = 1%Z /\
    evaluate zero loss x y b w = Ok (over (total ves) (length ves), s).
Proof.
  intros E W zero loss optimise x y b w samples rx targets ry Hk Hx Hy Ex Ey Hb Ht.
  unfold evaluate. rewrite Ex, Ey. destruct (Nat.eqb_spec b 0) as [|_]; [contradiction|]. cbn [batch_shape].
  change (prod (b :: rx)) with (b * prod rx). change (prod (b :: ry)) with (b * prod ry).
  unfold full in Hx, Hy. rewrite Ex in Hx. rewrite Ey in Hy. cbn [fold_right] in Hx, Hy. fold (prod rx) in Hx. fold (prod ry) in Hy.
  pose proof (Nat.mul_div_le samples b Hb) as Hd.
  destruct (evaluate_ok loss optimise Hk x y (b * prod rx) (b * prod ry) (samples / b) 0 0%R
              (State w 0%Z (repeat zero (b * prod rx), repeat zero (b * prod ry)))) as (s' & Es).
  { rewrite Hx. cbn [plus]. nia. } { rewrite Hy. cbn [plus]. nia. } { apply repeat_length. } { apply repeat_length. }
  rewrite Es. cbn [phase world].
  assert (lessons x y b (samples / b) 0 = map (fun l => (group (b * prod rx) l (snd x), group (b * prod ry) l (snd y), false)) (seq 0 (samples / b))) as Hl.
  { unfold lessons. rewrite Ex, Ey. reflexivity. }
  rewrite <- Hl. pose proof (course_counts loss optimise 0 (lessons x y b (samples / b) 0) w) as C.
  destruct (course loss optimise 0 (lessons x y b (samples / b) 0) w) as [[tes ves] w'].
  rewrite lessons_trained in C. cbn [firstn length] in C. destruct C as [C1 C2]. destruct tes; [|discriminate C1].
  assert (length ves = samples / b) as Hv.
  { rewrite C2, Hl. match goal with |- context [map ?F _] => set (f := F) end.
    assert (forall ls, length (filter (fun b => negb (snd b)) (map f ls)) = length ls) as G.
    { induction ls as [|l ls IH]; cbn [map filter length]; [reflexivity|]. cbn [f snd negb length]. congruence. }
    rewrite G, seq_length. reflexivity. }
  exists (State w' 1%Z (bufs s')), ves. split; [reflexivity|]. split; [exact Hv|]. split; [reflexivity|].
  rewrite fold_total, Rplus_0_l, Hv. destruct (samples / b); reflexivity.
Qed.
Print Assumptions C44_evaluate.

(** C44.  predict runs the model once, in learning phase 0, on the caller's own elements. *)
Theorem C44_predict : forall (E W A : Type) (forward : W -> Z -> list E -> A * (W * list E)) (x : list nat * list E) w,
  exists w' buf, forward w 0%Z (snd x) = (fst (predict forward x w), (w', buf)) /\ snd (predict forward x w) = (w', 1%Z, buf).
Proof.
  intros E W A forward x w. unfold predict. destruct (forward w 0%Z (snd x)) as [a [w' buf]]. exists w', buf. split; reflexivity.
Qed.
Print Assumptions C44_predict.

(** C44, refuted.  The learning phase is not put back but set to 1: after any program, it is what was assigned last if no fit, evaluate,
    train_on_batch or predict came after the assignment, and 1 otherwise. *)
Theorem C44_phase_refuted : forall (E W A : Type) (zero : E) loss (optimise : W -> Z -> (list E * list E) -> W * (list E * list E))
    (forward : W -> Z -> list E -> A * (W * list E)) cs p p',
  performs zero loss optimise forward p cs = Ok p' ->
  snd p' = fold_left (fun z c => match c with Set_phase z' => z' | _ => 1%Z end) cs (snd p).
Proof.
  intros E W A zero loss optimise forward.
  assert (forall x y nx ny training todo l te ve s te' ve' s', epoch_loop loss optimise x y nx ny training l todo te ve s = Ok (te', ve', s') -> phase s' = phase s) as Hloop.
  { intros x y nx ny training. induction todo as [|todo IH]; intros l te ve s te' ve' s' H; cbn [epoch_loop] in H; [congruence|].
    destruct (feed x y nx ny l s) as [s1| |] eqn:Ef; try discriminate H.
    assert (phase s1 = phase s) as P1.
    { unfold feed in Ef. destruct (copy_n (snd x) _ _ _); try discriminate Ef. destruct (copy_n (snd y) _ _ _); try discriminate Ef.
      injection Ef as <-. reflexivity. }
    unfold run_loss in H. destruct (loss (world s1) (phase s1) (bufs s1)) as [e wb].
    destruct (l <=? training); apply IH in H; unfold run_optimiser in H; cbn [phase] in H; congruence. }
  assert (forall x y nx ny loops training n s tes ves s', epochs loss optimise x y nx ny loops training n s = Ok (tes, ves, s') -> phase s' = phase s) as Hep.
  { intros x y nx ny loops training. induction n as [|n IH]; intros s tes ves s' H; cbn [epochs] in H; [congruence|].
    destruct (epoch_loop loss optimise x y nx ny training 0 loops 0%R 0%R s) as [[[te ve] s1]| |] eqn:E1; try discriminate H.
    destruct (epochs loss optimise x y nx ny loops training n s1) as [[[tes1 ves1] s2]| |] eqn:E2; try discriminate H.
    injection H as <- <- <-. rewrite (IH _ _ _ _ E2). exact (Hloop _ _ _ _ _ _ _ _ _ _ _ _ _ E1). }
  assert (forall p c p', perform zero loss optimise forward p c = Ok p' -> snd p' = match c with Set_phase z => z | _ => 1%Z end) as Hone.
  { intros p c p' H. destruct c as [x y b n training|x y b|x y|x|z]; cbn [perform] in H.
    - destruct (fit zero loss optimise x y b n training (fst p)) as [[[tes ves] s]| |] eqn:F; try discriminate H. injection H as <-. cbn [snd].
      unfold fit in F. destruct (fst x) as [|k rx]; [discriminate F|]. destruct (b =? 0); [discriminate F|].
      destruct (batch_shape (k :: rx) b) as [bx| |]; try discriminate F. destruct (batch_shape (fst y) b) as [by_| |]; try discriminate F.
      apply Hep in F. exact F.
    - destruct (evaluate zero loss x y b (fst p)) as [[v s]| |] eqn:F; try discriminate H. injection H as <-. cbn [snd].
      unfold evaluate in F. destruct (fst x) as [|k rx]; [discriminate F|]. destruct (b =? 0); [discriminate F|].
      destruct (batch_shape (k :: rx) b) as [bx| |]; try discriminate F. destruct (batch_shape (fst y) b) as [by_| |]; try discriminate F.
      destruct (evaluate_loop loss x y _ _ _ _ _ _) as [[ve s1]| |]; try discriminate F. injection F as _ <-. reflexivity.
    - unfold train_on_batch, run_loss in H. cbn [world phase bufs] in H. destruct (loss (fst p) 1%Z (snd x, snd y)) as [e wb]. injection H as <-. reflexivity.
    - unfold predict in H. destruct (forward (fst p) 0%Z (snd x)) as [a wb]. injection H as <-. reflexivity.
    - injection H as <-. reflexivity. }
  induction cs as [|c cs IH]; intros p p' H; cbn [performs fold_left] in *; [congruence|].
  destruct (perform zero loss optimise forward p c) as [p1| |] eqn:E1; try discriminate H. rewrite (IH p1 p' H), (Hone p c p1 E1). reflexivity.
Qed.
Print Assumptions C44_phase_refuted.

(** C43.  train_on_batch runs the loss once on the caller's own tensors, in phase 1, then the optimiser once; what either does to the
    bound buffers it does to the caller's tensors.  fit and evaluate work on copies. *)
Theorem C43_train_on_batch : forall (E W : Type) (loss : W -> Z -> (list E * list E) -> R * (W * (list E * list E))) (optimise : W -> Z -> (list E * list E) -> W * (list E * list E)) (x y : list nat * list E) w,
  let (e, wb) := loss w 1%Z (snd x, snd y) in
  let (w', b') := optimise (fst wb) 1%Z (snd wb) in
  train_on_batch loss optimise x y w = (e, State w' 1%Z b').
Proof.
  intros E W loss optimise x y w. unfold train_on_batch, run_loss, run_optimiser. cbn [world phase bufs].
  destruct (loss w 1%Z (snd x, snd y)) as [e [w1 b1]]. cbn [fst snd world phase bufs]. destruct (optimise w1 1%Z b1) as [w' b']. reflexivity.
Qed.
Print Assumptions C43_train_on_batch.

(** A case: the world is the list of batches seen; the error is always 6. *)
Module Case.
Definition loss (w : list (list nat * list nat * Z)) (ph : Z) (b : list nat * list nat) : R * (list (list nat * list nat * Z) * (list nat * list nat)) := (6%R, (w ++ [(b, ph)], b)).
Definition optimise (w : list (list nat * list nat * Z)) (ph : Z) (b : list nat * list nat) : list (list nat * list nat * Z) * (list nat * list nat) := (w ++ [([], [], 7%Z)], b).
Definition x : list nat * list nat := ([7; 2], [1; 2; 3; 4; 5; 6; 7; 8; 9; 10; 11; 12; 13; 14]).
Definition y : list nat * list nat := ([7], [21; 22; 23; 24; 25; 26; 27]).
Example hypotheses : keeps_sizes loss optimise /\ full x /\ full y /\ 7 / 2 * 2 <= 7.
Proof. split; [split; intros; split; reflexivity|]. split; [reflexivity|]. split; [reflexivity|]. vm_compute. lia. Qed.
(** three batches of two; the training share is one batch, but two are trained on, and the reported training error is 12 *)
Example one_epoch : exists s, fit 0 loss optimise x y 2 1 1 [] = Ok ([Some (12 / 1)%R], [Some (6 / 2)%R], s) /\
  world s = [([1; 2; 3; 4], [21; 22], 1%Z); ([], [], 7%Z); ([5; 6; 7; 8], [23; 24], 1%Z); ([], [], 7%Z); ([9; 10; 11; 12], [25; 26], 1%Z)].
Proof.
  eexists. split; [|shelve]. vm_compute fit. f_equal. f_equal. f_equal; f_equal; f_equal; lra.
  Unshelve. reflexivity.
Qed.
End Case.
