(** What backward passes add up to, over the real numbers. *)
From Coq Require Import List Arith Lia Bool PeanoNat Reals Lra.
From Coquelicot Require Import Rcomplements Hierarchy Derive.
From Verif Require Import ListBase TensorModel TensorSpec TensorProofs ArrayModel GraphModel GraphSpec GradSpec LayerSpec LayerProofs LayerProofs4
  GraphProofs2 GradProofs GradProofs3 CalcSpec CalcProofs.
Import ListNotations.
Local Open Scope nat_scope.

Section Sums.
Variable dbg : bool.
Variable eps : R.
Notation grads := (grads 0%R 1%R Rplus Rmult dbg).
Notation deliver := (deliver 0%R 1%R Rplus Rmult Ropp rleb eps).
Notation gather := (gather 0%R 1%R Rplus Rmult Ropp rleb eps).
Notation gathers := (gathers 0%R 1%R Rplus Rmult Ropp rleb eps).

Lemma grads_uses q x : forall k g ds, grads q k x g = Some ds -> map fst ds = uses k x.
Proof.
  induction x as [v|p|t|c|n o x IH|n o l IHl r IHr]; intros k g ds E; cbn [GradSpec.grads] in E; try (injection E as <-; reflexivity).
  - destruct (GraphSpec.eval _ _ _ _ _ x) as [i|]; [|discriminate]. cbn [obind2] in E. destruct (local1 o i g) as [g1|]; [|discriminate].
    cbn [obind2] in E. exact (IH _ _ _ E).
  - destruct (operands _ _ _ _ _ l r) as [[a b]|]; [|discriminate]. cbn [obind2 fst snd] in E.
    destruct (local2 _ _ dbg o a b g) as [[gl gr]|]; [|discriminate]. cbn [obind2 fst snd] in E.
    destruct (grads q (Some (n, false)) l gl) as [dl|] eqn:El; [|discriminate]. cbn [obind2] in E.
    destruct (grads q (Some (n, true)) r gr) as [dr|] eqn:Er; [|discriminate]. cbn [obind2] in E. injection E as <-.
    rewrite map_app. cbn [uses]. exact (f_equal2 (@app _) (IHl _ _ _ El) (IHr _ _ _ Er)).
Qed.

Lemma uses_at {A} (e0 x : expr A) k : At e0 k x -> forall k' v, In (k', v) (uses k x) -> At e0 k' (EVar v).
Proof.
  revert k. induction x as [w|p|t|c|n o x IH|n o l IHl r IHr]; intros k H k' v Hin; cbn [uses] in Hin; try contradiction.
  - destruct Hin as [[= <- <-]|[]]. exact H.
  - apply (IH (Some (n, false))); [now apply (At_un e0 k n o x)|assumption].
  - apply in_app_or in Hin. destruct Hin as [Hin|Hin].
    + apply (IHl (Some (n, false))); [now apply (At_left e0 k n o l r)|assumption].
    + apply (IHr (Some (n, true))); [now apply (At_right e0 k n o l r)|assumption].
Qed.

Lemma at_uses {A} (e0 : expr A) k v : At e0 k (EVar v) -> In (k, v) (uses None e0).
Proof.
  assert (G : forall k x, At e0 k x -> forall k' w, In (k', w) (uses k x) -> In (k', w) (uses None e0)).
  { intros k1 x H. induction H as [|k1 n o x H IH|k1 n o l r H IH|k1 n o l r H IH]; intros k' w Hin; auto.
    - apply IH. cbn [uses]. apply in_or_app. now left.
    - apply IH. cbn [uses]. apply in_or_app. now right. }
  intros H. apply (G k (EVar v) H). now left.
Qed.

Lemma l12_reg o x c : l2_term 1%R Rplus Rmult rleb eps o x (l1_term 0%R Rplus Ropp rleb eps o x c) = (c + reg eps o x)%R.
Proof. unfold l1_term, l2_term, reg. destruct (rleb eps (l1 o)), (rleb eps (l2 o)), (rleb 0 x); ring. Qed.

Lemma nth_map2R f a b p : p < length a -> p < length b -> nth p (map2 f a b) 0%R = f (nth p a 0%R) (nth p b 0%R).
Proof. revert b p. induction a as [|x a IH]; intros [|y b] [|p] H1 H2; cbn in *; try lia; auto. apply IH; lia. Qed.

Lemma deliver_nth o dat cur d n : length dat = n -> length cur = n -> length d = n ->
  length (deliver o dat cur d) = n /\
  forall p, p < n -> nth p (deliver o dat cur d) 0%R =
    (nth p cur 0 + (if trainable o then nth p d 0 + (if synced o then 0 else reg eps o (nth p dat 0)) else 0))%R.
Proof.
  intros L1 L2 L3. unfold GradSpec.deliver. destruct (trainable o); [|split; [assumption|intros; ring]].
  destruct (synced o).
  - split; [rewrite map2_length; lia|]. intros p Hp. rewrite nth_map2R by lia. ring.
  - split; [rewrite !map2_length; lia|]. intros p Hp. rewrite nth_map2R by (rewrite ?map2_length; lia). rewrite l12_reg, nth_map2R by lia. ring.
Qed.

(** one pass *)
Definition fresh_penalty vo v x (ds : list (delivery (A:=R))) : R :=
  rsum (map (fun d => match d with (k, v', _) => if (v' =? v) && trainable (vo k) && negb (synced (vo k)) then reg eps (vo k) x else 0%R end) ds).

Lemma gather_nth q vo v n dat : n = prod (fst (e_var q v)) -> length dat = n ->
  forall ds cur, Forall (fits q) ds -> length cur = n ->
  length (gather vo dat v ds cur) = n /\
  forall p, p < n -> nth p (gather vo dat v ds cur) 0%R = (nth p cur 0 + arrived vo v p ds + fresh_penalty vo v (nth p dat 0) ds)%R.
Proof.
  intros En Ld. induction ds as [|[[k v'] g] ds IH]; intros cur F Lc; inversion F as [|? ? Hd F']; subst.
  - split; [assumption|]. intros p Hp. unfold arrived, fresh_penalty. cbn. ring.
  - unfold GradSpec.gather in *. cbn [fold_left]. destruct Hd as [Hs Hl]. destruct (Nat.eqb_spec v' v) as [->|Nv].
    + destruct (deliver_nth (vo k) dat cur (snd g) _ Ld Lc ltac:(now rewrite Hl, Hs)) as [L1 N1].
      destruct (IH _ F' L1) as [L2 N2]. split; [exact L2|]. intros p Hp. rewrite N2, N1 by assumption.
      unfold arrived, fresh_penalty. cbn [map rsum]. rewrite Nat.eqb_refl. cbn [andb]. destruct (trainable (vo k)); cbn [andb]; [|ring].
      destruct (synced (vo k)); cbn [negb]; ring.
    + destruct (IH cur F' Lc) as [L2 N2]. split; [exact L2|]. intros p Hp. rewrite N2 by assumption.
      unfold arrived, fresh_penalty. cbn [map rsum]. apply Nat.eqb_neq in Nv. rewrite Nv. cbn [andb]. ring.
Qed.

Lemma arrived_same vo vo' v p ds : (forall k, trainable (vo' k) = trainable (vo k)) -> arrived vo' v p ds = arrived vo v p ds.
Proof. intros H. unfold arrived. f_equal. apply map_ext. intros [[k w] g]. now rewrite H. Qed.

Lemma marks_same ds (vo : slot -> vobj (A:=R)) k : trainable (marks ds vo k) = trainable (vo k) /\ l1 (marks ds vo k) = l1 (vo k) /\ l2 (marks ds vo k) = l2 (vo k).
Proof. unfold marks, mark. destruct (hit k ds); [|auto]. destruct (trainable (vo k)) eqn:E; cbn; auto. Qed.

Lemma slot_eqb_refl k : slot_eqb k k = true.
Proof. destruct k as [[n b]|]; [|reflexivity]. cbn. now rewrite Nat.eqb_refl, Bool.eqb_reflx. Qed.

(** further passes add the deliveries only *)
Lemma gathers_synced q v n dat us : n = prod (fst (e_var q v)) -> length dat = n ->
  forall dss vo cur, (forall k, In (k, v) us -> trainable (vo k) = true -> synced (vo k) = true) ->
  Forall (fun ds => map fst ds = us /\ Forall (fits q) ds) dss -> length cur = n ->
  length (gathers vo dat v dss cur) = n /\
  forall p, p < n -> nth p (gathers vo dat v dss cur) 0%R = (nth p cur 0 + rsum (map (arrived vo v p) dss))%R.
Proof.
  intros En Ld. induction dss as [|ds dss IH]; intros vo cur Sy F Lc; inversion F as [|? ? [Hu Hf] F']; subst.
  - split; [assumption|]. intros p Hp. cbn. ring.
  - cbn [GradSpec.gathers]. destruct (gather_nth q vo v _ dat eq_refl Ld ds cur Hf Lc) as [L1 N1].
    destruct (IH (marks ds vo) _ ltac:(intros k Hk Ht; unfold marks, mark in *; destruct (hit k ds); [destruct (trainable (vo k)) eqn:E; [reflexivity|]|]; auto; congruence) F' L1) as [L2 N2].
    split; [exact L2|]. intros p Hp. rewrite N2, N1 by assumption. cbn [map rsum].
    replace (map (arrived (marks ds vo) v p) dss) with (map (arrived vo v p) dss)
      by (apply map_ext; intros ds'; symmetry; apply arrived_same; intros k; apply marks_same).
    replace (fresh_penalty vo v (nth p dat 0%R) ds) with 0%R; [ring|].
    symmetry. unfold fresh_penalty. apply rsum_zero. intros [[k w] g] Hin. destruct (Nat.eqb_spec w v) as [->|]; [|reflexivity].
    destruct (trainable (vo k)) eqn:Et; [|reflexivity]. rewrite (Sy k); [reflexivity| |assumption].
    change (k, v) with (fst (k, v, g)). now apply in_map.
Qed.

(** the first pass after a run in the training phase also adds the regularisers *)
Lemma gathers_fresh q v n dat us : n = prod (fst (e_var q v)) -> length dat = n ->
  forall ds dss vo cur, (forall k, In (k, v) us -> synced (vo k) = false) ->
  Forall (fun ds => map fst ds = us /\ Forall (fits q) ds) (ds :: dss) -> length cur = n ->
  length (gathers vo dat v (ds :: dss) cur) = n /\
  forall p, p < n -> nth p (gathers vo dat v (ds :: dss) cur) 0%R =
    (nth p cur 0 + rsum (map (arrived vo v p) (ds :: dss)) + penalty eps vo v (nth p dat 0) us)%R.
Proof.
  intros En Ld ds dss vo cur Sy F Lc. inversion F as [|? ? [Hu Hf] F']. subst. cbn [GradSpec.gathers].
  destruct (gather_nth q vo v _ dat eq_refl Ld ds cur Hf Lc) as [L1 N1].
  destruct (gathers_synced q v _ dat (map fst ds) eq_refl Ld dss (marks ds vo) (gather vo dat v ds cur)) as [L2 N2].
  - intros k Hk Ht. unfold marks in *. assert (Hh : hit k ds = true).
    { apply in_map_iff in Hk. destruct Hk as ([[k' w] g] & E & Hin). cbn [fst] in E. injection E as -> ->. unfold hit. apply existsb_exists.
      exists (k, v, g). split; [assumption|]. cbn. apply slot_eqb_refl. }
    rewrite Hh in *. unfold mark in *. destruct (trainable (vo k)) eqn:E; [reflexivity|congruence].
  - exact F'.
  - exact L1.
  - split; [exact L2|]. intros p Hp. rewrite N2, N1 by assumption. cbn [map rsum].
    replace (map (arrived (marks ds vo) v p) dss) with (map (arrived vo v p) dss)
      by (apply map_ext; intros ds'; symmetry; apply arrived_same; intros k; apply marks_same).
    replace (fresh_penalty vo v (nth p dat 0%R) ds) with (penalty eps vo v (nth p dat 0%R) (map fst ds)); [ring|].
    unfold fresh_penalty, penalty. rewrite map_map. f_equal. apply map_ext_in. intros [[k w] g] Hin. cbn [fst snd].
    destruct (Nat.eqb_spec w v) as [->|]; [|reflexivity]. cbn [andb]. rewrite (Sy k); [now rewrite andb_true_r|].
    change (k, v) with (fst (k, v, g)). now apply in_map.
Qed.

End Sums.
