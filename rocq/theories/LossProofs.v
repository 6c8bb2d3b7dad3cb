(** Training with the losses of LossModel.v: the backward pass after LossRun2.v's run, and what a nudge of one element does to the output. *)
From Coq Require Import List Arith Lia Bool PeanoNat Reals Lra FunctionalExtensionality.
From Coquelicot Require Import Rcomplements Hierarchy Derive.
From Verif Require Import ListBase TensorModel TensorSpec TensorProofs TensorProofs2 GraphModel GraphSpec GraphProofs GraphProofs2
  GraphProofs3 GraphProofs4 GradSpec GradProofs GradProofs2 GradProofs3 LayerSpec CalcSpec CalcProofs CalcProofs2 CalcProofs3 GraphProps ComplexRun LossRun LossRun2.
Import ListNotations.
Local Open Scope nat_scope.

Section Nudge.
Variable dbg : bool.
Notation grads := (grads 0%R 1%R Rplus Rmult dbg).
Notation sizes_ok := (sizes_ok 0%R 1%R Rplus Rmult).

(** how the value of e moves with element p of variable v, and what the gradients delivered to v amount to *)
Lemma nudged_chain q e : evalue e = false -> sizes_ok q e -> right_everywhere dbg q e ->
  exists y, evalR q e = Some y /\ sized y /\
    (forall g k, fst g = fst y -> sized g -> exists ds, grads q k e g = Some ds /\ Forall (fits q) ds) /\
    forall kv v p, At e kv (EVar v) -> p < prod (fst (e_var q v)) ->
      exists dy, tangent (fun t => evalR (nudge q v p t) e) (nth p (snd (e_var q v)) 0%R) y dy /\
        forall g k ds, fst g = fst y -> sized g -> grads q k e g = Some ds -> inner (snd g) dy = total v p ds.
Proof.
  intros Nv Sz Rt.
  assert (Lv : forall kv v, At e kv (EVar v) -> sized (e_var q v)).
  { intros kv v H. destruct (Sz kv _ H ltac:(discriminate)) as (w & Ew & Lw & _). cbn [eval] in Ew. injection Ew as ->. exact Lw. }
  destruct (chain dbg (fun _ => q) 0%R (fun v => repeat 0%R (prod (fst (e_var q v)))) e) with (x := e) (k0 := @None (nat * bool)) as (y & dy & Ty & Gy); auto.
  { intros kv. split; [|split; reflexivity]. intros v H. apply tangent_const. exact (Lv kv v H). }
  { constructor. }
  exists y. pose proof (tan_at _ _ _ _ Ty) as Ey. cbv beta in Ey. split; [exact Ey|]. split; [exact (tan_sized _ _ _ _ Ty)|]. split.
  { intros g k Eg Sg. destruct (Gy g k Eg Sg) as (ds & Ed & Fd & _). eauto. }
  intros kv v p H Hp. pose proof (Lv kv v H) as Lvv. unfold sized in Lvv.
  set (x0 := nth p (snd (e_var q v)) 0%R).
  set (dx := fun u => if u =? v then unit_at (prod (fst (e_var q v))) p else repeat 0%R (prod (fst (e_var q u)))).
  assert (E0 : nudge q v p x0 = q) by (apply nudge_self; congruence).
  destruct (chain dbg (nudge q v p) x0 dx e) with (x := e) (k0 := @None (nat * bool)) as (y' & dy' & Ty' & Gy'); auto.
  { intros ku. split; [|split; reflexivity]. intros u Hu. rewrite E0. unfold dx. cbn [nudge e_var]. destruct (Nat.eqb_spec u v) as [->|Nu].
    - constructor.
      + f_equal. rewrite (surjective_pairing (e_var q v)) at 3. f_equal. unfold x0. apply upd_self. congruence.
      + exact Lvv.
      + unfold unit_at. now rewrite upd_length, repeat_length.
      + apply filter_forall. intros t. eexists. split; [reflexivity|]. split; [reflexivity|]. unfold sized. cbn [fst snd]. now rewrite upd_length.
      + intros i Hi. rewrite unit_nth by assumption. cbn [entry snd].
        apply (is_derive_ext (fun t => if i =? p then t else nth i (snd (e_var q v)) 0%R)).
        { intros t. rewrite nth_upd by congruence. now rewrite (Nat.eqb_sym p i). }
        destruct (i =? p); [apply @is_derive_id|apply @is_derive_const].
    - apply tangent_const. exact (Lv ku u Hu). }
  { now rewrite E0. }
  { now rewrite E0. }
  { constructor. }
  pose proof (tan_at _ _ _ _ Ty') as Ey'. cbv beta in Ey'. rewrite E0 in Ey'. rewrite Ey in Ey'. injection Ey' as <-.
  exists dy'. split; [exact Ty'|]. intros g k ds Eg Sg Ed.
  rewrite E0 in Gy'. destruct (Gy' g k Eg Sg) as (ds' & Ed' & Fd & Hin). rewrite Ed in Ed'. injection Ed' as <-. rewrite Hin.
  unfold effect, total. f_equal. apply map_ext_in. intros [[k' w] g'] Hd. rewrite Forall_forall in Fd. destruct (Fd _ Hd) as [F1 F2].
  unfold dx. destruct (Nat.eqb_spec w v) as [->|Nw].
  - apply inner_unit; congruence.
  - apply inner_zeros_r. congruence.
Qed.

End Nudge.

(** ** Trees built from trees *)
Section Build.
Context {A : Type} (zero one : A) (add mul : A -> A -> A).
Notation eval := (eval zero one add mul).
Notation sizes_ok := (sizes_ok zero one add mul).
Notation disciplined := (disciplined zero one add mul).
Notation legible := (legible zero one add mul).

Lemma At_un_inv n o (x : expr A) k y : At (EUn n o x) k y -> (k = None /\ y = EUn n o x) \/ exists k', At x k' y.
Proof.
  intros H. induction H as [|k m o' y H IH|k m o' l r H IH|k m o' l r H IH]; [now left| | |];
    right; (destruct IH as [[_ E]|(k' & Hk)]; [try discriminate E|]).
  - injection E as _ _ ->. exists None. constructor.
  - exists (Some (m, false)). exact (At_un _ _ _ _ _ Hk).
  - exists (Some (m, false)). exact (At_left _ _ _ _ _ _ Hk).
  - exists (Some (m, true)). exact (At_right _ _ _ _ _ _ Hk).
Qed.

Lemma At_bin_inv n o (l r : expr A) k y : At (EBin n o l r) k y -> (k = None /\ y = EBin n o l r) \/ (exists k', At l k' y) \/ exists k', At r k' y.
Proof.
  intros H. induction H as [|k m o' y H IH|k m o' a b H IH|k m o' a b H IH]; [now left| | |]; right.
  - destruct IH as [[_ E]|[(k' & Hk)|(k' & Hk)]]; [discriminate E|left|right]; exists (Some (m, false)); exact (At_un _ _ _ _ _ Hk).
  - destruct IH as [[_ E]|[(k' & Hk)|(k' & Hk)]]; [injection E as _ _ -> _; left; exists None; constructor|left|right]; exists (Some (m, false)); exact (At_left _ _ _ _ _ _ Hk).
  - destruct IH as [[_ E]|[(k' & Hk)|(k' & Hk)]]; [injection E as _ _ _ ->; right; exists None; constructor|left|right]; exists (Some (m, true)); exact (At_right _ _ _ _ _ _ Hk).
Qed.

Lemma sizes_un q n o x w : sizes_ok q x -> eval q (EUn n o x) = Some w -> length (snd w) = prod (fst w) -> snd w <> [] -> sizes_ok q (EUn n o x).
Proof. intros H E L N k y Hy V. destruct (At_un_inv _ _ _ _ _ Hy) as [[_ ->]|(k' & Hk)]; [eauto|exact (H k' y Hk V)]. Qed.

Lemma sizes_bin q n o l r w : sizes_ok q l -> sizes_ok q r -> eval q (EBin n o l r) = Some w -> length (snd w) = prod (fst w) -> snd w <> [] ->
  sizes_ok q (EBin n o l r).
Proof. intros Hl Hr E L N k y Hy V. destruct (At_bin_inv _ _ _ _ _ _ Hy) as [[_ ->]|[(k' & Hk)|(k' & Hk)]]; eauto. Qed.

(** the slot of a sub-expression tells where it is in the operand *)
Lemma At_un_slot n o (x : expr A) k y : At (EUn n o x) k y -> (k = None /\ y = EUn n o x) \/ exists k', At x k' y /\ k = match k' with None => Some (n, false) | _ => k' end.
Proof.
  intros H. induction H as [|k m o' y H IH|k m o' l r H IH|k m o' l r H IH]; [now left| | |];
    right; (destruct IH as [[_ E]|(k' & Hk & _)]; [try discriminate E|]).
  - injection E as -> _ ->. exists None. split; [constructor|reflexivity].
  - exists (Some (m, false)). split; [exact (At_un _ _ _ _ _ Hk)|reflexivity].
  - exists (Some (m, false)). split; [exact (At_left _ _ _ _ _ _ Hk)|reflexivity].
  - exists (Some (m, true)). split; [exact (At_right _ _ _ _ _ _ Hk)|reflexivity].
Qed.

Lemma At_below n o (x : expr A) k y : At x k y -> At (EUn n o x) (match k with None => Some (n, false) | _ => k end) y.
Proof.
  intros H. induction H as [|k m o' y H IH|k m o' l r H IH|k m o' l r H IH].
  - exact (At_un _ _ _ _ _ (At_root _)).
  - exact (At_un _ _ _ _ _ IH).
  - exact (At_left _ _ _ _ _ _ IH).
  - exact (At_right _ _ _ _ _ _ IH).
Qed.

Lemma disciplined_un q n o x : disciplined q x -> disciplined q (EUn n o x).
Proof.
  intros H k m l r Ha Hi y Hy. destruct (At_un_inv _ _ _ _ _ Ha) as [[_ E]|(k' & Hk)]; [discriminate E|].
  destruct (H k' m l r Hk Hi y Hy) as [L U]. split; [exact L|]. intros k1 k2 H1 H2 Ny.
  destruct (At_un_slot _ _ _ _ _ H1) as [[-> ->]|(k1' & H1' & ->)].
  - exfalso. (* the node would be inside itself *)
    assert (S1 : forall (z y : expr A), In y (path zero one add mul q z) -> size y <= size z).
    { clear. induction z as [| | | |m o z IH|m o l IHl r IHr]; intros y Hy; cbn [path] in Hy; destruct Hy as [<-|Hy]; try lia; try destruct Hy.
      - destruct o; [destruct Hy|]. specialize (IH y Hy). cbn [size]. lia.
      - destruct o; [|destruct Hy]. destruct l; try (destruct Hy; fail); try (destruct (inplace _ _ _ _ _ _ _); [|destruct Hy]; specialize (IHl y Hy); cbn [size] in *; lia). }
    assert (S2 : forall k (z : expr A), At x k z -> size z <= size x).
    { clear. intros k z H. induction H; cbn [size] in *; lia. }
    specialize (S1 l _ Hy). specialize (S2 k' _ Hk). cbn [size] in S1, S2. lia.
  - destruct (At_un_slot _ _ _ _ _ H2) as [[-> ->]|(k2' & H2' & ->)].
    + exfalso.
      assert (S2 : forall k (z : expr A), At x k z -> size z <= size x) by (clear; intros k z H; induction H; cbn [size] in *; lia).
      specialize (S2 k1' _ H1'). cbn [size] in S2. lia.
    + now rewrite (U k1' k2' H1' H2' Ny).
Qed.

Lemma legible_un q n o x : legible q x -> legible q (EUn n o x).
Proof.
  intros H k m l r Ha Hi y Hy. destruct (At_un_inv _ _ _ _ _ Ha) as [[_ E]|(k' & Hk)]; [discriminate E|]. exact (H k' m l r Hk Hi y Hy).
Qed.

End Build.

Section Right.
Variable dbg : bool.
Lemma right_un q n o x : right_everywhere dbg q x -> (forall i, evalR q x = Some i -> right1 o i) -> right_everywhere dbg q (EUn n o x).
Proof.
  intros [R1 R2] H. split.
  - intros k m o' y i Ha Hi. destruct (At_un_inv _ _ _ _ _ Ha) as [[_ E]|(k' & Hk)]; [injection E as -> -> ->; now apply H|exact (R1 k' m o' y i Hk Hi)].
  - intros k m o' l r a b Ha Hi. destruct (At_un_inv _ _ _ _ _ Ha) as [[_ E]|(k' & Hk)]; [discriminate E|exact (R2 k' m o' l r a b Hk Hi)].
Qed.
Lemma right_bin q n o l r : right_everywhere dbg q l -> right_everywhere dbg q r -> (forall a b, operandsR q l r = Some (a, b) -> right2 dbg o a b) ->
  right_everywhere dbg q (EBin n o l r).
Proof.
  intros [R1 R2] [R3 R4] H. split.
  - intros k m o' y i Ha Hi. destruct (At_bin_inv _ _ _ _ _ _ Ha) as [[_ E]|[(k' & Hk)|(k' & Hk)]]; [discriminate E|exact (R1 k' m o' y i Hk Hi)|exact (R3 k' m o' y i Hk Hi)].
  - intros k m o' a b va vb Ha Hi. destruct (At_bin_inv _ _ _ _ _ _ Ha) as [[_ E]|[(k' & Hk)|(k' & Hk)]];
      [injection E as -> -> -> ->; now apply H|exact (R2 k' m o' a b va vb Hk Hi)|exact (R4 k' m o' a b va vb Hk Hi)].
Qed.
Lemma right_hold q p : right_everywhere dbg q (EHold p).
Proof. split; intros *; intros H; inversion H; subst; match goal with H : At (EHold _) _ _ |- _ => idtac | _ => idtac end; exfalso; clear -H;
  remember (EHold p) as e eqn:E; apply At_all in H; rewrite E in H; cbn in H; destruct H as [H|[]]; discriminate H. Qed.
End Right.
