(** Property C72: what the tensor returned by a run shows after later runs. *)
From Coq Require Import Reals List Arith Lia Bool PeanoNat ZArith.
From Verif Require Import ListBase TensorModel TensorSpec TensorProofs TensorProofs2 ArrayModel GraphModel GraphSpec GraphProofs GraphProofs2
  GraphProofs3 GraphProofs4 GraphProps GradSpec GradProofs GradProofs2 GradProofs3 OpModel ShareProps StaleSpec StaleProofs.
Import ListNotations.
Local Open Scope nat_scope.

Section Stale.
Context {A : Type} (zero one : A) (add mul : A -> A -> A) (opp : A -> A) (leb : A -> A -> bool) (eps : A).
Variable dbg : bool.
Notation run := (run zero one add mul dbg).
Notation backs := (backs zero one add mul opp leb eps dbg).
Notation runnable := (runnable zero one add mul).
Notation maker := (maker zero one add mul).
Notation fresh := (fresh zero one add mul).
Notation owner_of := (owner_of zero one add mul).

(** What a program does with the expression e: placeholders are bound to new tensors, elements are written into storages it may
    write to (by an optimiser, say), the learning phase and the flags of the variables are changed, e is run, e is run and
    gradients are sent back. *)
Inductive later (e : expr A) (may : nat -> Prop) : st A -> st A -> Prop :=
| la_none s : later e may s s
| la_bind s s' p sh d : later e may s s' ->
    later e may s (set_holders (set_hp s' (hp s' ++ [d])) (fupd (holders s') p (Some (mkT sh (length (hp s'))))))
| la_write s s' r d : later e may s s' -> may r -> length d = length (nth r (hp s') []) -> later e may s (set_hp s' (upd (hp s') r d))
| la_phase s s' b : later e may s s' -> later e may s (set_training s' b)
| la_flags s s' f : later e may s s' -> later e may s (set_vobjs s' f)
| la_run s s' t s1 : later e may s s' -> runnable e s' -> run e s' = Ok (t, s1) -> later e may s s1
| la_train s s' gs dss t s1 s2 : later e may s s' -> runnable e s' -> NoDup (ids e) -> legible zero one add mul (env_of s') e ->
    Forall2 (fun g ds => grads zero one add mul dbg (env_of s') None e g = Some ds /\ Forall (fits (env_of s')) ds) gs dss ->
    run e s' = Ok (t, s1) -> backs e gs s1 = Ok (tt, s2) -> later e may s s2.

Lemma owner_maker q x : owner_of q x = match maker q x with EUn n _ _ | EBin n _ _ _ => OOp n | EVal _ => OTmp | _ => OLeaf end.
Proof.
  induction x as [| | | |n o y IH|n o l IHl r IHr]; try reflexivity.
  - destruct o; [reflexivity|exact IH].
  - destruct o; [|reflexivity]. cbn [GraphProofs.owner_of StaleSpec.maker]. destruct (negb (is_value l) && inplace zero one add mul q l r); [exact IHl|reflexivity].
Qed.

Lemma maker_at q x : exists k, At x k (maker q x).
Proof.
  induction x as [| | | |n o y [k IH]|n o l [k IHl] r IHr]; try (exists None; constructor).
  - destruct o; [exists None; constructor|]. cbn [StaleSpec.maker]. destruct (At_trans (EUn n (UView f) y) (Some (n, false)) y (At_un _ None _ _ _ (At_root _)) _ _ IH) as (k' & Hk & _). eauto.
  - destruct o; [|exists None; constructor]. cbn [StaleSpec.maker]. destruct (negb (is_value l) && inplace zero one add mul q l r); [|exists None; constructor].
    destruct (At_trans (EBin n BPlus l r) (Some (n, false)) l (At_left _ None _ _ _ _ (At_root _)) _ _ IHl) as (k' & Hk & _). eauto.
Qed.

Lemma nth_same {T} (d : T) (a b : list T) r : nth_error a r = nth_error b r -> nth r a d = nth r b d.
Proof. intros E. rewrite <- !nth_default_eq. unfold nth_default. now rewrite E. Qed.

Section Expression.
Variable e : expr A.
Hypothesis Hv : forall c, e <> EVal c.
Hypothesis Hc : consistent e.

(** what a run of e preserves *)
Lemma run_keeps s who t s1 : runnable e s -> separate e s who -> graded e s -> run e s = Ok (t, s1) ->
  exists who1, separate e s1 who1 /\ graded e s1 /\ vars s1 = vars s /\ length (hp s) <= length (hp s1) /\
    (forall r, r < length (hp s) -> who1 r = who r) /\
    (forall r, r < length (hp s) -> who r = OLeaf -> nth_error (hp s1) r = nth_error (hp s) r) /\
    (forall n u, own s n = Some u -> exists u', own s1 n = Some u' /\ ref u' = ref u) /\
    (node_id e <> None -> ref t < length (hp s1) /\ who1 (ref t) = owner_of (env_of s) e).
Proof.
  intros [Z D] S Gd R. destruct (run_link zero one add mul dbg e s who t s1 Hv Hc Z D S R) as [_ G].
  destruct (run_ok zero one add mul dbg e s who Hv Hc Z D S) as (t' & s' & who' & R1 & R2 & R3 & R4 & P & R6).
  rewrite R in R1. injection R1 as <- <-. pose proof P as [P1 P2 P3 P4 P5 P6 P7].
  exists who'. split; [exact R6|].
  pose proof (x_vars _ _ _ _ _ P2) as Ev. cbn [set_ran set_cache vars] in Ev.
  split; [|split; [exact Ev|split; [exact (x_len _ _ _ _ _ P2)|split; [exact (x_who _ _ _ _ _ P2)|split; [|split; [exact (g_own _ _ _ G)|]]]]]].
  - intros k v Hk. destruct (Gd k v Hk) as [G1 G2]. rewrite Ev. split; [assumption|]. destruct S as (S1 & _). destruct (S1 k v Hk) as (_ & W2 & L2).
    destruct (x_grad _ _ _ _ _ P2 (ref (vgrad (vars s v))) v L2 W2) as [E|[_ E]]; cbn [set_ran set_cache hp] in E.
    + rewrite <- G2. f_equal. now apply nth_same.
    + apply nth_error_nth with (d := []) in E. rewrite E, repeat_length. exact G2.
  - intros r Hr Wr. apply (x_frame _ _ _ _ _ P2 r Hr); congruence.
  - intros Ne. destruct (node_id e) as [n|] eqn:En; [|congruence].
    assert (Cn : cache s1 n = Some t) by (destruct e; try discriminate; injection En as ->; exact P3).
    destruct (i_cache _ _ _ _ _ _ _ _ P1 n t Cn) as (k & x & Q).
    pose proof (Hc _ _ _ _ n (c_at _ _ _ _ _ _ _ _ _ _ _ _ Q) (At_root e) (c_id _ _ _ _ _ _ _ _ _ _ _ _ Q) En) as ->.
    split; [exact (c_live _ _ _ _ _ _ _ _ _ _ _ _ Q)|exact (c_who _ _ _ _ _ _ _ _ _ _ _ _ Q)].
Qed.

(** what everything that comes later preserves *)
Record kept (r0 : option nat) (s s' : st A) : Prop := {
  k_sep : exists who, separate e s' who /\ forall r, r0 = Some r -> who r = OLeaf;
  k_graded : graded e s';
  k_len : length (hp s) <= length (hp s');
  k_own : forall n u, own s n = Some u -> exists u', own s' n = Some u' /\ ref u' = ref u;
  k_data : forall r, r0 = Some r -> nth_error (hp s') r = nth_error (hp s) r
}.

Lemma kept_trans r0 s1 s2 s3 : kept r0 s1 s2 -> kept r0 s2 s3 -> kept r0 s1 s3.
Proof.
  intros [A1 A2 A3 A4 A5] [B1 B2 B3 B4 B5]. constructor; auto; [lia| |].
  - intros n u E. destruct (A4 n u E) as (u1 & E1 & R1). destruct (B4 n u1 E1) as (u2 & E2 & R2). exists u2. split; [assumption|congruence].
  - intros r Hr. rewrite B5, A5; auto.
Qed.

Lemma later_kept r0 may s s' : later e may s s' -> (forall r, r0 = Some r -> ~ may r /\ r < length (hp s)) ->
  (exists who, separate e s who /\ forall r, r0 = Some r -> who r = OLeaf) -> graded e s -> kept r0 s s'.
Proof.
  intros H. induction H as [s|s s' p sh d H IH|s s' r d H IH Hm Hd|s s' b H IH|s s' f H IH|s s' t s1 H IH Hr R1|s s' gs dss t s1 s2 H IH Hr Nd Lg F R1 R2]; intros Hr0 Sw Gd.
  - constructor; eauto.
  - specialize (IH Hr0 Sw Gd). apply (kept_trans _ _ _ _ IH). destruct IH as [(who & (S1 & S2 & S3 & S4 & S5) & W0) Gd' L' O' D'].
    assert (W : forall i, i < length (hp s') -> who_new who (length (hp s')) OLeaf i = who i) by (intros; now apply who_new_old).
    assert (WL : forall i, who i = OLeaf -> who_new who (length (hp s')) OLeaf i = OLeaf).
    { intros i Hi. unfold who_new. destruct (i <? length (hp s')); auto. }
    constructor; cbn [set_holders set_hp hp own]; [| |rewrite app_length; lia|eauto|].
    + exists (who_new who (length (hp s')) OLeaf). split; [|intros r Er; apply WL; auto].
      split; [|split; [|split; [|split]]]; cbn [set_holders set_hp hp vars holders own ownb]; rewrite ?app_length.
      * intros k v Hk. destruct (S1 k v Hk) as (W1 & W2 & L). split; [now apply WL|]. split; [now rewrite W|]. cbn. lia.
      * intros k p' t Hk E. unfold fupd in E. destruct (p' =? p) eqn:Ep.
        -- injection E as <-. cbn [ref]. now apply who_new_new.
        -- apply WL. now apply (S2 k p' t).
      * intros k t Hk. apply WL. now apply (S3 k).
      * intros n t E. destruct (S4 n t E) as [W1 L]. rewrite W by assumption. split; [assumption|]. cbn. lia.
      * intros n b t E. destruct (S5 n b t E) as [W1 L]. rewrite W by assumption. split; [assumption|]. cbn. lia.
    + intros k v Hk. destruct (Gd' k v Hk) as [G1 G2]. destruct (S1 k v Hk) as (_ & _ & L). cbn [set_holders set_hp hp vars]. split; [exact G1|].
      rewrite app_nth1 by assumption. exact G2.
    + intros r Er. destruct (Hr0 r Er). apply nth_error_app1. lia.
  - specialize (IH Hr0 Sw Gd). apply (kept_trans _ _ _ _ IH). destruct IH as [(who & (S1 & S2 & S3 & S4 & S5) & W0) Gd' L' O' D'].
    assert (Nl : forall i, length (nth i (upd (hp s') r d) []) = length (nth i (hp s') [])).
    { intros i. destruct (Nat.lt_ge_cases r (length (hp s'))) as [L|L].
      - rewrite nth_upd by assumption. destruct (Nat.eqb_spec r i) as [->|]; auto.
      - now rewrite upd_out by assumption. }
    constructor; cbn [set_hp hp own]; [| |rewrite upd_length; lia|eauto|].
    + exists who. split; [|assumption]. split; [|split; [|split; [|split]]]; cbn [set_hp hp vars holders own ownb]; rewrite ?upd_length; auto.
    + intros k v Hk. destruct (Gd' k v Hk) as [G1 G2]. cbn [set_hp hp vars]. split; [exact G1|]. now rewrite Nl.
    + intros i Ei. destruct (Hr0 i Ei) as [Ni _]. apply nth_error_upd_other. intros ->. contradiction.
  - specialize (IH Hr0 Sw Gd). apply (kept_trans _ _ _ _ IH). destruct IH as [S' Gd' L' O' D']. constructor; eauto.
  - specialize (IH Hr0 Sw Gd). apply (kept_trans _ _ _ _ IH). destruct IH as [S' Gd' L' O' D']. constructor; eauto.
  - specialize (IH Hr0 Sw Gd). apply (kept_trans _ _ _ _ IH). destruct IH as [(who & S' & W0) Gd' L' O' D'].
    destruct (run_keeps s' who t s1 Hr S' Gd' R1) as (who1 & K1 & K2 & K3 & K4 & K5 & K6 & K7 & _).
    constructor; auto.
    + exists who1. split; [assumption|]. intros r Er. destruct (Hr0 r Er). rewrite K5 by lia. auto.
    + intros r Er. destruct (Hr0 r Er). apply K6; [lia|auto].
  - specialize (IH Hr0 Sw Gd). apply (kept_trans _ _ _ _ IH). destruct IH as [(who & S' & W0) Gd' L' O' D'].
    destruct (run_keeps s' who t s1 Hr S' Gd' R1) as (who1' & K1 & K2 & K3 & K4 & K5 & K6 & K7 & _). destruct Hr as [Z D].
    destruct (run_binv zero one add mul dbg e s' who Hv Nd Z D Lg S' Gd') as (t' & s1' & who1 & Q1 & Q2 & B1 & V1 & H1 & T1 & L1 & W1 & F1 & _).
    rewrite R1 in Q1. injection Q1 as <- <-.
    destruct (backs_ok zero one add mul opp leb eps dbg e (env_of s') Nd Z gs dss s1 who1 B1 F)
      as (s2' & who2 & Q3 & B2 & L2 & W2 & V2 & H2 & O2 & T2 & Ow2 & F2 & _).
    rewrite R2 in Q3. injection Q3 as <-.
    assert (Wr : forall r, r0 = Some r -> r < length (hp s') /\ who1 r = OLeaf).
    { intros r Er. destruct (Hr0 r Er). split; [lia|]. rewrite W1 by lia. auto. }
    constructor.
    + exists who2. split; [exact (b_sep _ _ _ _ _ _ _ _ B2)|]. intros r Er. destruct (Wr r Er). rewrite W2 by lia. assumption.
    + exact (b_grad _ _ _ _ _ _ _ _ B2).
    + lia.
    + rewrite Ow2. exact K7.
    + intros r Er. destruct (Wr r Er) as [Lr Wr']. rewrite F2; [apply F1; [assumption|intros n; rewrite (W0 r Er); discriminate|intros n; rewrite (W0 r Er); discriminate]|lia|congruence|congruence].
Qed.

(** C72: a result in a storage of its own is kept. *)
Theorem C72_kept s who t s1 s2 : runnable e s -> separate e s who -> graded e s -> run e s = Ok (t, s1) -> fresh (env_of s) e = true ->
  later e (fun r => r <> ref t) s1 s2 -> val_of (hp s2) t = val_of (hp s1) t.
Proof.
  intros Hr S Gd R Fr H. pose proof Hr as [Z D].
  destruct (run_keeps s who t s1 Hr S Gd R) as (who1 & K1 & K2 & K3 & K4 & K5 & K6 & K7 & K8).
  destruct (run_link zero one add mul dbg e s who t s1 Hv Hc Z D S R) as [B G].
  unfold StaleSpec.fresh in Fr. apply andb_prop in Fr. destruct Fr as [Fl Fo]. apply negb_true_iff in Fl. apply negb_true_iff in Fo.
  assert (exists m, owner_of (env_of s) e = OOp m /\ node_id (maker (env_of s) e) = Some m /\ length (hp s) <= ref t) as (m & Om & Im & Lt).
  { rewrite owner_maker. destruct (maker (env_of s) e) as [| | |c|n o y|n o l r]; try discriminate; cbn [backed] in B; [contradiction| |]; rewrite Fo in B; exists n; auto. }
  assert (Ne : node_id e <> None).
  { destruct e; discriminate. }
  destruct (K8 Ne) as [Lt1 Wt]. rewrite Om in Wt.
  destruct K1 as (S1 & S2 & S3 & S4 & S5).
  destruct (later_kept (Some (ref t)) _ s1 s2 H) as [_ _ _ _ Kd].
  - intros r [= <-]. split; [|assumption]. intros N. now apply N.
  - exists (fun r => if r =? ref t then OLeaf else who1 r). split; [|intros r [= <-]; now rewrite Nat.eqb_refl].
    assert (WL : forall i, who1 i = OLeaf -> (if i =? ref t then OLeaf else who1 i) = OLeaf) by (intros i Hi; destruct (i =? ref t); auto).
    split; [|split; [|split; [|split]]].
    + intros k v Hk. destruct (S1 k v Hk) as (W1 & W2 & L2). split; [auto|]. split; [|assumption].
      destruct (Nat.eqb_spec (ref (vgrad (vars s1 v))) (ref t)) as [Q|]; [rewrite Q in W2; congruence|assumption].
    + intros k p u Hk E. apply WL. exact (S2 k p u Hk E).
    + intros k u Hk. apply WL. exact (S3 k u Hk).
    + intros n u E. destruct (S4 n u E) as [W1 L1]. split; [|assumption]. destruct (Nat.eqb_spec (ref u) (ref t)) as [Q|]; [|assumption]. exfalso.
      assert (n = m) by (rewrite Q in W1; congruence). subst n.
      assert (Eo : own s1 m = own s m).
      { apply (g_same _ _ _ G). intros k y Hy Iy. destruct (maker_at (env_of s) e) as [k' Hk'].
        rewrite (Hc _ _ _ _ m Hy Hk' Iy Im). exact Fo. }
      rewrite Eo in E. destruct S as (_ & _ & _ & S4' & _). destruct (S4' m u E) as [_ L0]. lia.
    + intros n b u E. destruct (S5 n b u E) as [W1 L1]. split; [|assumption].
      destruct (Nat.eqb_spec (ref u) (ref t)) as [Q|]; [rewrite Q in W1; congruence|assumption].
  - exact K2.
  - unfold val_of. f_equal. apply nth_same. now apply Kd.
Qed.

(** C72: a result in a buffer of an operator is overwritten by the next run. *)
Theorem C72_overwritten s who t s1 s2 t' s3 : runnable e s -> separate e s who -> graded e s -> run e s = Ok (t, s1) -> 
  later e (fun _ => True) s1 s2 -> runnable e s2 -> run e s2 = Ok (t', s3) ->
  owns (maker (env_of s) e) = true -> maker (env_of s2) e = maker (env_of s) e ->
  ref t' = ref t /\ val_of (hp s3) t = (shape t, snd (val_of (hp s3) t')).
Proof.
  intros Hr S Gd R H Hr2 R2 Ow Em. pose proof Hr as [Z D]. pose proof Hr2 as [Z2 D2].
  destruct (run_keeps s who t s1 Hr S Gd R) as (who1 & K1 & K2 & _).
  destruct (run_link zero one add mul dbg e s who t s1 Hv Hc Z D S R) as [B G].
  destruct (later_kept None _ s1 s2 H) as [(who2 & S2 & _) G2 _ Ko _]; [discriminate|exists who1; split; [assumption|discriminate]|assumption|].
  destruct (run_link zero one add mul dbg e s2 who2 t' s3 Hv Hc Z2 D2 S2 R2) as [B3 G3]. rewrite Em in B3.
  assert (E : ref t' = ref t).
  { destruct (maker (env_of s) e) as [| | |c|n o y|n o l r]; try discriminate; cbn [backed] in B, B3; rewrite Ow in B, B3;
    destruct B as (u & E1 & <-), B3 as (u3 & E3 & <-); destruct (Ko n u E1) as (u2 & E2 & <-); destruct (g_own _ _ _ G3 n u2 E2) as (u4 & E4 & <-); congruence. }
  split; [exact E|]. unfold val_of. cbn [snd]. now rewrite E.
Qed.

(** C72: the result of an expression that only passes views is its leaf's tensor, with another shape. *)
Theorem C72_leaf s who t s1 : runnable e s -> separate e s who -> run e s = Ok (t, s1) -> is_leaf (maker (env_of s) e) = true ->
  exists u, leaf_tensor s (maker (env_of s) e) = Some u /\ ref t = ref u.
Proof.
  intros [Z D] S R Lf. destruct (run_link zero one add mul dbg e s who t s1 Hv Hc Z D S R) as [B G].
  destruct (maker (env_of s) e) as [v|p|u|c|n o y|n o l r]; try discriminate; cbn [backed leaf_tensor] in B |- *.
  - rewrite (g_vars _ _ _ G) in B. eauto.
  - rewrite (g_hold _ _ _ G) in B. exact B.
  - eauto.
Qed.

End Expression.
End Stale.

(** Which results are which: the matrix product, the element-wise functions and the reductions along an axis write into a buffer of
    their own; negative, square, clip, softmax, the element-wise product, sum_reduce and mean_reduce allocate; a sum that fits
    its left operand, and a view, has the storage of that operand. *)
Theorem C72_operators : forall (q : env R) n x l r,
  let made := maker 0%R 1%R Rplus Rmult q in
  let frsh := fresh 0%R 1%R Rplus Rmult q in
  (owns (made (EBin n op_matmul l r)) = true /\ (forall f h, owns (made (EUn n (op_in f h) x)) = true /\ owns (made (EUn n (op_out f h) x)) = true /\ owns (made (EUn n (op_grad f h) x)) = true) /\
   (forall f, owns (made (EUn n (op_pass f) x)) = true) /\ (forall a, owns (made (EUn n (op_scale a) x)) = true) /\ (forall ax, owns (made (EUn n (op_reduce_sum ax) x)) = true) /\
   (forall b ax, owns (made (EUn n (op_reduce_by b ax) x)) = true)) /\
  (frsh (EUn n op_negative x) = true /\ frsh (EUn n op_square x) = true /\ (forall a b, frsh (EUn n (op_clip a b) x) = true) /\ frsh (EUn n op_softmax x) = true /\
   (forall d, frsh (EBin n (op_product d) l r) = true) /\ frsh (EUn n op_sum_reduce x) = true /\ frsh (EUn n op_mean_reduce x) = true) /\
  (forall f, made (EUn n (UView f) x) = made x) /\
  ((forall c, l <> EVal c) -> inplace 0%R 1%R Rplus Rmult q l r = true -> made (EBin n BPlus l r) = made l) /\
  (inplace 0%R 1%R Rplus Rmult q l r = false -> frsh (EBin n BPlus l r) = true).
Proof.
  intros q n x l r made frsh. split; [|split; [|split; [|split]]].
  - split; [reflexivity|]. split; [intros f h; split; [reflexivity|split; reflexivity]|]. split; [reflexivity|]. split; [reflexivity|]. split; reflexivity.
  - split; [reflexivity|]. split; [reflexivity|]. split; [reflexivity|]. split; [reflexivity|]. split; [reflexivity|]. split; reflexivity.
  - reflexivity.
  - intros Nv E. unfold made. cbn [StaleSpec.maker]. rewrite E. destruct l as [| | |c| |]; try reflexivity. now destruct (Nv c).
  - intros E. unfold frsh, StaleSpec.fresh. cbn [StaleSpec.maker]. rewrite E, andb_false_r. reflexivity.
Qed.

(** The layer x W + b on integers, with placeholder x, and its negative. *)
Module Case.
Open Scope Z_scope.
Definition times : bop Z :=
  BNew true (fun a b => match multiply 0 true Z.add Z.mul (mkT (fst a) 0) (mkT (fst b) 1) [snd a; snd b] with Ok (t, h) => Some (val_of h t) | _ => None end)
    true (fun _ _ _ _ => None).
Definition neg : uop Z := UNew false (fun v => Some (fst v, map Z.opp (snd v))) IntoNew (fun i _ g => Some (fst i, snd g)).
Definition dense : expr Z := EBin 1 BPlus (EBin 0 times (EHold 0) (EVar 0)) (EVar 1).
Definition minus_dense : expr Z := EUn 2 neg dense.
(** W = [1 2; 3 4], b = [10 20], x = [1 1] *)
Definition s : st Z :=
  St [[1; 2; 3; 4]; [10; 20]; [0; 0; 0; 0]; [0; 0]; [1; 1]] (fun _ => None) (fun _ => Obj None None None) (fun _ => VObj true true 0 0)
     (fun v => match v with 0%nat => VState (mkT [2; 2]%nat 0) (mkT [2; 2]%nat 2) | _ => VState (mkT [2%nat] 1) (mkT [2%nat] 3) end)
     (fun p => Some (mkT [1; 2]%nat 4)) (fun _ => None) (fun _ _ => None) false [].
Definition who (r : nat) : owner := match r with 2 => OGrad 0 | 3 => OGrad 1 | _ => OLeaf end%nat.
(** bind x to a batch *)
Definition feed (n : nat) (d : list Z) (s : st Z) : st Z :=
  set_holders (set_hp s (hp s ++ [d])) (fupd (holders s) 0%nat (Some (mkT [n; 2]%nat (length (hp s))))).
Notation run := (run 0 1 Z.add Z.mul true).

(** first a batch of one sample, then another one, then a batch of two: what the first tensor shows *)
Definition show (e : expr Z) : option (list (val Z)) :=
  match run e s with
  | Ok (t, s1) =>
      match run e (feed 1 [5; 6] s1) with
      | Ok (t', s2) =>
          match run e (feed 2 [1; 1; 5; 6] s2) with
          | Ok (_, s3) => Some [val_of (hp s1) t; val_of (hp s2) t; val_of (hp s2) t'; val_of (hp s3) t]
          | _ => None
          end
      | _ => None
      end
  | _ => None
  end.
Lemma shown e r : show e = Some r -> exists t s1 t' s2 t'' s3,
  run e s = Ok (t, s1) /\ run e (feed 1 [5; 6] s1) = Ok (t', s2) /\ run e (feed 2 [1; 1; 5; 6] s2) = Ok (t'', s3) /\
  r = [val_of (hp s1) t; val_of (hp s2) t; val_of (hp s2) t'; val_of (hp s3) t].
Proof.
  unfold show. destruct (run e s) as [[t s1]| |]; try discriminate. destruct (run e (feed 1 [5; 6] s1)) as [[t' s2]| |] eqn:E2; try discriminate.
  destruct (run e (feed 2 [1; 1; 5; 6] s2)) as [[t'' s3]| |] eqn:E3; try discriminate. intros [= <-]. exists t, s1, t', s2, t'', s3. auto.
Qed.
Example dense_shows : show dense = Some [([1; 2]%nat, [14; 26]); ([1; 2]%nat, [33; 54]); ([1; 2]%nat, [33; 54]); ([1; 2]%nat, [14; 26; 33; 54])].
Proof. vm_compute. reflexivity. Qed.
Example minus_dense_shows : show minus_dense = Some [([1; 2]%nat, [-14; -26]); ([1; 2]%nat, [-14; -26]); ([1; 2]%nat, [-33; -54]); ([1; 2]%nat, [-14; -26])].
Proof. vm_compute. reflexivity. Qed.

Ltac at_cases H := apply At_all in H; cbn in H; repeat (destruct H as [H|H]; [injection H as <- <-|]); [..|destruct H].

Lemma consistent_md : consistent minus_dense.
Proof. intros k1 k2 x y n H1 H2. at_cases H1; at_cases H2; cbn; congruence. Qed.

Lemma runnable_md s' : vars s' = vars s -> nth 0 (hp s') [] = [1; 2; 3; 4] -> nth 1 (hp s') [] = [10; 20] ->
  (exists n r d, holders s' 0%nat = Some (mkT [n; 2]%nat r) /\ nth r (hp s') [] = d /\ ((n, d) = (1%nat, [1; 1]) \/ (n, d) = (1%nat, [5; 6]) \/ (n, d) = (2%nat, [1; 1; 5; 6]))) ->
  runnable 0 1 Z.add Z.mul minus_dense s' /\ fresh 0 1 Z.add Z.mul (env_of s') minus_dense = true /\
  maker 0 1 Z.add Z.mul (env_of s') dense = EBin 0 times (EHold 0) (EVar 0).
Proof.
  intros Ev E0 E1 (n & r & d & Eh & Ed & Hnd).
  assert (W0 : e_var (env_of s') 0 = ([2; 2]%nat, [1; 2; 3; 4])) by (cbn [env_of e_var]; rewrite Ev; unfold val_of; cbn [s vars vdata shape ref]; now rewrite E0).
  assert (W1 : e_var (env_of s') 1 = ([2]%nat, [10; 20])) by (cbn [env_of e_var]; rewrite Ev; unfold val_of; cbn [s vars vdata shape ref]; now rewrite E1).
  assert (W2 : e_hold (env_of s') 0 = Some ([n; 2]%nat, d)) by (cbn [env_of e_hold]; rewrite Eh; unfold val_of; cbn [shape ref]; now rewrite Ed).
  set (q := env_of s') in *. 
  assert (V1 : exists w, eval 0 1 Z.add Z.mul q (EBin 0 times (EHold 0) (EVar 0)) = Some w /\ fst w = [n; 2]%nat /\ length (snd w) = prod (fst w) /\ snd w <> []).
  { cbn [eval obind2]. rewrite W0, W2. cbn [obind2 fst snd]. destruct Hnd as [Q|[Q|Q]]; injection Q as -> ->; (eexists; split; [vm_compute; reflexivity|]; split; [reflexivity|split; [reflexivity|discriminate]]). }
  assert (V2 : exists w, eval 0 1 Z.add Z.mul q dense = Some w /\ fst w = [n; 2]%nat /\ length (snd w) = prod (fst w) /\ snd w <> []).
  { cbn [dense eval obind2]. rewrite W0, W1, W2. cbn [obind2 fst snd]. destruct Hnd as [Q|[Q|Q]]; injection Q as -> ->; (eexists; split; [vm_compute; reflexivity|]; split; [reflexivity|split; [reflexivity|discriminate]]). }
  assert (Ip : inplace 0 1 Z.add Z.mul q (EBin 0 times (EHold 0) (EVar 0)) (EVar 1) = true).
  { unfold inplace, operands. cbn [eval obind2]. rewrite W0, W1, W2. cbn [obind2 fst snd]. destruct Hnd as [Q|[Q|Q]]; injection Q as -> ->; vm_compute; reflexivity. }
  destruct V1 as (w1 & X1 & X2 & X3 & X4). destruct V2 as (w2 & Y1 & Y2 & Y3 & Y4).
  split; [split|split].
  - intros k x H _. apply At_all in H. cbn in H. destruct H as [H|[H|[H|[H|[H|[H|H]]]]]]; [| | | | | |destruct H]; injection H as <- <-.
    + exists (fst w2, map Z.opp (snd w2)). split; [change (obind2 (eval 0 1 Z.add Z.mul q dense) (fun v => Some (fst v, map Z.opp (snd v))) = Some (fst w2, map Z.opp (snd w2))); now rewrite Y1|].
      split; [cbn [snd fst]; now rewrite map_length|]. cbn [snd]. destruct (snd w2); [now destruct Y4|discriminate].
    + exists w2. auto.
    + exists w1. auto.
    + exists ([n; 2]%nat, d). split; [exact W2|]. destruct Hnd as [Q|[Q|Q]]; injection Q as -> ->; (split; [reflexivity|discriminate]).
    + exists ([2; 2]%nat, [1; 2; 3; 4]). split; [exact (f_equal Some W0)|]. split; [reflexivity|discriminate].
    + exists ([2]%nat, [10; 20]). split; [exact (f_equal Some W1)|]. split; [reflexivity|discriminate].
  - intros k m l r' H _ x Hx. apply At_all in H. cbn in H.
    destruct H as [H|[H|[H|[H|[H|[H|H]]]]]]; try discriminate H; [|destruct H]. injection H as <- <- <- <-.
    cbn [path In] in Hx. destruct Hx as [<-|[]]. split; [reflexivity|].
    assert (forall k', At minus_dense k' (EBin 0 times (EHold 0) (EVar 0)) -> k' = Some (1%nat, false)) as U.
    { intros k' H'. apply At_all in H'. cbn in H'. repeat (destruct H' as [H'|H']; [congruence|]). destruct H'. }
    intros k1 k2 H1 H2 _. now rewrite (U _ H1), (U _ H2).
  - reflexivity.
  - cbn [maker dense]. cbn [is_value negb andb]. now rewrite Ip.
Qed.

Lemma separate_md : separate minus_dense s who.
Proof.
  split; [|split; [|split; [|split]]].
  - intros k v H. apply At_all in H. cbn in H.
    repeat (destruct H as [H|H]; [try discriminate H; injection H as <- <-; cbn; repeat split; lia|]). destruct H.
  - intros k p t _ [= <-]. reflexivity.
  - intros k t H. apply At_all in H. cbn in H. repeat (destruct H as [H|H]; [discriminate H|]). destruct H.
  - discriminate.
  - discriminate.
Qed.

Lemma graded_md : graded minus_dense s.
Proof.
  intros k v H. apply At_all in H. cbn in H.
  repeat (destruct H as [H|H]; [try discriminate H; injection H as <- <-; cbn; split; reflexivity|]). destruct H.
Qed.

Lemma dense_at : At minus_dense (Some (2%nat, false)) dense.
Proof. apply (At_un _ None 2%nat neg). constructor. Qed.

Lemma consistent_d : consistent dense.
Proof. intros k1 k2 x y n H1 H2. at_cases H1; at_cases H2; cbn; congruence. Qed.

Lemma runnable_d s' : runnable 0 1 Z.add Z.mul minus_dense s' -> runnable 0 1 Z.add Z.mul dense s'.
Proof.
  intros [Z D]. split.
  - intros k x H N. destruct (At_trans _ _ _ dense_at _ _ H) as (k' & H' & _). exact (Z k' x H' N).
  - intros k n l r H Ip x Hx. destruct (At_trans _ _ _ dense_at _ _ H) as (k' & H' & _). destruct (D k' n l r H' Ip x Hx) as [L U]. split; [exact L|].
    intros k1 k2 H1 H2 Nn. destruct (At_trans _ _ _ dense_at _ _ H1) as (k1' & H1' & K1). destruct (At_trans _ _ _ dense_at _ _ H2) as (k2' & H2' & K2).
    assert (Q : k1' = k2') by now apply U. destruct k1 as [p1|], k2 as [p2|]; [| | |reflexivity].
    + rewrite <- K1, <- K2 by discriminate. exact Q.
    + inversion H2; subst x. exfalso. clear - H1. apply At_all in H1. cbn in H1. repeat (destruct H1 as [H1|H1]; [discriminate H1|]). destruct H1.
    + inversion H1; subst x. exfalso. clear - H2. apply At_all in H2. cbn in H2. repeat (destruct H2 as [H2|H2]; [discriminate H2|]). destruct H2.
Qed.

(** C72_overwritten: x W + b, then a run on a batch of two *)
Example overwritten_case : exists t s1 t' s2, run dense s = Ok (t, s1) /\ run dense (feed 2 [1; 1; 5; 6] s1) = Ok (t', s2) /\
  val_of (hp s1) t = ([1; 2]%nat, [14; 26]) /\ val_of (hp s2) t' = ([2; 2]%nat, [14; 26; 33; 54]) /\
  ref t' = ref t /\ val_of (hp s2) t = (shape t, snd (val_of (hp s2) t')).
Proof.
  assert (R1 : exists t s1 t' s2, run dense s = Ok (t, s1) /\ run dense (feed 2 [1; 1; 5; 6] s1) = Ok (t', s2) /\ val_of (hp s1) t = ([1; 2]%nat, [14; 26]) /\
    val_of (hp s2) t' = ([2; 2]%nat, [14; 26; 33; 54]) /\ vars s1 = vars s /\ nth 0 (hp s1) [] = [1; 2; 3; 4] /\ nth 1 (hp s1) [] = [10; 20]).
  { destruct (run dense s) as [[t s1]| |] eqn:E1; [|exfalso; revert E1; vm_compute; discriminate|exfalso; revert E1; vm_compute; discriminate].
    destruct (run dense (feed 2 [1; 1; 5; 6] s1)) as [[t' s2]| |] eqn:E2.
    - exists t, s1, t', s2. split; [reflexivity|]. split; [exact E2|]. vm_compute in E1. injection E1 as <- <-. vm_compute in E2. injection E2 as <- <-.
      split; [reflexivity|]. split; [reflexivity|]. split; [reflexivity|]. split; reflexivity.
    - exfalso. revert E2. vm_compute in E1. injection E1 as <- <-. vm_compute. discriminate.
    - exfalso. revert E2. vm_compute in E1. injection E1 as <- <-. vm_compute. discriminate. }
  destruct R1 as (t & s1 & t' & s2 & E1 & E2 & V1 & V2 & Ev & D0 & D1). exists t, s1, t', s2. split; [exact E1|]. split; [exact E2|]. split; [exact V1|]. split; [exact V2|].
  destruct (runnable_md s eq_refl eq_refl eq_refl) as (Rn & _ & Mk).
  { exists 1%nat, 4%nat, [1; 1]. split; [reflexivity|]. split; [reflexivity|]. now left. }
  destruct (runnable_md (feed 2 [1; 1; 5; 6] s1)) as (Rn2 & _ & Mk2).
  { exact Ev. }
  { cbn [feed set_holders set_hp hp]. destruct (hp s1); [discriminate D0|exact D0]. }
  { cbn [feed set_holders set_hp hp]. destruct (hp s1) as [|a [|b h]]; [discriminate D0|discriminate D1|exact D1]. }
  { exists 2%nat, (length (hp s1)), [1; 1; 5; 6]. split; [reflexivity|]. split; [cbn [feed set_holders set_hp hp]; apply nth_middle|]. right. now right. }
  apply (C72_overwritten 0 1 Z.add Z.mul Z.opp Z.leb 0 true dense ltac:(discriminate) consistent_d s who t s1 (feed 2 [1; 1; 5; 6] s1) t' s2 (runnable_d s Rn)).
  - destruct separate_md as (S1 & S2 & S3 & S4 & S5). split; [|split; [|split; [|split]]].
    + intros k v H. destruct (At_trans _ _ _ dense_at _ _ H) as (k' & H' & _). exact (S1 k' v H').
    + intros k p u _ [= <-]. reflexivity.
    + intros k u H. destruct (At_trans _ _ _ dense_at _ _ H) as (k' & H' & _). exact (S3 k' u H').
    + discriminate.
    + discriminate.
  - intros k v H. destruct (At_trans _ _ _ dense_at _ _ H) as (k' & H' & _). exact (graded_md k' v H').
  - exact E1.
  - apply la_bind. apply la_none.
  - exact (runnable_d _ Rn2).
  - exact E2.
  - rewrite Mk. reflexivity.
  - congruence.
Qed.

(** C72_kept: - (x W + b), then a second run on other data *)
Example kept_case : exists t s1 t' s2, run minus_dense s = Ok (t, s1) /\ run minus_dense (feed 1 [5; 6] s1) = Ok (t', s2) /\
  val_of (hp s1) t = ([1; 2]%nat, [-14; -26]) /\ val_of (hp s2) t = val_of (hp s1) t.
Proof.
  assert (R1 : exists t s1 t' s2, run minus_dense s = Ok (t, s1) /\ run minus_dense (feed 1 [5; 6] s1) = Ok (t', s2) /\ val_of (hp s1) t = ([1; 2]%nat, [-14; -26]) /\
    vars s1 = vars s /\ nth 0 (hp s1) [] = [1; 2; 3; 4] /\ nth 1 (hp s1) [] = [10; 20]).
  { destruct (run minus_dense s) as [[t s1]| |] eqn:E1; [|exfalso; revert E1; vm_compute; discriminate|exfalso; revert E1; vm_compute; discriminate].
    destruct (run minus_dense (feed 1 [5; 6] s1)) as [[t' s2]| |] eqn:E2.
    - exists t, s1, t', s2. split; [reflexivity|]. split; [exact E2|]. clear E2. vm_compute in E1. injection E1 as <- <-. split; [reflexivity|]. split; [reflexivity|]. split; reflexivity.
    - exfalso. revert E2. vm_compute in E1. injection E1 as <- <-. vm_compute. discriminate.
    - exfalso. revert E2. vm_compute in E1. injection E1 as <- <-. vm_compute. discriminate. }
  destruct R1 as (t & s1 & t' & s2 & E1 & E2 & V1 & Ev & D0 & D1). exists t, s1, t', s2. split; [exact E1|]. split; [exact E2|]. split; [exact V1|].
  destruct (runnable_md s eq_refl eq_refl eq_refl) as (Rn & Fr & _).
  { exists 1%nat, 4%nat, [1; 1]. split; [reflexivity|]. split; [reflexivity|]. now left. }
  apply (C72_kept 0 1 Z.add Z.mul Z.opp Z.leb 0 true minus_dense ltac:(discriminate) consistent_md s who t s1 s2 Rn separate_md graded_md E1 Fr).
  apply la_run with (s' := feed 1 [5; 6] s1) (t := t').
  - apply la_bind. apply la_none.
  - refine (proj1 (runnable_md (feed 1 [5; 6] s1) Ev _ _ _)).
    + cbn [feed set_holders set_hp hp]. destruct (hp s1); [discriminate D0|exact D0].
    + cbn [feed set_holders set_hp hp]. destruct (hp s1) as [|a [|b h]]; [discriminate D0|discriminate D1|exact D1].
    + exists 1%nat, (length (hp s1)), [5; 6]. split; [reflexivity|]. split; [cbn [feed set_holders set_hp hp]; apply nth_middle|]. right. now left.
  - exact E2.
Qed.
End Case.

(** So keeping the result of one prediction for later is not safe: after the next prediction of x W + b the tensor shows that
    prediction, and after a larger batch its storage no longer has as many elements as its shape says. *)
Theorem C72_results_are_kept_refuted : exists (e : expr Z) s t s1 t' s2 t'' s3 feed1 feed2,
  (forall x, hp (feed1 x) = hp x ++ [[5; 6]%Z]) /\ (forall x, hp (feed2 x) = hp x ++ [[1; 1; 5; 6]%Z]) /\
  run 0%Z 1%Z Z.add Z.mul true e s = Ok (t, s1) /\ run 0%Z 1%Z Z.add Z.mul true e (feed1 s1) = Ok (t', s2) /\ run 0%Z 1%Z Z.add Z.mul true e (feed2 s2) = Ok (t'', s3) /\
  val_of (hp s1) t = ([1; 2], [14; 26]%Z) /\ val_of (hp s2) t = ([1; 2], [33; 54]%Z) /\ val_of (hp s3) t = ([1; 2], [14; 26; 33; 54]%Z).
Proof.
  destruct (Case.shown _ _ Case.dense_shows) as (t & s1 & t' & s2 & t'' & s3 & E1 & E2 & E3 & H).
  exists Case.dense, Case.s, t, s1, t', s2, t'', s3, (Case.feed 1 [5; 6]%Z), (Case.feed 2 [1; 1; 5; 6]%Z).
  split; [reflexivity|]. split; [reflexivity|]. split; [exact E1|]. split; [exact E2|]. split; [exact E3|].
  assert (Q1 : val_of (hp s1) t = ([1; 2], [14; 26]%Z)) by congruence. assert (Q2 : val_of (hp s2) t = ([1; 2], [33; 54]%Z)) by congruence.
  assert (Q3 : val_of (hp s3) t = ([1; 2], [14; 26; 33; 54]%Z)) by congruence. auto.
Qed.
Print Assumptions C72_kept.
Print Assumptions C72_overwritten.
Print Assumptions C72_leaf.
Print Assumptions C72_operators.
Print Assumptions C72_results_are_kept_refuted.
