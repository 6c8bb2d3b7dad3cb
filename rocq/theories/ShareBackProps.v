(** Property C28, for all graphs: an operator that needs its input and occurs twice above a trainable variable has no gradient. *)
From Coq Require Import Reals List Arith Lia Bool PeanoNat ZArith.
From Verif Require Import ListBase TensorModel TensorSpec TensorProofs TensorProofs2 ArrayModel GraphModel GraphSpec GraphProofs GraphProofs2
  GraphProofs3 GraphProofs4 GraphProps GradSpec GradProofs GradProofs2 GradProofs3 OpModel ShareProps ShareBack.
Import ListNotations.
Local Open Scope nat_scope.

Section Tear.
Context {A : Type} (zero one : A) (add mul : A -> A -> A) (opp : A -> A) (leb : A -> A -> bool) (eps : A).
Variable dbg : bool.
Notation run := (run zero one add mul dbg).
Notation backs := (backs zero one add mul opp leb eps dbg).
Notation eval := (eval zero one add mul).

Lemma loc_shape e q s who k y t : consistent e -> GraphProofs2.inv zero one add mul e q s who -> At e k y -> loc s y = Some t ->
  exists w, eval q y = Some w /\ fst w = shape t.
Proof.
  intros C I H E. destruct y as [v|p|c|c|n o x|n o l r]; cbn [loc] in E.
  - injection E as <-. exists (e_var q v). split; [reflexivity|]. now rewrite <- (i_var _ _ _ _ _ _ _ _ I k v H).
  - destruct (i_hold _ _ _ _ _ _ _ _ I k p H) as (t' & E1 & E2). rewrite E1 in E. injection E as <-. eexists. split; [exact E2|reflexivity].
  - injection E as <-. exists (e_const q c). split; [reflexivity|]. now rewrite <- (i_const _ _ _ _ _ _ _ _ I k c H).
  - discriminate E.
  - destruct (i_cache _ _ _ _ _ _ _ _ I n t E) as (k0 & x0 & Q). rewrite (C k k0 (EUn n o x) x0 n H (c_at _ _ _ _ _ _ _ _ _ _ _ _ Q) eq_refl (c_id _ _ _ _ _ _ _ _ _ _ _ _ Q)). exact (c_shape _ _ _ _ _ _ _ _ _ _ _ _ Q).
  - destruct (i_cache _ _ _ _ _ _ _ _ I n t E) as (k0 & x0 & Q). rewrite (C k k0 (EBin n o l r) x0 n H (c_at _ _ _ _ _ _ _ _ _ _ _ _ Q) eq_refl (c_id _ _ _ _ _ _ _ _ _ _ _ _ Q)). exact (c_shape _ _ _ _ _ _ _ _ _ _ _ _ Q).
Qed.

(** every input tensor of the copy that ran has dimensions, if all values have *)
Lemma inputs_shape e q s who k x t0 n : consistent e -> GraphProofs2.inv zero one add mul e q s who -> sizes_ok zero one add mul q e ->
  (forall k x v, At e k x -> eval q x = Some v -> fst v <> []) ->
  cached zero one add mul e q s who n t0 k x ->
  (forall t, in1 (objs s k) = Some t \/ (binary x /\ in2 (objs s k) = Some t) -> real_shape (shape t)) /\ in1 (objs s k) <> None /\ (binary x -> in2 (objs s k) <> None).
Proof.
  intros C I Z D Q. pose proof (c_at _ _ _ _ _ _ _ _ _ _ _ _ Q) as H. pose proof (c_in _ _ _ _ _ _ _ _ _ _ _ _ Q) as Hi. pose proof (c_sub _ _ _ _ _ _ _ _ _ _ _ _ Q) as Sub.
  assert (D' : forall k y w, At e k y -> eval q y = Some w -> real_shape (fst w)).
  { intros k' y w Hy Ew. split; [exact (D k' y w Hy Ew)|]. destruct (Z k' y Hy) as (w' & Ew' & Lw & Nw); [intros c ->; discriminate Ew|].
    rewrite Ew in Ew'. injection Ew' as <-. rewrite <- Lw. destruct (snd w); [now destruct Nw|discriminate]. }
  assert (LS : forall k y t, At e k y -> loc s y = Some t -> real_shape (shape t)).
  { intros k' y t Hy El. destruct (loc_shape e q s who k' y t C I Hy El) as (w & E1 & <-). exact (D' k' y w Hy E1). }
  assert (LN : forall k y, At e k y -> (forall m, In m (ids y) -> cache s m <> None) -> (forall c, y <> EVal c) -> loc s y <> None).
  { intros k' y Hy Hs Nv. destruct y as [v|p|c|c|m o y|m o l r]; cbn [loc]; try discriminate.
    - destruct (i_hold _ _ _ _ _ _ _ _ I k' p Hy) as (t' & E1 & _). now rewrite E1.
    - now destruct (Nv c).
    - apply Hs. now left.
    - apply Hs. now left. }
  assert (TS : forall b c v i t, real_shape (fst v) -> temp one mul s who b c v i -> i = Some t -> real_shape (shape t)).
  { intros b c v i t Hv (t' & -> & E & _) [= <-]. now rewrite E. }
  assert (TN : forall b c v i, temp one mul s who b c v i -> i <> None).
  { intros b c v i (t' & -> & _). discriminate. }
  destruct x as [v|p|c|c|m o y|m o l r]; try (pose proof (c_id _ _ _ _ _ _ _ _ _ _ _ _ Q) as W; discriminate W).
  - cbn [inputs] in Hi. rewrite Hi. pose proof (At_un _ _ _ _ _ H) as Hy.
    assert (Nv : forall c, y <> EVal c). { intros c ->. destruct (Z k _ H ltac:(discriminate)) as (w & E & _). discriminate E. }
    split; [|split; [apply (LN _ y Hy); [intros i Hm; apply Sub; now right|exact Nv]|intros []]].
    intros t [E|[[] _]]. exact (LS _ y t Hy E).
  - pose proof (At_left _ _ _ _ _ _ H) as Hl. pose proof (At_right _ _ _ _ _ _ H) as Hr.
    assert (Sl : forall i, In i (ids l) -> cache s i <> None) by (intros i Hm; apply Sub; right; apply in_or_app; now left).
    assert (Sr : forall i, In i (ids r) -> cache s i <> None) by (intros i Hm; apply Sub; right; apply in_or_app; now right).
    assert (Vl : forall c, l = EVal c -> (forall c', r <> EVal c') -> in2 (objs s k) = loc s r -> (exists v, eval q r = Some v /\ temp one mul s who (is_plus o) c v (in1 (objs s k))) ->
      (forall t, in1 (objs s k) = Some t \/ (binary (EBin m o l r) /\ in2 (objs s k) = Some t) -> real_shape (shape t)) /\ in1 (objs s k) <> None /\ (binary (EBin m o l r) -> in2 (objs s k) <> None)).
    { intros c _ Nr E2 (v & Ev & T). split; [|split; [exact (TN _ _ _ _ T)|intros _; rewrite E2; exact (LN _ _ Hr Sr Nr)]]. intros t [E|[_ E]]; [exact (TS _ _ _ _ _ (D' _ _ _ Hr Ev) T E)|]. rewrite E2 in E. exact (LS _ _ _ Hr E). }
    assert (Vr : forall c, r = EVal c -> (forall c', l <> EVal c') -> in1 (objs s k) = loc s l -> (exists v, eval q l = Some v /\ temp one mul s who (is_plus o) c v (in2 (objs s k))) ->
      (forall t, in1 (objs s k) = Some t \/ (binary (EBin m o l r) /\ in2 (objs s k) = Some t) -> real_shape (shape t)) /\ in1 (objs s k) <> None /\ (binary (EBin m o l r) -> in2 (objs s k) <> None)).
    { intros c _ Nl E1 (v & Ev & T). rewrite E1. split; [|split; [exact (LN _ _ Hl Sl Nl)|intros _; exact (TN _ _ _ _ T)]]. intros t [E|[_ E]]; [exact (LS _ _ _ Hl E)|]. exact (TS _ _ _ _ _ (D' _ _ _ Hl Ev) T E). }
    assert (Vb : (forall c', l <> EVal c') -> (forall c', r <> EVal c') -> in1 (objs s k) = loc s l -> in2 (objs s k) = loc s r ->
      (forall t, in1 (objs s k) = Some t \/ (binary (EBin m o l r) /\ in2 (objs s k) = Some t) -> real_shape (shape t)) /\ in1 (objs s k) <> None /\ (binary (EBin m o l r) -> in2 (objs s k) <> None)).
    { intros Nl Nr E1 E2. rewrite E1, E2. split; [|split; [exact (LN _ _ Hl Sl Nl)|intros _; exact (LN _ _ Hr Sr Nr)]]. intros t [E|[_ E]]; [exact (LS _ _ _ Hl E)|exact (LS _ _ _ Hr E)]. }
    cbn [inputs] in Hi. destruct l as [v|p|c|c|i o1 l|i o1 l1 l2].
    4: { destruct Hi as [E2 Hi]. apply (Vl c eq_refl); [|exact E2|exact Hi]. intros c' ->. destruct Hi as (v & Ev & _). discriminate Ev. }
    all: destruct r as [v2|p2|c2|c2|i2 o2 r1|i2 o2 r1 r2]; destruct Hi as [E1 E2];
      first [apply (Vb ltac:(discriminate) ltac:(discriminate) E1 E2)|apply (Vr _ eq_refl ltac:(discriminate) E1 E2)].
Qed.

(** an object with a second input has a first one *)
Definition paired (s : st A) : Prop := forall k, in1 (objs s k) = None -> in2 (objs s k) = None.
Definition keeps (s s' : st A) : Prop := (paired s -> paired s') /\ forall k, in1 (objs s k) <> None -> in1 (objs s' k) <> None.

Lemma keeps_trans s1 s2 s3 : keeps s1 s2 -> keeps s2 s3 -> keeps s1 s3.
Proof. intros [A1 B1] [A2 B2]. split; auto. Qed.

Lemma keeps_quiet {T} (m : G (A:=A) T) s v s' : ShareProps.quiet m -> m s = Ok (v, s') -> keeps s s'.
Proof. intros Hm E. destruct (Hm _ _ _ E) as [_ O]. unfold keeps, paired. rewrite O. auto. Qed.

Lemma keeps_out k q s u s' : put_out (A:=A) k q s = Ok (u, s') -> keeps s s'.
Proof.
  intros E. injection E as _ <-. split.
  - intros Hp k'. cbn [set_objs objs]. unfold supd. destruct (slot_eqb_spec k' k) as [->|]; cbn [in1 in2]; apply Hp.
  - intros k'. cbn [set_objs objs]. unfold supd. destruct (slot_eqb_spec k' k) as [->|]; cbn [in1 in2]; auto.
Qed.

Lemma keeps_in1 k t s u s' : put_in1 (A:=A) k (Some t) s = Ok (u, s') -> keeps s s' /\ in1 (objs s' k) <> None.
Proof.
  intros E. injection E as _ <-. split; [split|].
  - intros Hp k'. cbn [set_objs objs]. unfold supd. destruct (slot_eqb_spec k' k) as [->|]; cbn [in1 in2]; [discriminate|apply Hp].
  - intros k'. cbn [set_objs objs]. unfold supd. destruct (slot_eqb_spec k' k) as [->|]; cbn [in1 in2]; [discriminate|auto].
  - cbn [set_objs objs]. unfold supd. destruct (slot_eqb_spec k k); cbn [in1]; congruence.
Qed.

Lemma keeps_in2 k t s u s' : in1 (objs s k) <> None -> put_in2 (A:=A) k (Some t) s = Ok (u, s') -> keeps s s'.
Proof.
  intros Hi E. injection E as _ <-. split.
  - intros Hp k'. cbn [set_objs objs]. unfold supd. destruct (slot_eqb_spec k' k) as [->|]; cbn [in1 in2]; [congruence|apply Hp].
  - intros k'. cbn [set_objs objs]. unfold supd. destruct (slot_eqb_spec k' k) as [->|]; cbn [in1 in2]; auto.
Qed.

Lemma keeps_in2_in1 k t1 t2 s u s1 (m : G (A:=A) tensor) v s2 u' s3 : put_in2 (A:=A) k (Some t2) s = Ok (u, s1) -> ShareProps.quiet m -> m s1 = Ok (v, s2) ->
  put_in1 (A:=A) k (Some t1) s2 = Ok (u', s3) -> keeps s s3.
Proof.
  intros E Hm E1 E2. destruct (Hm _ _ _ E1) as [_ O]. injection E2 as _ <-. injection E as _ <-. split.
  - intros Hp k'. cbn [set_objs objs]. rewrite O. cbn [set_objs objs]. unfold supd. destruct (slot_eqb_spec k' k) as [->|]; cbn [in1 in2]; [discriminate|apply Hp].
  - intros k'. cbn [set_objs objs]. rewrite O. cbn [set_objs objs]. unfold supd. destruct (slot_eqb_spec k' k) as [->|]; cbn [in1 in2]; [discriminate|auto].
Qed.

Lemma forward_keeps e : forall k s t s', forward zero one add mul dbg k e s = Ok (t, s') -> keeps s s'.
Proof.
  assert (QR : forall n s q s', query (A:=A) n s = Ok (q, s') -> s' = s) by (intros n s q s' E; injection E as _ <-; reflexivity).
  assert (TL : forall k n s1 t s' (act : G (A:=A) tensor), ShareProps.quiet act ->
    gbind act (fun t => gbind (put_out k (Some t)) (fun _ => gbind (update n t) (fun _ => gbind (modify (fun s => set_ran s (n :: ran s))) (fun _ => gret t)))) s1 = Ok (t, s') -> keeps s1 s').
  { intros k n s1 t s' act Qa E. apply bind_ok in E as (t1 & s2 & E1 & E). apply bind_ok in E as (u & s3 & E2 & E).
    apply bind_ok in E as (u' & s4 & E3 & E). apply bind_ok in E as (u'' & s5 & E4 & E). injection E3 as _ <-. injection E4 as _ <-. injection E as _ <-.
    pose proof (keeps_quiet _ _ _ _ Qa E1) as K1. pose proof (keeps_out _ _ _ _ _ E2) as K2. exact (keeps_trans _ _ _ K1 K2). }
  induction e as [v|p|c|c|n o x IH|n o l IHl r IHr]; intros k s t s' E; cbn [GraphModel.forward] in E.
  - exact (keeps_quiet _ _ _ _ (quiet_var zero k v) E).
  - exact (keeps_quiet _ _ _ _ (quiet_hold dbg p) E).
  - exact (keeps_quiet _ _ _ _ (quiet_ret c) E).
  - discriminate E.
  - apply bind_ok in E as (q & s1 & E1 & E). apply QR in E1. subst s1. apply bind_ok in E as (u & s2 & E2 & E). pose proof (keeps_out _ _ _ _ _ E2) as K2.
    destruct q as [c|]; [injection E as _ <-; exact K2|].
    apply bind_ok in E as (i & s3 & E3 & E). pose proof (IH _ _ _ _ E3) as K3. apply bind_ok in E as (u' & s4 & E4 & E). destruct (keeps_in1 _ _ _ _ _ E4) as [K4 _].
    pose proof (TL k n s4 t s' (un_forward n o i) (quiet_un n o i) E) as K5. eauto using keeps_trans.
  - apply bind_ok in E as (q & s1 & E1 & E). apply QR in E1. subst s1. apply bind_ok in E as (u & s2 & E2 & E). pose proof (keeps_out _ _ _ _ _ E2) as K2.
    destruct q as [c|]; [injection E as _ <-; exact K2|]. apply bind_ok in E as (lr & s3 & E3 & E).
    pose proof (TL k n s3 t s' (bin_forward zero add dbg n o (fst lr) (snd lr)) (quiet_bin zero add dbg n o (fst lr) (snd lr)) E) as K5.
    apply (keeps_trans _ _ _ K2). refine (keeps_trans _ _ _ _ K5). clear E K5 K2 E2.
    assert (G1 : forall c, gbind (forward zero one add mul dbg (Some (n, true)) r) (fun rt => gbind (put_in2 k (Some rt)) (fun _ =>
                gbind (value_forward one mul c rt) (fun lt => gbind (put_in1 k (Some lt)) (fun _ => gret (lt, rt))))) s2 = Ok (lr, s3) -> keeps s2 s3).
    { intros c E. apply bind_ok in E as (rt & sa & Ea & E). apply bind_ok in E as (ub & sb & Eb & E). apply bind_ok in E as (lt & sc & Ec & E).
      apply bind_ok in E as (ud & sd & Ed & E). injection E as _ <-. apply (keeps_trans _ _ _ (IHr _ _ _ _ Ea)). exact (keeps_in2_in1 _ _ _ _ _ _ _ _ _ _ _ Eb (quiet_heaply _) Ec Ed). }
    assert (G2 : forall c, gbind (forward zero one add mul dbg (Some (n, false)) l) (fun lt => gbind (put_in1 k (Some lt)) (fun _ =>
                gbind (value_forward one mul c lt) (fun rt => gbind (put_in2 k (Some rt)) (fun _ => gret (lt, rt))))) s2 = Ok (lr, s3) -> keeps s2 s3).
    { intros c E. apply bind_ok in E as (lt & sa & Ea & E). apply bind_ok in E as (ub & sb & Eb & E). apply bind_ok in E as (rt & sc & Ec & E).
      apply bind_ok in E as (ud & sd & Ed & E). injection E as _ <-. destruct (keeps_in1 _ _ _ _ _ Eb) as [Kb Ib]. pose proof (keeps_quiet _ _ _ _ (quiet_heaply _) Ec) as Kc.
      pose proof (keeps_in2 _ _ _ _ _ (proj2 Kc k Ib) Ed) as Kd. eauto using keeps_trans. }
    assert (G3 : gbind (forward zero one add mul dbg (Some (n, false)) l) (fun lt => gbind (put_in1 k (Some lt)) (fun _ =>
                gbind (forward zero one add mul dbg (Some (n, true)) r) (fun rt => gbind (put_in2 k (Some rt)) (fun _ => gret (lt, rt))))) s2 = Ok (lr, s3) -> keeps s2 s3).
    { intros E. apply bind_ok in E as (lt & sa & Ea & E). apply bind_ok in E as (ub & sb & Eb & E). apply bind_ok in E as (rt & sc & Ec & E).
      apply bind_ok in E as (ud & sd & Ed & E). injection E as _ <-. destruct (keeps_in1 _ _ _ _ _ Eb) as [Kb Ib]. pose proof (IHr _ _ _ _ Ec) as Kc.
      pose proof (keeps_in2 _ _ _ _ _ (proj2 Kc k Ib) Ed) as Kd. eauto using keeps_trans. }
    clear - E3 G1 G2 G3.
    destruct l; try (apply (G1 _ E3)); destruct r; first [exact (G3 E3)|exact (G2 _ E3)].
Qed.

Lemma inside k (x : expr A) k' v : At x k' (EVar v) -> k' <> None -> In (k', EVar v) (all_at k x).
Proof.
  intros H N. apply At_all in H. destruct x as [w|p|c|c|n o x|n o l r]; cbn [all_at In] in *; destruct H as [H|H]; try (injection H as H1 H2; congruence); try discriminate H; now right.
Qed.

(** C28: an operator whose backward action makes nothing out of an empty input, that is used in two places, and that depends on a
    trainable variable: no call of backward() after a first run comes to an end, whatever the gradient handed in. *)
Theorem C28_shared_operator_fails e s who : (forall c, e <> EVal c) -> consistent e -> runnable zero one add mul e s -> separate e s who -> graded e s ->
  (forall k, in1 (objs s k) = None /\ in2 (objs s k) = None) ->
  (forall k x v, At e k x -> eval (env_of s) x = Some v -> fst v <> []) ->
  (forall k x, At e k x -> shaped x) ->
  (forall k1 k2 x, At e k1 x -> At e k2 x -> k1 <> k2 -> shaped_missing x) ->
  forall x k1 k2 k v, At e k1 x -> At e k2 x -> k1 <> k2 -> needs_input x -> strict_in x -> At x k (EVar v) -> trainable (vobjs s k) = true ->
  exists t s', run e s = Ok (t, s') /\ forall g, good g -> forall u s'', backs e [g] s' <> Ok (u, s'').
Proof.
  intros V C Rn S Gd H0 D Sh Vw x k1 k2 k v H1 H2 Nk Nx Sx Hv Tv.
  destruct (C28_one_copy_has_input zero one add mul dbg e s who V C Rn S (fun k N => N (proj1 (H0 k)))) as (t & s' & R & One & All). exists t, s'. split; [exact R|].
  intros g Gg u s'' E. destruct Rn as [Z Di].
  destruct (run_ok zero one add mul dbg e s who V C Z Di S) as (t1 & s1 & who' & R1 & R2 & R3 & R4 & P & R6).
  rewrite R in R1. injection R1 as <- <-. pose proof P as [P1 P2 P3 P4 P5 P6 P7]. set (s0 := set_ran (set_cache s (fun _ => None)) []) in *.
  pose proof (x_vars _ _ _ _ _ P2) as XV. cbn [s0 set_ran set_cache vars] in XV.
  pose proof S as (S1 & _). pose proof R6 as (T1 & _ & _ & _ & T5).
  assert (Gd' : graded e s').
  { intros k' w H. destruct (Gd k' w H) as [G1 G2]. rewrite XV. split; [exact G1|]. rewrite <- G2. destruct (S1 k' w H) as (_ & W & Lg).
    destruct (x_grad _ _ _ _ _ P2 _ w Lg W) as [E'|[_ E']].
    - cbn [s0 set_ran set_cache hp] in E'. now rewrite (nth_error_nth_eq _ _ _ E').
    - cbn [s0 set_ran set_cache hp] in E'. rewrite (repeat_len_nth _ _ _ E'). now rewrite repeat_length. }
  assert (Inp : forall k' y n, At e k' y -> node_id y = Some n -> exists k0, At e k0 y /\ in1 (objs s' k0) <> None /\ (binary y -> in2 (objs s' k0) <> None) /\ (forall t, in1 (objs s' k0) = Some t \/ (binary y /\ in2 (objs s' k0) = Some t) -> real_shape (shape t))).
  { intros k' y n Hy Ny. assert (Hn : In n (ids e)) by (apply ids_At; eauto).
    destruct (cache s' n) as [tn|] eqn:En; [|now destruct (P5 n Hn)]. destruct (i_cache _ _ _ _ _ _ _ _ P1 n tn En) as (k0 & y0 & Q).
    assert (y0 = y) by (apply (C k0 k' y0 y n (c_at _ _ _ _ _ _ _ _ _ _ _ _ Q) Hy (c_id _ _ _ _ _ _ _ _ _ _ _ _ Q) Ny)). subst y0.
    destruct (inputs_shape e (env_of s) s' who' k0 y tn n C P1 Z D Q) as (I1 & I2 & I3). exists k0. split; [exact (c_at _ _ _ _ _ _ _ _ _ _ _ _ Q)|]. auto. }
  assert (Pr : paired s').
  { unfold GraphModel.run in R. apply bind_ok in R as (u0 & s1 & E1 & E2). injection E1 as _ <-. apply (forward_keeps _ _ _ _ _ E2). intros k' _. apply (H0 k'). }
  (* the seed *)
  cbn [GradSpec.backs] in E. apply bind_ok in E as (tg & s2 & E2 & E). unfold new_tensor, heaply, alloc in E2. injection E2 as <- <-.
  apply bind_ok in E as ([] & s3 & E3 & _).
  destruct (fresh_id (ids e)) as (m & Hm). set (L := length (hp s')) in *. set (who2 := who_new who' L (OBack m false)).
  set (s2 := set_hp s' (hp s' ++ [snd g])) in *.
  assert (Old : forall r, r < L -> nth r (hp s2) [] = nth r (hp s') []) by (intros r Hr; unfold s2; cbn [set_hp hp]; now rewrite app_nth1).
  assert (L2 : length (hp s2) = Datatypes.S L) by (unfold s2; cbn [set_hp hp]; rewrite app_length; cbn; unfold L; lia).
  assert (K : kinv e (objs s') (fun k => trainable (vobjs s k)) s2 who2).
  { constructor.
    - reflexivity.
    - intros k'. unfold s2. cbn [set_hp vobjs]. destruct (x_vobj _ _ _ _ _ P2 k') as (Q1 & _). exact Q1.
    - intros k' w Hw. change (vars s2 w) with (vars s' w). destruct (T1 k' w Hw) as (A1 & A2 & A3). destruct (Gd' k' w Hw) as [G1 G2].
      pose proof (i_var _ _ _ _ _ _ _ _ P1 k' w Hw) as Iv.
      destruct (Z k' (EVar w) Hw ltac:(discriminate)) as (z & Ez & Lz & Nz). cbn [GraphSpec.eval] in Ez.
      assert (Ez' : z = e_var (env_of s) w) by congruence. subst z. rewrite <- Iv in Lz, Nz. cbn [val_of fst snd] in Lz, Nz.
      assert (Ld : ref (vdata (vars s' w)) < L).
      { destruct (Nat.lt_ge_cases (ref (vdata (vars s' w))) L) as [Q|Q]; [exact Q|]. destruct Nz. now apply nth_overflow. }
      unfold who2. rewrite !who_new_old by assumption. rewrite !Old by assumption. rewrite L2.
      split; [exact A1|]. split; [lia|]. split; [exact A2|]. split; [unfold L in *; lia|]. split; [exact G1|]. split; [|exact Nz]. now rewrite Lz.
    - intros n b tb Eb. destruct (T5 n b tb Eb) as [W Lb]. unfold who2. rewrite who_new_old by assumption. split; [exact W|unfold L in *; lia]. }
  assert (B : tears e (objs s') (fun k => trainable (vobjs s k)) None e (mkT (fst g) L) s2 s3 who2).
  { eapply (back_tears zero one add mul opp leb eps dbg e C (objs s') (fun k => trainable (vobjs s k)) Sh); try exact E3.
    - intros k' y Hy Ny Z0. destruct (node_id y) as [n|] eqn:En; [|now destruct Ny]. destruct (Inp k' y n Hy En) as (k0 & Hk0 & I1 & I2).
      apply (Vw k' k0 y Hy Hk0). congruence.
    - intros k' y ty Hy Ny Hty. assert (Ni : in1 (objs s' k') <> None) by (intros Z0; destruct Hty as [Q|[_ Q]]; [congruence|rewrite (Pr k' Z0) in Q; discriminate Q]).
      destruct (node_id y) as [n|] eqn:En; [|now destruct Ny]. destruct (Inp k' y n Hy En) as (k0 & Hk0 & I1 & I2 & I3).
      assert (k0 = k') by (apply (One k0 k' y Hk0 Hy); [congruence|exact I1|exact Ni]). subst k0. exact (I3 ty Hty).
    - intros k' y Hy By. split; [apply Pr|]. intros Z0. destruct (in1 (objs s' k')) as [ti|] eqn:Ei; [|reflexivity]. exfalso.
      destruct (node_id y) as [n|] eqn:En; [|destruct y; try destruct By; discriminate En]. destruct (Inp k' y n Hy En) as (k0 & Hk0 & I1 & I2 & I3).
      assert (k0 = k') by (apply (One k0 k' y Hk0 Hy); [congruence|exact I1|unfold has_input; congruence]). subst k0. exact (I2 By Z0).
    - apply At_root.
    - exact K.
    - cbn [ref]. lia.
    - cbn [ref]. unfold who2. now apply who_new_new.
    - exact Hm.
    - unfold val_of, good. cbn [shape ref fst snd]. unfold s2. cbn [set_hp hp]. unfold L. rewrite nth_middle. exact Gg. }
  destruct B as (who3 & _ & _ & _ & B).
  assert (Xn : node_id x <> None) by (destruct x as [| | | |? [|]|? [|]]; cbn in *; try contradiction; discriminate).
  assert (Kn : k <> None) by (intros ->; inversion Hv; subst; now apply Xn).
  assert (Mis : forall k', At e k' x -> in1 (objs s' k') = None -> False).
  { intros k' Hk' Ni. pose proof (B k' x (At_all e k' x Hk') (conj Nx Ni) Sx k v (inside k' x k v Hv Kn)) as F. cbn in F. congruence. }
  destruct (in1 (objs s' k1)) as [i1|] eqn:E1; [|exact (Mis k1 H1 E1)]. destruct (in1 (objs s' k2)) as [i2|] eqn:E2; [|exact (Mis k2 H2 E2)].
  apply Nk, (One k1 k2 x H1 H2 Xn); unfold has_input; congruence.
Qed.

End Tear.
Print Assumptions C28_shared_operator_fails.

(** ** The operators of the library *)

Lemma product_shape dbg (a b v : val R) : product_val dbg a b = Some v -> snd a <> [] /\ snd b <> [] /\ (fst v = fst a \/ fst v = fst b).
Proof.
  assert (Q : forall t1 t2 h t h', nth_error h (ref t1) <> None -> nth_error h (ref t2) <> None ->
    elementwise_product_ordered 0%R dbg Rmult t1 t2 h = Ok (t, h') -> nth (ref t2) h [] <> [] /\ shape t = shape t1).
  { intros t1 t2 h t h' N1 N2. unfold elementwise_product_ordered, deep_copy, alloc, store, TensorModel.bind, data, better_assert, fail_ub, ret.
    destruct (nth_error h (ref t1)) as [d1|] eqn:E1; [|now destruct N1]. destruct (nth_error h (ref t2)) as [d2|] eqn:E2; [|now destruct N2].
    destruct (length d2 =? 0) eqn:E0; [discriminate|]. intros H. split.
    - rewrite (nth_error_nth _ _ [] E2). intros ->. discriminate E0.
    - revert H. destruct (if length d2 * (length d1 / length d2) =? length d1 then _ else _) as [[u h1]| |]; try discriminate.
      destruct (nth_error h1 (ref t1)) as [d3|]; [|discriminate]. destruct (copy_front d3 _ h1) as [[d4 h2]| |]; try discriminate. cbn [ref shape].
      destruct (nth_error (h2 ++ [d4]) (length h2)) as [d5|]; [|discriminate]. destruct (nth_error (h2 ++ [d4]) (ref t2)) as [d6|]; [|discriminate].
      intros [= <- <-]. reflexivity. }
  unfold product_val, pure2. intros H. destruct (elementwise_product 0%R dbg Rmult (mkT (fst a) 0) (mkT (fst b) 1) [snd a; snd b]) as [[t h]| |] eqn:E; try discriminate.
  injection H as <-. cbn [val_of fst]. unfold elementwise_product, TensorModel.bind, data in E. cbn [ref nth_error] in E.
  destruct (Nat.ltb_spec (length (snd a)) (length (snd b))) as [L|L]; apply Q in E; try (cbn; discriminate); cbn [ref nth shape] in E; destruct E as [E1 E2].
  - split; [exact E1|]. split; [intros Z; rewrite Z in L; cbn in L; lia|]. now right.
  - split; [intros Z; rewrite Z in L; cbn in L; apply E1, length_zero_iff_nil; lia|]. split; [exact E1|]. now left.
Qed.

Lemma product_good dbg (a b v : val R) : product_val dbg a b = Some v -> good a -> good b -> good v.
Proof.
  intros H [A1 A2] [B1 B2]. destruct (product_shape _ _ _ _ H) as (Na & Nb & [E|E]); unfold good; rewrite E; auto.
Qed.

(** an operator with a backward action of one of the usual forms *)
Definition usual (x : expr R) : Prop := shaped x /\ shaped_missing x /\ strict x /\ needs_input x.

Lemma real_good (v : val R) : real_shape (fst v) -> good v.
Proof. intros [H1 H2]. split; auto. Qed.
Lemma empty_good : good (A:=R) ([], []).
Proof. split; [cbn; congruence|discriminate]. Qed.

Lemma usual_un n own f m b x : (forall i y g v, b i y g = Some v -> good i -> good g -> good v) -> strict (EUn n (UNew own f m b) x) -> needs_input (EUn n (UNew own f m b) x) ->
  usual (EUn n (UNew own f m b) x).
Proof.
  intros G S N. split; [intros i y g v E R; apply (G i y g v E); now apply real_good|]. split; [intros y g v E; apply (G ([], []) y g v E empty_good)|auto].
Qed.

Lemma usual_bin n own f m b l r : (forall i j y g v w, b i j y g = Some (v, w) -> good i -> good j -> good g -> good v /\ good w) -> strict (EBin n (BNew own f m b) l r) ->
  needs_input (EBin n (BNew own f m b) l r) -> usual (EBin n (BNew own f m b) l r).
Proof.
  intros G S N. split; [intros i j y g v w E Ri Rj; apply (G i j y g v w E); now apply real_good|]. split; [intros y g v w E; apply (G ([], []) ([], []) y g v w E); apply empty_good|auto].
Qed.

Lemma map2_nil_l {X Y Z} (f : X -> Y -> Z) l : map2 f [] l = []. Proof. reflexivity. Qed.
Lemma map2_nil_r {X Y Z} (f : X -> Y -> Z) l : map2 f l [] = []. Proof. now destruct l. Qed.

Lemma good_map2 (f : R -> R -> R) (i g : val R) : good i -> good (fst i, map2 f (snd i) (snd g)).
Proof. intros [G1 G2]. split; [|exact G2]. cbn [fst snd]. intros H. apply G1. intros Z. apply H. now rewrite Z. Qed.

Lemma good_mapg (f : R -> R) (g : val R) : good g -> good (fst g, map f (snd g)).
Proof. intros [G1 G2]. split; [|exact G2]. cbn [fst snd]. intros H. apply G1. intros Z. apply H. now rewrite Z. Qed.

Lemma usual_in own m n x h f : usual (EUn n (UNew own f m (back_in h)) x).
Proof.
  assert (B : forall i y g v, back_in h i y g = Some v -> length (snd i) = length (snd g) /\ v = (fst i, map2 h (snd i) (snd g))).
  { intros i y g v. unfold back_in. destruct (Nat.eqb_spec (length (snd i)) (length (snd g))) as [L|]; [|discriminate]. intros [= <-]. auto. }
  apply usual_un; cbn [strict needs_input].
  - intros i y g v E Gi Gg. apply B in E as [L ->]. now apply good_map2.
  - intros i y g v E Gi Gg Z. apply B in E as [L ->]. cbn [snd]. now rewrite Z, map2_nil_r.
  - intros y g v E Gg. apply B in E as [L ->]. reflexivity.
Qed.

Lemma usual_out own m n x h f : usual (EUn n (UNew own f m (back_out h)) x).
Proof.
  assert (B : forall i y g v, back_out h i y g = Some v -> length (snd i) = length (snd g) /\ v = (fst i, map2 h (snd y) (snd g))).
  { intros i y g v. unfold back_out. destruct (Nat.eqb_spec (length (snd i)) (length (snd g))) as [L|]; [|discriminate]. destruct (_ =? _); [|discriminate]. intros [= <-]. auto. }
  apply usual_un; cbn [strict needs_input].
  - intros i y g v E [G1 G2] Gg. apply B in E as [L ->]. split; [|exact G2]. cbn [fst snd]. intros H. apply G1. intros Z. apply H.
    rewrite Z in L. destruct (snd g); [apply map2_nil_r|discriminate L].
  - intros i y g v E Gi Gg Z. apply B in E as [L ->]. cbn [snd]. now rewrite Z, map2_nil_r.
  - intros y g v E Gg. apply B in E as [L ->]. cbn [snd fst length] in *. destruct (snd g); [apply map2_nil_r|discriminate L].
Qed.

Lemma usual_grad own m n x h f : usual (EUn n (UNew own f m (back_grad h)) x).
Proof.
  assert (B : forall i y g v, back_grad h i y g = Some v -> length (snd i) = length (snd g) /\ v = (fst g, map2 h (snd i) (snd g))).
  { intros i y g v. unfold back_grad. destruct (Nat.eqb_spec (length (snd i)) (length (snd g))) as [L|]; [|discriminate]. intros [= <-]. auto. }
  apply usual_un; cbn [strict needs_input].
  - intros i y g v E Gi [G1 G2]. apply B in E as [L ->]. split; [|exact G2]. cbn [fst snd]. intros H. apply G1. intros Z. apply H. now rewrite Z, map2_nil_r.
  - intros i y g v E Gi Gg Z. apply B in E as [L ->]. cbn [snd]. now rewrite Z, map2_nil_r.
  - intros y g v E Gg. apply B in E as [L ->]. reflexivity.
Qed.

Lemma map3_nil (f : R -> R -> R -> R) a b c : a = [] \/ b = [] \/ c = [] -> map3 f a b c = [].
Proof. destruct a, b, c; intros [H|[H|H]]; try discriminate H; reflexivity. Qed.

Lemma usual_op2 n f hl hr l r : usual (EBin n (op2 f hl hr) l r).
Proof.
  assert (B : forall i j y g v w, back2 hl hr i j y g = Some (v, w) -> length (snd i) = length (snd g) /\ length (snd j) = length (snd g) /\
    v = (fst i, map3 hl (snd i) (snd j) (snd g)) /\ w = (fst j, map3 hr (snd i) (snd j) (snd g))).
  { intros i j y g v w. unfold back2. destruct (Nat.eqb_spec (length (snd i)) (length (snd g))) as [L|]; [|discriminate].
    destruct (Nat.eqb_spec (length (snd j)) (length (snd g))) as [L'|]; [|discriminate]. intros [= <- <-]. auto. }
  apply usual_bin; cbn [strict needs_input].
  - intros i j y g v w E [I1 I2] [J1 J2] Gg. apply B in E as (L1 & L2 & -> & ->). split; (split; [|assumption]); cbn [fst snd]; intros H; [apply I1|apply J1]; intros Z; apply H, map3_nil; auto.
  - intros i j y g v w E Gi Gj Gg Z. apply B in E as (L1 & L2 & -> & ->). cbn [snd]. split; apply map3_nil; auto.
  - intros y g v w E Gg. apply B in E as (L1 & L2 & -> & ->). split; reflexivity.
Qed.

Lemma usual_product dbg n l r : usual (EBin n (op_product dbg) l r).
Proof.
  assert (B : forall i j g v w, match product_val dbg g j, product_val dbg g i with
       | Some ga, Some gb => match unbroadcast 0%R Rplus dbg (fst i) ga, unbroadcast 0%R Rplus dbg (fst j) gb with Some ga, Some gb => Some (ga, gb) | _, _ => None end
       | _, _ => None end = Some (v, w) ->
     snd i <> [] /\ snd j <> [] /\ snd g <> [] /\ (good i -> good j -> good g -> good v /\ good w)).
  { intros i j g v w H. destruct (product_val dbg g j) as [ga|] eqn:E1; [|discriminate H]. destruct (product_val dbg g i) as [gb|] eqn:E2; [|discriminate H].
    destruct (unbroadcast 0%R Rplus dbg (fst i) ga) as [v1|] eqn:E3; [|discriminate H]. destruct (unbroadcast 0%R Rplus dbg (fst j) gb) as [w1|] eqn:E4; [|discriminate H].
    injection H as <- <-. destruct (product_shape _ _ _ _ E1) as (N1 & N2 & _). destruct (product_shape _ _ _ _ E2) as (_ & N3 & _).
    split; [exact N3|]. split; [exact N2|]. split; [exact N1|]. intros Gi Gj Gg.
    split; [apply (unbroadcast_shape _ _ _ _ _ _ E3)|apply (unbroadcast_shape _ _ _ _ _ _ E4)]; eauto using product_good. }
  apply usual_bin; cbn [strict needs_input].
  - intros i j y g v w E. apply (B i j g v w E).
  - intros i j y g v w E _ _ _ Z. destruct (B i j g v w E) as (_ & _ & N & _). now destruct N.
  - intros y g v w E _. destruct (B ([], []) ([], []) g v w E) as (N & _). now destruct N.
Qed.

Lemma fold_none {Y} (f : option Y -> nat -> option Y) n : n <> 0 -> (forall c x, f c x = None) -> forall c, fold_left f (seq 0 n) c = None.
Proof.
  intros Nn H c. destruct n as [|n]; [now destruct Nn|]. cbn [seq fold_left]. rewrite H. generalize (seq 1 n). intros l. induction l as [|x l IH]; [reflexivity|]. cbn [fold_left]. now rewrite H.
Qed.

Lemma gemm_none (a b : list R) ta tb m n k c0 : m <> 0 -> n <> 0 -> k <> 0 -> a = [] \/ b = [] -> gemm_cpu 0%R Rplus Rmult a ta b tb m n k c0 = None.
Proof.
  intros Nm Nn Nk E. unfold gemm_cpu. destruct (_ <=? _); [|reflexivity]. generalize (zeros 0%R (m * k) ++ skipn (m * k) c0). intros c.
  assert (St : forall c r idx col, gemm_step Rplus Rmult a b ta tb m n k c r idx col = None).
  { intros [c1|] r idx col; [|reflexivity]. cbn [gemm_step]. destruct E as [-> | ->].
    - now rewrite (proj2 (nth_error_None [] _)) by (cbn; lia).
    - rewrite (proj2 (nth_error_None (A:=R) [] _)) by (cbn; lia). now destruct (nth_error a _). }
  apply fold_none; [exact Nm|]. intros c1 r. apply fold_none; [exact Nn|]. intros c2 idx. apply fold_none; [exact Nk|]. intros c3 col. apply St.
Qed.

Lemma usual_matmul n l r : usual (EBin n op_matmul l r).
Proof.
  assert (B : forall i j y g v w, match op_matmul with BNew _ _ _ b => b i j y g = Some (v, w) | _ => False end ->
    (exists m p s d k, fst g = m :: p :: s /\ fst i = [d; k] /\ (m <> 0 -> p <> 0 -> k <> 0 -> snd g <> [] /\ snd j <> [])) /\ fst v = fst i /\ fst w = fst j).
  { cbn [op_matmul]. intros i j y g v w E. destruct (fst g) as [|m [|p s]] eqn:Eg; try discriminate E. destruct (fst i) as [|d [|k [|]]] eqn:Ei; try discriminate E.
    destruct (gemm_val (snd g) _ _ _ _ _ _) as [ga|] eqn:E1; [|discriminate E]. destruct (gemm_val (snd i) _ _ _ _ _ _) as [gb|]; [|discriminate E]. injection E as <- <-.
    split; [|auto]. exists m, p, s, d, k. split; [reflexivity|]. split; [reflexivity|]. intros Nm Np Nk. unfold gemm_val in E1.
    split; intros Z; rewrite gemm_none in E1; auto; discriminate E1. }
  assert (B' : forall i j y g v w, match op_matmul with BNew _ _ _ b => b i j y g = Some (v, w) | _ => False end -> good i -> good g ->
    snd g <> [] /\ snd j <> [] /\ fst i <> [] /\ fst v = fst i /\ fst w = fst j).
  { intros i j y g v w E [_ Gi] [_ Gg]. destruct (B i j y g v w E) as ((m & p & s & d & k & Eg & Ei & H) & Ev & Ew). rewrite Ei in Gi |- *. rewrite Eg in Gg. cbn [prod fold_right] in Gi, Gg.
    destruct H as [H1 H2]; try (intros ->; lia). split; [exact H1|]. split; [exact H2|]. split; [discriminate|]. split; [now rewrite <- Ei|exact Ew]. }
  cbn [op_matmul] in B', B.
  apply usual_bin; cbn [strict needs_input].
  - intros i j y g v w E Gi Gj Gg. destruct (B' i j y g v w E Gi Gg) as (Ng & Nj & Ni & Ev & Ew). unfold good. rewrite Ev, Ew. destruct Gi as [I1 I2], Gj as [J1 J2]. auto.
  - intros i j y g v w E Gi Gj Gg Z. destruct (B' i j y g v w E Gi Gg) as (Ng & _). now destruct Ng.
  - intros y g v w E Gg. destruct (B ([], []) ([], []) y g v w E) as ((m & p & s & d & k & _ & Ei & _) & _). discriminate Ei.
Qed.

(** C28: which operators of the library need their input.  Products, matrix products, maxima, and every element-wise operator
    that reads its input or output in the backward pass: a second use is fatal.  Negation, scaling, shifting and rounding do not:
    a second use is harmless. *)
Theorem C28_operators : forall n x l r,
  (forall f h, usual (EUn n (op_in f h) x) /\ usual (EUn n (op_out f h) x) /\ usual (EUn n (op_grad f h) x)) /\
  usual (EUn n op_square x) /\ (forall a b, usual (EUn n (op_clip a b) x)) /\
  (forall f hl hr, usual (EBin n (op2 f hl hr) l r)) /\ (forall dbg, usual (EBin n (op_product dbg) l r)) /\ usual (EBin n op_matmul l r) /\
  usual (EBin n BPlus l r) /\
  (forall o, (exists f, o = op_pass f) \/ o = op_negative \/ (exists a, o = op_scale a) ->
     shaped (EUn n o x) /\ shaped_missing (EUn n o x) /\ strict (EUn n o x) /\ ~ needs_input (EUn n o x)) /\
  (forall o, o = op_sum_reduce \/ o = op_mean_reduce -> shaped (EUn n o x) /\ strict (EUn n o x)).
Proof.
  intros n x l r. split; [intros f h; split; [apply usual_in|split; [apply usual_out|apply usual_grad]]|].
  split; [apply usual_in|]. split; [intros; apply usual_grad|]. split; [intros; apply usual_op2|]. split; [intros; apply usual_product|]. split; [apply usual_matmul|].
  split; [split; [exact I|split; [exact I|split; exact I]]|]. split.
  - assert (Gr : forall own f m b, (forall i y g : val R, exists h : R -> R, b i y g = Some (fst g, map h (snd g))) ->
      shaped (EUn n (UNew own f m b) x) /\ shaped_missing (EUn n (UNew own f m b) x) /\ strict (EUn n (UNew own f m b) x) /\ ~ needs_input (EUn n (UNew own f m b) x)).
    { intros own f m b H. assert (G : forall i y g v, b i y g = Some v -> good g -> good v) by (intros i y g v E Gg; destruct (H i y g) as (h & E'); rewrite E' in E; injection E as <-; now apply good_mapg).
      split; [intros i y g v E _; apply (G _ _ _ _ E)|]. split; [intros y g v E; apply (G _ _ _ _ E)|]. split.
      - intros i y g v E _ _ Z. destruct (H i y g) as (h & E'). rewrite E' in E. injection E as <-. cbn [snd]. now rewrite Z.
      - intros N. destruct (H ([], []) ([], []) ([1], [0%R])) as (h & E). specialize (N _ _ _ E). cbn in N. assert (W : [h 0%R] = []) by (apply N; split; [discriminate|discriminate]). discriminate W. }
    intros o [(f & ->)|[->|(a & ->)]]; apply Gr; intros i y g.
    + exists (fun z => z). rewrite map_id. now destruct g.
    + exists Ropp. reflexivity.
    + exists (fun z => (z * a)%R). reflexivity.
  - assert (Fb : forall own f m c, shaped (EUn n (UNew own f m (fill_back c)) x) /\ strict (EUn n (UNew own f m (fill_back c)) x)).
    { intros own f m c. split.
      - intros i y g v E [R1 R2] Gg. unfold fill_back in E. destruct (snd g); [discriminate E|]. injection E as <-. split; [intros _; exact R1|exact R2].
      - intros i y g v E _ _ Z. unfold fill_back in E. rewrite Z in E. discriminate E. }
    intros o [->| ->]; apply Fb.
Qed.
Print Assumptions C28_operators.

(** ** sum( swish( x W ) ): swish is y -> y * sigmoid( y ), and y = x W is a shared operator *)
Module Swish.
Definition y : expr R := EBin 0 op_matmul (EHold 0) (EVar 0).
Definition net : expr R := EUn 3 op_sum_reduce (EBin 2 (op_product true) y (EUn 1 op_sigmoid y)).
Definition s : st R :=
  St [[1; 2]; [3; 5; 0; -1]; [0; 0; 0; 0]]%R (fun _ => None) (fun _ => Obj None None None) (fun _ => VObj true true 0%R 0%R)
     (fun _ => VState (mkT [2; 2] 1) (mkT [2; 2] 2))
     (fun _ => Some (mkT [1; 2] 0)) (fun _ => None) (fun _ _ => None) true [].
Definition who (r : nat) : owner := match r with 2 => OGrad 0 | _ => OLeaf end.
Ltac cases H := apply At_all in H; cbn in H; repeat (destruct H as [H|H]; [try discriminate H|]); [..|now destruct H].

Example C28_case : exists t s', run 0%R 1%R Rplus Rmult true net s = Ok (t, s') /\
  forall g, good g -> forall u s'', backs 0%R 1%R Rplus Rmult Ropp (fun a b => above b a) 1%R true net [g] s' <> Ok (u, s'').
Proof.
  destruct (C28_operators 0 (EVar 0) (EHold 0) (EVar 0)) as (_ & _ & _ & _ & _ & (M1 & M2 & M3 & M4) & _).
  destruct (C28_operators 1 y y y) as (U & _). destruct (U (fun x => 1 / (1 + exp (- x)))%R (fun o g => g * o * (1 - o))%R) as (_ & (S1 & S2 & _) & _). clear U.
  destruct (C28_operators 2 y y (EUn 1 op_sigmoid y)) as (_ & _ & _ & _ & P & _). destruct (P true) as (P1 & P2 & _). clear P.
  destruct (C28_operators 3 (EBin 2 (op_product true) y (EUn 1 op_sigmoid y)) y y) as (_ & _ & _ & _ & _ & _ & _ & _ & F). destruct (F _ (or_introl eq_refl)) as (F1 & _). clear F.
  apply (C28_shared_operator_fails 0%R 1%R Rplus Rmult Ropp (fun a b => above b a) 1%R true net s who) with (x := y) (k1 := Some (2, false)) (k2 := Some (1, false)) (k := Some (0, true)) (v := 0).
  - discriminate.
  - intros k1 k2 a b n H1 H2. cases H1; cases H2; injection H1 as <- <-; injection H2 as <- <-; cbn; congruence.
  - split.
    + intros k x H _. apply At_all in H. cbn in H.
      repeat (destruct H as [H|H]; [injection H as <- <-; eexists; (split; [cbv -[Rplus Rmult Rdiv Ropp IZR Rinv exp]; reflexivity|]); (split; [reflexivity|discriminate])|]). destruct H.
    + intros k n l r H. cases H.
  - split; [|split; [|split; [|split]]].
    + intros k v H. cases H; injection H as <- <-; cbn; (split; [reflexivity|split; [reflexivity|lia]]).
    + intros k p t H [= <-]. reflexivity.
    + intros k t H. cases H.
    + discriminate.
    + discriminate.
  - intros k v H. cases H; injection H as <- <-; split; reflexivity.
  - auto.
  - intros k x v H Ev. apply At_all in H. cbn in H.
    repeat (destruct H as [H|H]; [injection H as <- <-; cbv -[Rplus Rmult Rdiv Ropp IZR Rinv exp] in Ev; injection Ev as <-; discriminate|]). destruct H.
  - intros k x H. cases H; injection H as <- <-; try exact I; assumption.
  - intros k1 k2 x H1 H2. cases H1; cases H2; injection H1 as <- <-; injection H2 as <-; try (intros N; now destruct N); try discriminate; intros _; try exact I; assumption.
  - eapply At_left, At_un, At_root.
  - eapply At_un, At_right, At_un, At_root.
  - discriminate.
  - exact M4.
  - intros k x H. cases H; injection H as <- <-; try exact I; assumption.
  - eapply At_right, At_root.
  - reflexivity.
Qed.
End Swish.

(** ** (-x) * (-x): negation does not need its input, and the gradient comes out right *)
Module Neg.
Open Scope Z_scope.
Definition neg : uop Z := UNew false (fun v => Some (fst v, map Z.opp (snd v))) IntoNew (fun _ _ g => Some (fst g, map Z.opp (snd g))).
Definition e : expr Z := EBin 1 ExS.times (EUn 0 neg (EVar 0)) (EUn 0 neg (EVar 0)).
Example harmless : exists t s1 s2, run 0 1 Z.add Z.mul true e ExS.s = Ok (t, s1) /\ in1 (objs s1 (Some (1%nat, true))) = None /\
  backs 0 1 Z.add Z.mul Z.opp Z.leb 1 true e [([3%nat], [1; 1; 1])] s1 = Ok (tt, s2) /\ nth 1 (hp s2) [] = [2; 4; 6].
Proof. vm_compute. do 3 eexists. repeat split; reflexivity. Qed.
End Neg.
