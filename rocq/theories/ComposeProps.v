(** Property C47: composing models. *)
From Coq Require Import List Arith Lia Bool PeanoNat ZArith.
From Verif Require Import ListBase TensorModel TensorSpec ArrayModel GraphModel GraphSpec GraphProofs GraphProofs2 GraphProofs3 GraphProofs4 GraphProps
  ComposeModel ComposeSpec ComposeProofs ComposeProofs2.
Import ListNotations.

Lemma upd_app2 {T} (l m : list T) i v : length l <= i -> upd (l ++ m) i v = l ++ upd m (i - length l) v.
Proof. revert i. induction l as [|x l IH]; intros i H; cbn [app length] in *; [rewrite Nat.sub_0_r; reflexivity|]. destruct i as [|i]; [lia|]. cbn [upd Nat.sub]. f_equal. apply IH. lia. Qed.

Section Props.
Context {A : Type} (zero one : A) (add mul : A -> A -> A) (opp : A -> A) (leb : A -> A -> bool) (eps : A).
Variable dbg : bool.
Notation eval := (eval zero one add mul).

(** C47.  Composing gives the model's expression with the argument in the place of every placeholder.  The operators are new ones:
    their identifiers are the next ones, each used once.  The variables are the model's and the argument's own.  No
    placeholder remains but the argument's. *)
Theorem C47_structure rl (e y : expr A) n buf e' n' buf' : replace rl e y n buf = (e', n', buf') -> (forall i, In i (ids e) -> i < n) ->
  grafted y e e' /\
  n' = n + length (ids e) /\ NoDup (new_ids e e') /\ (forall i, In i (new_ids e e') -> n <= i < n') /\
  (forall i, In i (ids e') -> In i (new_ids e e') \/ In i (ids y)) /\
  (forall w, In w (weights e') <-> In w (weights e) \/ (places e <> [] /\ In w (weights y))) /\
  (forall p, In p (places e') <-> places e <> [] /\ In p (places y)).
Proof.
  intros H Hi. pose proof (replace_grafted rl y e n buf e' n' buf' H) as G. destruct (replace_new rl y e n buf e' n' buf' H Hi) as (P1 & P2 & P3 & _ & _).
  split; [exact G|]. split; [exact P1|]. split; [exact P2|]. split; [exact P3|]. split; [exact (grafted_ids one add mul y e e' G)|].
  clear - G. revert e' G. induction e as [u|p|t|c|m o x IH|m o l IHl r IHr]; intros e' G; cbn [grafted] in G; try (subst e'; cbn; split; intros; tauto).
  - subst e'. cbn [weights places In]. assert ([p] <> []) by discriminate. split; intros; tauto.
  - destruct e' as [| | | |m' o' x'|]; try contradiction. exact (IH x' (proj2 G)).
  - destruct e' as [| | | | |m' o' l' r']; try contradiction. destruct G as (_ & Gl & Gr).
    destruct (IHl l' Gl) as [Wl Pl], (IHr r' Gr) as [Wr Pr]. cbn [weights places].
    assert (places l ++ places r <> [] <-> places l <> [] \/ places r <> []) as E.
    { destruct (places l) as [|a pl]; cbn [app]; [|split; [intros _; left|intros _]; discriminate].
      split; [intros H; right; exact H|intros [H|H]; [destruct (H eq_refl)|exact H]]. }
    split; [intros w; rewrite !in_app_iff, Wl, Wr, E; tauto|intros p; rewrite !in_app_iff, Pl, Pr, E; tauto].
Qed.

(** C47.  The value of the composed model is the model's value for the argument's value as input. *)
Theorem C47_value rl (e y : expr A) n buf e' n' buf' q v : replace rl e y n buf = (e', n', buf') -> (forall c, y <> EVal c) ->
  eval q y = Some v -> eval q e' = eval (feed q v) e.
Proof. intros H Hy Ey. exact (grafted_eval zero one add mul y q v Hy Ey e e' (replace_grafted rl y e n buf e' n' buf' H)). Qed.

Lemma composed_apart rl (e y : expr A) n buf e' n' buf' : replace rl e y n buf = (e', n', buf') ->
  NoDup (ids e) -> (forall i, In i (ids e) -> ~ In i (ids y)) -> (forall i, In i (ids e ++ ids y) -> i < n) ->
  apart buf (ids e ++ ids y) -> apart buf' (ids e').
Proof.
  intros H Nd Dj Lt Ap. destruct (replace_new rl y e n buf e' n' buf' H) as (P1 & P2 & P3 & P4 & P5). { intros i Hi. apply Lt, in_or_app. left. exact Hi. }
  pose proof (grafted_ids one add mul y e e' (replace_grafted rl y e n buf e' n' buf' H)) as Gi.
  assert (forall k, k < length (ids e) -> buf' (nth k (new_ids e e') 0) = buf (nth k (ids e) 0)) as Mp.
  { intros k Hk. pose proof (f_equal (fun l => nth k l (buf' 0)) P5) as E. cbn beta in E.
    assert (length (new_ids e e') = length (ids e)) as Le by (rewrite <- (map_length buf'), P5, map_length; reflexivity).
    rewrite map_nth in E. rewrite E. rewrite (nth_indep (map buf (ids e)) (buf' 0) (buf 0)) by (rewrite map_length; exact Hk). apply map_nth. }
  assert (length (new_ids e e') = length (ids e)) as Le by (rewrite <- (map_length buf'), P5, map_length; reflexivity).
  assert (forall i, In i (new_ids e e') -> exists k, k < length (ids e) /\ i = nth k (new_ids e e') 0 /\ buf' i = buf (nth k (ids e) 0)) as Nw.
  { intros i Hi. destruct (In_nth (new_ids e e') i 0 Hi) as (k & Hk & <-). exists k. split; [lia|]. split; [reflexivity|apply Mp; lia]. }
  assert (forall i, In i (ids y) -> buf' i = buf i) as Ow. { intros i Hi. apply P4, Lt, in_or_app. right. exact Hi. }
  assert (forall k, k < length (ids e) -> In (nth k (ids e) 0) (ids e)) as Ne by (intros k Hk; apply nth_In, Hk).
  intros i j Hi Hj E. destruct (Gi i Hi) as [I|I], (Gi j Hj) as [J|J].
  - destruct (Nw i I) as (ki & Li & -> & Bi), (Nw j J) as (kj & Lj & -> & Bj). rewrite Bi, Bj in E.
    apply Ap in E; [|apply in_or_app; left; apply Ne; assumption|apply in_or_app; left; apply Ne; assumption].
    rewrite (proj1 (NoDup_nth (ids e) 0) Nd ki kj Li Lj E). reflexivity.
  - destruct (Nw i I) as (ki & Li & -> & Bi). rewrite Bi, (Ow j J) in E.
    apply Ap in E; [|apply in_or_app; left; apply Ne; assumption|apply in_or_app; right; exact J].
    destruct (Dj _ (Ne ki Li)). rewrite E. exact J.
  - destruct (Nw j J) as (kj & Lj & -> & Bj). rewrite Bj, (Ow i I) in E.
    apply Ap in E; [|apply in_or_app; right; exact I|apply in_or_app; left; apply Ne; assumption].
    destruct (Dj _ (Ne kj Lj)). rewrite <- E. exact I.
  - rewrite (Ow i I), (Ow j J) in E. apply Ap; [apply in_or_app; right; exact I|apply in_or_app; right; exact J|exact E].
Qed.

(** C47.  When the operators of the model and of the argument use buffers of their own, and the model uses none of its operators twice,
    running the composed expression gives that value: the model's value at the value of the argument.  This also holds for
    the state after the run, however often it is repeated. *)
Theorem C47_run rl (e y : expr A) n buf e' n' buf' s who : replace rl e y n buf = (e', n', buf') ->
  (forall c, e <> EVal c) -> (forall c, y <> EVal c) -> consistent y ->
  NoDup (ids e) -> (forall i, In i (ids e) -> ~ In i (ids y)) -> (forall i, In i (ids e ++ ids y) -> i < n) -> apart buf (ids e ++ ids y) ->
  runnable zero one add mul y s ->
  (forall v, eval (env_of s) y = Some v -> sizes_ok zero one add mul (feed (env_of s) v) e /\ disciplined zero one add mul (feed (env_of s) v) e) ->
  separate e' (named buf' (ids e') s) who ->
  exists v t s', eval (env_of s) y = Some v /\
    run_in zero one add mul dbg buf' e' s = Ok (t, s') /\ eval (feed (env_of s) v) e = Some (val_of (hp s') t) /\
    NoDup (ran s') /\ (forall i, In i (ran s') <-> In i (ids e')) /\ exists who', separate e' (named buf' (ids e') s') who'.
Proof.
  intros H Ve Vy Cy Nd Dj Lt Ap [Zy Dy] He Sp.
  destruct (Zy None y (At_root y) Vy) as (v & Ev & _). destruct (He v Ev) as [Ze De].
  pose proof (replace_grafted rl y e n buf e' n' buf' H) as G. destruct (replace_new rl y e n buf e' n' buf' H) as (P1 & P2 & P3 & P4 & P5).
  { intros i Hi. apply Lt, in_or_app. left. exact Hi. }
  assert (forall i, In i (new_ids e e') -> n <= i) as New by (intros i Hi; apply P3 in Hi; lia).
  assert (forall i, In i (ids y) -> i < n) as Old by (intros i Hi; apply Lt, in_or_app; right; exact Hi).
  set (s0 := named buf' (ids e') s). assert (env_of s0 = env_of s) as Eq by reflexivity.
  assert (forall c, e' <> EVal c) as Ve'. { intros c E. apply (Ve c). exact (proj2 (grafted_val one add mul y Vy e e' G c) E). }
  assert (runnable zero one add mul e' s0) as R0.
  { split; rewrite Eq.
    - exact (composed_sizes zero one add mul y e e' G Vy (env_of s) v Ev Zy Ze).
    - apply (composed_disciplined zero one add mul y e e' n G Vy P2 New Old (env_of s) v Ev Dy).
      intros k m l r Ha Hin x Hx. exact (proj1 (De k m l r Ha Hin x Hx)). }
  destruct (C25_run_value zero one add mul dbg e' s0 who Ve' (composed_consistent one add mul y e e' n G P2 New Old Cy) R0 Sp)
    as (t & s1 & Hr & Hv & Hn & Hi & who' & Hs).
  pose proof (composed_apart rl e y n buf e' n' buf' H Nd Dj Lt Ap) as Ap'.
  pose proof (sim_run zero one add mul dbg buf' (ids e') Ap' e' (incl_refl _) s s0 (alike_named buf' (ids e') s)) as Sim. rewrite Hr in Sim.
  destruct (run_in zero one add mul dbg buf' e' s) as [[t' s']| |] eqn:Er; try contradiction. destruct Sim as [-> Al].
  exists v, t, s'. split; [exact Ev|]. split; [reflexivity|].
  assert (hp s1 = hp s' /\ ran s1 = ran s') as [E1 E2] by (destruct Al; split; reflexivity).
  rewrite Eq in Hv. split; [rewrite <- E1, <- Hv; symmetry; exact (C47_value rl e y n buf e' n' buf' (env_of s) v H Vy Ev)|].
  rewrite <- E2. split; [exact Hn|]. split; [exact Hi|]. exists who'. clear -Hs Al.
  destruct Al as [s' o ob Ho Hb]. destruct Hs as (S1 & S2 & S3 & S4 & S5).
  split; [exact S1|]. split; [exact S2|]. split; [exact S3|].
  assert (forall k, existsb (Nat.eqb k) (ids e') = true -> In k (ids e')) as Ex.
  { intros k E. apply existsb_exists in E. destruct E as (j & Hj & E). apply Nat.eqb_eq in E. congruence. }
  split.
  - intros k t E. cbn [own named set_own set_ownb] in E. destruct (existsb (Nat.eqb k) (ids e')) eqn:Ek; [|discriminate]. apply (S4 k t).
    cbn [own set_own set_ownb]. rewrite (Ho k (Ex k Ek)). exact E.
  - intros k b t E. cbn [ownb named set_own set_ownb] in E. destruct (existsb (Nat.eqb k) (ids e')) eqn:Ek; [|discriminate]. apply (S5 k b t).
    cbn [ownb set_own set_ownb]. rewrite (Hb k b (Ex k Ek)). exact E.
Qed.

(** C47.  Under the same conditions on the buffers, both passes over the composed expression do exactly what they do over the same
    expression built by hand with buffers of its own; C27 and C28 tell what that is for the gradients. *)
Theorem C47_passes rl (e y : expr A) n buf e' n' buf' s s0 : replace rl e y n buf = (e', n', buf') ->
  NoDup (ids e) -> (forall i, In i (ids e) -> ~ In i (ids y)) -> (forall i, In i (ids e ++ ids y) -> i < n) -> apart buf (ids e ++ ids y) ->
  alike buf' (ids e') s s0 ->
  match run_in zero one add mul dbg buf' e' s, run zero one add mul dbg e' s0 with
  | Ok (t, s'), Ok (t0, s0') => t = t0 /\ alike buf' (ids e') s' s0' | Abort, Abort | UB, UB => True | _, _ => False
  end /\
  forall k g,
  match backward_in zero one add mul opp leb eps dbg buf' k e' g s, backward zero one add mul opp leb eps dbg k e' g s0 with
  | Ok (_, s'), Ok (_, s0') => alike buf' (ids e') s' s0' | Abort, Abort | UB, UB => True | _, _ => False
  end.
Proof.
  intros H Nd Dj Lt Ap Al. pose proof (composed_apart rl e y n buf e' n' buf' H Nd Dj Lt Ap) as Ap'. split.
  - exact (sim_run zero one add mul dbg buf' (ids e') Ap' e' (incl_refl _) s s0 Al).
  - intros k g. pose proof (sim_backward zero one add mul opp leb eps dbg buf' (ids e') Ap' e' k g (incl_refl _) s s0 Al) as P.
    destruct (backward_in zero one add mul opp leb eps dbg buf' k e' g s) as [[u s']| |], (backward zero one add mul opp leb eps dbg k e' g s0) as [[u0 s0']| |];
      try exact P. exact (proj2 P).
Qed.

Lemma bind_eq {S T} (m : G (A:=A) S) (f : S -> G (A:=A) T) s v s1 : m s = Ok (v, s1) -> gbind m f s = f v s1.
Proof. intros H. unfold gbind. rewrite H. reflexivity. Qed.

Lemma apply_holder buf k n f md bk a s ta w : cache s n = None -> holders s a = Some ta -> f (val_of (hp s) ta) = Some w ->
  exists t s', forward_in zero one add mul dbg buf k (EUn n (UNew true f md bk) (EHold a)) s = Ok (t, s') /\
    holders s' = holders s /\ cache s' = fupd (cache s) n (Some t) /\ shape t = fst w /\
    match own s (buf n) with
    | Some b => ref t = ref b /\ hp s' = upd (hp s) (ref b) (snd w)
    | None => ref t = length (hp s) /\ hp s' = hp s ++ [snd w]
    end /\ own s' (buf n) = Some t.
Proof.
  intros Hc Hh Hf. cbn [forward_in].
  rewrite (bind_eq _ _ s None s) by (unfold query; rewrite Hc; reflexivity).
  erewrite bind_eq by reflexivity.
  set (s1 := set_objs s _).
  rewrite (bind_eq _ _ s1 ta s1) by (unfold hold_forward, gbind, get; cbn [s1 holders set_objs]; rewrite Hh; reflexivity).
  erewrite bind_eq by reflexivity. set (s2 := set_objs s1 _).
  assert (hp s2 = hp s /\ own s2 = own s /\ cache s2 = cache s /\ holders s2 = holders s) as (E1 & E2 & E3 & E4) by (subst s2 s1; repeat split).
  assert (exists t s3, un_forward (buf n) (UNew true f md bk) ta s2 = Ok (t, s3) /\ cache s3 = cache s /\ holders s3 = holders s /\ shape t = fst w /\
    match own s (buf n) with
    | Some b => ref t = ref b /\ hp s3 = upd (hp s) (ref b) (snd w)
    | None => ref t = length (hp s) /\ hp s3 = hp s ++ [snd w]
    end /\ own s3 (buf n) = Some t) as (t & s3 & U & F1 & F2 & F3 & F4 & F5).
  { unfold un_forward. erewrite bind_eq by reflexivity. rewrite E1, Hf. cbn [the]. erewrite bind_eq by reflexivity. clearbody s2. unfold into_own. rewrite E2, E1.
    destruct (own s (buf n)) as [b|]; eexists; eexists; (split; [reflexivity|]); cbn [cache holders hp own set_own set_hp shape ref];
      (split; [exact E3|]); (split; [exact E4|]); (split; [reflexivity|]); (split; [split; reflexivity|]);
      unfold fupd; rewrite Nat.eqb_refl; reflexivity. }
  rewrite (bind_eq _ _ s2 t s3 U). erewrite bind_eq by reflexivity. erewrite bind_eq by reflexivity. erewrite bind_eq by reflexivity.
  exists t. eexists. split; [reflexivity|]. cbn [cache holders hp own set_ran set_cache set_objs].
  rewrite F1, F2. split; [reflexivity|]. split; [reflexivity|]. split; [exact F3|]. split; [exact F4|exact F5].
Qed.

(** C47.  A model applied to two arguments in one expression computes both results in the same buffers: the first result has the
    elements of the second.  Here the model is one operator that keeps its result in its own buffer, applied to the
    placeholders a and b, and the results are combined by any operator g. *)
Theorem C47_twice_refuted rl m f md bk p g bo gb n a b e1 n1 b1 e2 n2 b2 s ta tb wa wb w :
  let model := EUn m (UNew true f md bk) (EHold p) in
  m < n -> replace rl model (EHold a) n (fun i => i) = (e1, n1, b1) -> replace rl model (EHold b) n1 b1 = (e2, n2, b2) ->
  holders s a = Some ta -> holders s b = Some tb -> ref ta < length (hp s) -> ref tb < length (hp s) -> own s m = None ->
  f (val_of (hp s) ta) = Some wa -> f (val_of (hp s) tb) = Some wb -> g (fst wa, snd wb) wb = Some w ->
  eval (env_of s) (EBin n2 (BNew false g bo gb) e1 e2) = g wa wb /\
  exists t s', run_in zero one add mul dbg (fupd b2 n2 n2) (EBin n2 (BNew false g bo gb) e1 e2) s = Ok (t, s') /\
    val_of (hp s') t = w.
Proof.
  intros model Hm H1 H2 Ha Hb La Lb Ho Fa Fb Hg. subst model. cbn [replace] in H1, H2. injection H1 as <- <- <-. injection H2 as <- <- <-.
  split.
  { unfold env_of. cbn [GraphSpec.eval e_hold obind2]. rewrite Ha, Hb. cbn [obind2]. rewrite Fa, Fb. reflexivity. }
  assert (nth (ref tb) (hp s ++ [snd wa]) [] = nth (ref tb) (hp s) []) as Nb by (apply app_nth1; exact Lb).
  set (g1 := fupd (fupd _ _ _) _ _).
  assert (g1 n = m /\ g1 (S n) = m) as [G1 G2].
  { unfold g1, fupd. destruct (Nat.eqb_spec n (S (S n))); [lia|]. destruct (Nat.eqb_spec n (S n)); [lia|]. rewrite Nat.eqb_refl.
    destruct (Nat.eqb_spec (S n) (S (S n))); [lia|]. rewrite Nat.eqb_refl. destruct (Nat.eqb_spec m n); [lia|]. split; reflexivity. }
  clearbody g1. unfold run_in. erewrite bind_eq by reflexivity. set (s0 := set_ran (set_cache s _) _).
  assert (hp s0 = hp s /\ own s0 = own s /\ cache s0 = (fun _ => None) /\ holders s0 = holders s) as (E1 & E2 & E3 & E4) by (repeat split).
  clearbody s0. remember (EUn n (UNew true f md bk) (EHold a)) as e1 eqn:He1. remember (EUn (S n) (UNew true f md bk) (EHold b)) as e2 eqn:He2.
  assert (forall k s, forward_in zero one add mul dbg g1 k (EBin (S (S n)) (BNew false g bo gb) e1 e2) s =
    gbind (query (S (S n))) (fun q => gbind (put_out k q) (fun _ => match q with Some t => gret t | None =>
      gbind (gbind (forward_in zero one add mul dbg g1 (Some (S (S n), false)) e1) (fun lt => gbind (put_in1 k (Some lt)) (fun _ =>
             gbind (forward_in zero one add mul dbg g1 (Some (S (S n), true)) e2) (fun rt => gbind (put_in2 k (Some rt)) (fun _ => gret (lt, rt))))))
        (fun lr => gbind (bin_forward zero add dbg (g1 (S (S n))) (BNew false g bo gb) (fst lr) (snd lr)) (fun t => gbind (put_out k (Some t)) (fun _ => gbind (update (S (S n)) t) (fun _ =>
           gbind (modify (fun s => set_ran s (S (S n) :: ran s))) (fun _ => gret t))))) end)) s) as Fw by (subst e1 e2; reflexivity).
  rewrite Fw. clear Fw.
  rewrite (bind_eq _ _ s0 None s0) by (unfold query; rewrite E3; reflexivity). erewrite bind_eq by reflexivity. set (s1 := set_objs s0 _).
  assert (hp s1 = hp s /\ own s1 = own s /\ cache s1 = (fun _ => None) /\ holders s1 = holders s) as (A1 & A2 & A3 & A4) by (repeat split; assumption).
  clearbody s1.
  destruct (apply_holder g1 (Some (S (S n), false)) n f md bk a s1 ta wa) as (t1 & s2 & R1 & P1 & P2 & P3 & P4 & P5);
    [rewrite A3; reflexivity|rewrite A4; exact Ha|rewrite A1; exact Fa|].
  rewrite G1, A2, Ho in P4. rewrite G1 in P5. destruct P4 as [P4 P6]. rewrite A1 in P4, P6. rewrite <- He1 in R1.
  assert (exists s3, put_in1 None (Some t1) s2 = Ok (tt, s3) /\ hp s3 = hp s2 /\ own s3 = own s2 /\ cache s3 = cache s2 /\ holders s3 = holders s2) as (s3 & I1 & B1 & B2 & B3 & B4)
    by (eexists; split; [reflexivity|repeat split]).
  destruct (apply_holder g1 (Some (S (S n), true)) (S n) f md bk b s3 tb wb) as (t2 & s4 & R2 & Q1 & Q2 & Q3 & Q4 & Q5).
  { rewrite B3, P2. unfold fupd. destruct (Nat.eqb_spec (S n) n); [lia|]. rewrite A3. reflexivity. }
  { rewrite B4, P1, A4. exact Hb. }
  { rewrite B1, P6. unfold val_of. rewrite Nb. exact Fb. }
  rewrite G2, B2, P5 in Q4. destruct Q4 as [Q4 Q6]. rewrite B1, P6, P4 in Q6. rewrite P4 in Q4. rewrite <- He2 in R2.
  assert (exists s5, put_in2 None (Some t2) s4 = Ok (tt, s5) /\ hp s5 = hp s4) as (s5 & I2 & C1) by (eexists; split; [reflexivity|reflexivity]).
  erewrite (bind_eq (gbind _ _)).
  2:{ rewrite (bind_eq _ _ s1 t1 s2 R1), (bind_eq _ _ s2 tt s3 I1), (bind_eq _ _ s3 t2 s4 R2), (bind_eq _ _ s4 tt s5 I2). reflexivity. }
  cbn [fst snd]. rewrite (upd_app2 (hp s) [snd wa]) in Q6 by lia. rewrite Nat.sub_diag in Q6. cbn [upd] in Q6.
  assert (val_of (hp s5) t1 = (fst wa, snd wb) /\ val_of (hp s5) t2 = wb) as [V1 V2].
  { unfold val_of. rewrite C1, Q6, P3, Q3, P4, Q4, app_nth2, Nat.sub_diag by lia. cbn [nth]. split; [reflexivity|symmetry; apply surjective_pairing]. }
  assert (exists t s6, bin_forward zero add dbg (g1 (S (S n))) (BNew false g bo gb) t1 t2 s5 = Ok (t, s6) /\ val_of (hp s6) t = w) as (t & s6 & R3 & V3).
  { unfold bin_forward. erewrite bind_eq by reflexivity. rewrite V1, V2, Hg. cbn [the]. erewrite bind_eq by reflexivity.
    unfold new_tensor, heaply, alloc. eexists; eexists. split; [reflexivity|]. unfold val_of. cbn [hp set_hp shape ref].
    rewrite app_nth2, Nat.sub_diag by lia. cbn [nth]. symmetry. apply surjective_pairing. }
  rewrite (bind_eq _ _ s5 t s6 R3). erewrite bind_eq by reflexivity. erewrite bind_eq by reflexivity. erewrite bind_eq by reflexivity.
  exists t. eexists. split; [reflexivity|]. exact V3.
Qed.
End Props.
Print Assumptions C47_structure.
Print Assumptions C47_value.
Print Assumptions C47_run.
Print Assumptions C47_passes.
Print Assumptions C47_twice_refuted.

(** C47.  The documentation says that the given placeholder is replaced; every other one is replaced as well. *)
Theorem C47_one_placeholder_refuted : exists (e y : expr Z) q v p, eval 0%Z 1%Z Z.add Z.mul q y = Some v /\ In p (places e) /\
  forall rl n buf e' n' buf', replace rl e y n buf = (e', n', buf') ->
    eval 0%Z 1%Z Z.add Z.mul q e' <> eval 0%Z 1%Z Z.add Z.mul (Env (e_var q) (fun p' => if p' =? p then Some v else e_hold q p') (e_const q)) e.
Proof.
  exists (EBin 0 Ex.times (EHold 0) (EHold 1)), (EVar 0), (Env (fun _ => ([1], [5%Z])) (fun _ => Some ([1], [7%Z])) (fun _ => ([], []))), ([1], [5%Z]), 0.
  split; [reflexivity|]. split; [left; reflexivity|]. intros rl n buf e' n' buf' H. cbn [replace] in H. destruct rl; injection H as <- <- <-; discriminate.
Qed.
Print Assumptions C47_one_placeholder_refuted.

(** Beside C47: the model square(x) * w composed with -u, for u = [1 2 3] and w = [10 20 30]. *)
Module Case.
Open Scope Z_scope.
Definition e : expr Z := EBin 1 Ex.times (EUn 0 Ex.sq (EHold 0)) (EVar 1).
Definition y : expr Z := EUn 2 Ex.neg (EVar 0).
Definition e' : expr Z := EBin 4 Ex.times (EUn 3 Ex.sq (EUn 2 Ex.neg (EVar 0))) (EVar 1).
Definition same (i : nat) : nat := i.
Definition b' : nat -> nat := fupd (fupd same 3 0%nat) 4 1%nat.
Example composed : replace false e y 3 same = (e', 5%nat, b').
Proof. reflexivity. Qed.
Example runs_well : exists v t s', eval 0 1 Z.add Z.mul (env_of Ex.s) y = Some v /\
    run_in 0 1 Z.add Z.mul true b' e' Ex.s = Ok (t, s') /\ eval 0 1 Z.add Z.mul (feed (env_of Ex.s) v) e = Some (val_of (hp s') t) /\
    NoDup (ran s') /\ (forall i, In i (ran s') <-> In i (ids e')) /\ exists who', separate e' (named b' (ids e') s') who'.
Proof.
  apply (C47_run 0 1 Z.add Z.mul true false e y 3 same e' 5 b' Ex.s Ex.who composed); try discriminate.
  - intros k1 k2 x1 x2 n H1 H2. Ex.at_cases H1; Ex.at_cases H2; cbn; congruence.
  - cbn. repeat constructor; cbn; intuition congruence.
  - cbn. intros i [<-|[<-|[]]] [H|[]]; discriminate.
  - cbn. intros i [<-|[<-|[<-|[]]]]; lia.
  - intros i j _ _ E. exact E.
  - split.
    + intros k x H _. Ex.at_cases H; (eexists; split; [reflexivity|]; split; [reflexivity|discriminate]).
    + intros k n l r H. apply At_all in H. cbn in H. repeat (destruct H as [H|H]; [discriminate H|]). destruct H.
  - intros v E. cbn in E. injection E as <-. split.
    + intros k x H _. Ex.at_cases H; (eexists; split; [reflexivity|]; split; [reflexivity|discriminate]).
    + intros k n l r H. apply At_all in H. cbn in H. repeat (destruct H as [H|H]; [discriminate H|]). destruct H.
  - split; [|split; [|split; [|split]]].
    + intros k v H. apply At_all in H. cbn in H.
      repeat (destruct H as [H|H]; [try discriminate H; injection H as <- <-; cbn; repeat split; lia|]). destruct H.
    + intros k p t H. apply At_all in H. cbn in H. repeat (destruct H as [H|H]; [discriminate H|]). destruct H.
    + intros k t H. apply At_all in H. cbn in H. repeat (destruct H as [H|H]; [discriminate H|]). destruct H.
    + intros n t H. cbn in H. repeat (destruct (Nat.eqb n _) in H; [discriminate H|cbn in H]). discriminate H.
    + intros n b t H. cbn in H. repeat (destruct (Nat.eqb n _) in H; [discriminate H|cbn in H]). discriminate H.
Qed.
Example value : eval 0 1 Z.add Z.mul (env_of Ex.s) e' = Some ([3%nat], [10; 80; 270]).
Proof. reflexivity. Qed.
(** square(a) - square(b) for a = [1 2 3], b = [10 20 30]: the composed model twice, and the two passes *)
Definition minus : bop Z := BNew false (fun a b => Some (fst a, map2 Z.sub (snd a) (snd b))) false (fun a b _ g => Some (g, g)).
Definition s2 : st Z := set_holders Ex.s (fun p => Some (mkT [3%nat] p)).
Example twice : eval 0 1 Z.add Z.mul (env_of s2) (EBin 3 minus (EUn 1 Ex.sq (EHold 0)) (EUn 2 Ex.sq (EHold 1))) = Some ([3%nat], [-99; -396; -891]) /\
  exists t s', run_in 0 1 Z.add Z.mul true (fupd (fupd (fupd same 1 0%nat) 2 0%nat) 3 3%nat) (EBin 3 minus (EUn 1 Ex.sq (EHold 0)) (EUn 2 Ex.sq (EHold 1))) s2 = Ok (t, s') /\
    val_of (hp s') t = ([3%nat], [0; 0; 0]).
Proof.
  exact (C47_twice_refuted 0 1 Z.add Z.mul true false 0 _ _ _ 0 _ _ _ 1 0 1 _ _ _ _ _ _ s2 (mkT [3%nat] 0) (mkT [3%nat] 1) ([3%nat], [1; 4; 9]) ([3%nat], [100; 400; 900]) _
    ltac:(lia) eq_refl eq_refl eq_refl eq_refl ltac:(cbn; lia) ltac:(cbn; lia) eq_refl eq_refl eq_refl eq_refl).
Qed.
End Case.
