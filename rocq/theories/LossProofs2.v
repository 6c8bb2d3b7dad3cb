(** Training with a loss whose left operand is the target's place holder: run, then backward. *)
From Coq Require Import List Arith Lia Bool PeanoNat Reals Lra FunctionalExtensionality.
From Coquelicot Require Import Rcomplements Hierarchy Derive.
From Verif Require Import ListBase TensorModel TensorSpec TensorProofs TensorProofs2 GraphModel GraphSpec GraphProofs GraphProofs2
  GraphProofs3 GraphProofs4 GradSpec GradProofs GradProofs2 GradProofs3 LayerSpec CalcSpec CalcProofs CalcProofs2 CalcProofs3 GraphProps ComplexRun LossRun LossRun2 LossProofs.
Import ListNotations.
Local Open Scope nat_scope.

Section Train.
Variable dbg : bool.
Variable eps : R.
Notation grads := (grads 0%R 1%R Rplus Rmult dbg).
Notation run := (run 0%R 1%R Rplus Rmult dbg).
Notation backs := (backs 0%R 1%R Rplus Rmult Ropp rleb eps dbg).
Notation sizes_ok := (sizes_ok 0%R 1%R Rplus Rmult).
Notation disciplined := (disciplined 0%R 1%R Rplus Rmult).
Notation legible := (legible 0%R 1%R Rplus Rmult).

Theorem over_train n1 p r sh x y a0 e v s who g ds :
  is_value r = false -> NoDup (n1 :: ids r) -> sizes_ok (env_of s) r -> disciplined (env_of s) r -> legible (env_of s) r ->
  length x = prod sh -> evalR (env_of s) r = Some (sh, y) ->
  over Rplus n1 p r sh x y e v -> NoDup (ids e) -> sizes_ok (env_of s) e ->
  ready (env_of s) p r sh x a0 (set_ran (set_cache s (fun _ => None)) []) who ->
  grads (env_of s) None e g = Some ds -> Forall (fits (env_of s)) ds ->
  exists t s1 s2 who2, run e s = Ok (t, s1) /\ backs e [g] s1 = Ok (tt, s2) /\ val_of (hp s1) t = v /\ evalR (env_of s) e = Some v /\
    separate e s2 who2 /\ graded e s2 /\ (forall u, vars s2 u = vars s u) /\ holders s2 = holders s /\ training s2 = training s /\
    length (hp s) <= length (hp s2) /\ (forall a, a < length (hp s) -> who2 a = who a) /\
    nth_error (hp s2) a0 = Some (map2 Rplus x y) /\
    (forall a, a < length (hp s) -> a <> a0 -> who a = OLeaf -> nth_error (hp s2) a = nth_error (hp s) a) /\
    (forall k, trainable (vobjs s2 k) = trainable (vobjs s k) /\ l1 (vobjs s2 k) = l1 (vobjs s k) /\ l2 (vobjs s2 k) = l2 (vobjs s k)) /\
    (training s = true -> forall k u, At e k (EVar u) -> 
       length (nth (ref (vgrad (vars s u))) (hp s2) []) = prod (shape (vdata (vars s u))) /\
        forall p, p < prod (shape (vdata (vars s u))) -> nth p (nth (ref (vgrad (vars s u))) (hp s2) []) 0%R =
         (arrived (vobjs s) u p ds + penalty eps (vobjs s) u (nth p (nth (ref (vdata (vars s u))) (hp s) []) 0) (uses None e))%R).
Proof.
  intros Vr Hr Zr Dr Lr Lx Er Ho He Ze Rd Ed Fd.
  destruct (over_run 0%R 1%R Rplus Rmult dbg (env_of s) n1 p r Vr Hr Zr Dr Lr sh x y a0 Lx Er e v s who Ho He Rd) as (t & s1 & who1 & R1 & E1 & V1 & B1 & C1).
  destruct C1 as [Cv Ch Ct Cl Cw Cf Cg Co Ctr _ _].
  destruct (backs_ok 0%R 1%R Rplus Rmult Ropp rleb eps dbg e (env_of s) He Ze [g] [ds] s1 who1 B1) as (s2 & who2 & R2 & B2 & L2 & W2 & V2 & H2 & O2 & T2 & Ow2 & F2 & G2 & M2).
  { constructor; [now split|constructor]. }
  destruct Rd as [_ _ _ _ _ Rdat Rwho _]. cbn [set_ran set_cache hp] in Rdat.
  assert (La : a0 < length (hp s)) by (apply nth_error_Some; rewrite Rdat; discriminate).
  exists t, s1, s2, who2. split; [exact R1|]. split; [exact R2|]. split; [exact V1|]. split; [exact E1|].
  split; [exact (b_sep _ _ _ _ _ _ _ _ B2)|]. split; [exact (b_grad _ _ _ _ _ _ _ _ B2)|].
  split; [intros u; now rewrite V2, Cv|]. split; [congruence|]. split; [congruence|]. split; [lia|].
  split; [intros a Ha; rewrite W2 by lia; now apply Cw|].
  split.
  { rewrite F2; [exact Cg|lia| |]; [intros u Hu|intros m b Hb]; rewrite Cw in * by assumption; congruence. }
  split.
  { intros a Ha Na Wa. rewrite F2; [apply Cf; try assumption; congruence|lia| |]; [intros u Hu|intros m b Hb]; rewrite Cw in * by assumption; congruence. }
  assert (Co' : forall k, trainable (vobjs s1 k) = trainable (vobjs s k) /\ l1 (vobjs s1 k) = l1 (vobjs s k) /\ l2 (vobjs s1 k) = l2 (vobjs s k)) by exact Co.
  split.
  { intros k. rewrite M2. cbn [fold_left]. destruct (marks_same ds (vobjs s1) k) as (Y1 & Y2 & Y3). rewrite Y1, Y2, Y3. apply Co'. }
  intros Tr k u Hk.
  assert (Loc : forall k', At e k' (EVar u) -> exists k2, At r k2 (EVar u) /\ k' = down n1 k2).
  { intros k' H'. destruct (over_leaf Rplus n1 p r sh x y e v k' _ Ho H' eq_refl) as [E|E]; [discriminate E|exact E]. }
  destruct (Loc k Hk) as (k2 & Hk2 & _). destruct (Ctr Tr k2 u Hk2) as [G0 _].
  pose proof (G2 k u Hk) as G. rewrite Cv in G. rewrite G, G0. cbn [env_of e_var].
  set (dat := snd (val_of (hp s) (vdata (vars s u)))).
  assert (Ld : length dat = prod (shape (vdata (vars s u)))).
  { destruct (Ze k _ Hk ltac:(discriminate)) as (w & Ew & Lw & _). cbn [eval env_of e_var] in Ew. injection Ew as <-. exact Lw. }
  destruct (gathers_fresh eps (env_of s) u _ dat (uses None e) eq_refl Ld ds [] (vobjs s1) (repeat 0%R (prod (shape (vdata (vars s u)))))) as [Q1 Q2].
  { intros k' Hk'. apply (uses_at e e None (At_root e)) in Hk'. destruct (Loc k' Hk') as (k3 & Hk3 & ->). exact (proj2 (Ctr Tr k3 u Hk3)). }
  { constructor; [|constructor]. split; [exact (grads_uses dbg (env_of s) e None g ds Ed)|exact Fd]. }
  { cbn. apply repeat_length. }
  split; [exact Q1|]. intros j Hj. rewrite Q2 by exact Hj. rewrite nth_zeros. cbn [map rsum]. unfold dat. cbn [val_of snd].
  rewrite (arrived_same (vobjs s1) (vobjs s)) by (intros k'; symmetry; apply Co').
  replace (penalty eps (vobjs s1) u) with (penalty eps (vobjs s) u); [ring|].
  apply functional_extensionality. intros z. apply functional_extensionality. intros us. unfold penalty. f_equal. apply map_ext. intros [k' w].
  cbn [fst snd]. destruct (Co' k') as (Q3 & Q4 & Q5). unfold reg. now rewrite Q3, Q4, Q5.
Qed.

End Train.
