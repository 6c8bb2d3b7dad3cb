(** Training steps: a run followed by backward passes. *)
From Coq Require Import List Arith Lia Bool PeanoNat.
From Verif Require Import ListBase TensorModel TensorSpec TensorProofs TensorProofs2 GraphModel GraphSpec GraphProofs GraphProofs2
  GraphProofs3 GraphProofs4 GradSpec GradProofs GradProofs2.
Import ListNotations.
Local Notation "'do' x <- m ; f" := (gbind m (fun x => f)) (at level 200, x name, m at level 100, f at level 200).

Section Train.
Context {A : Type} (zero one : A) (add mul : A -> A -> A) (opp : A -> A) (leb : A -> A -> bool) (eps : A).
Variable dbg : bool.
Notation sizes_ok := (sizes_ok zero one add mul).
Notation disciplined := (disciplined zero one add mul).
Notation legible := (legible zero one add mul).
Notation eval := (eval zero one add mul).
Notation grads := (grads zero one add mul dbg).
Notation gather := (gather zero one add mul opp leb eps).
Notation gathers := (gathers zero one add mul opp leb eps).
Notation seed_after := (seed_after zero one add mul).
Notation backward := (backward zero one add mul opp leb eps dbg).
Notation binv := (binv zero one add mul).
Notation bext := (bext zero one add mul opp leb eps).

Notation backs := (backs zero one add mul opp leb eps dbg).

Lemma fresh_id (l : list nat) : exists m, ~ In m l.
Proof.
  exists (S (list_max l)). intros H. pose proof (proj1 (list_max_le l (list_max l)) (le_n _)) as F.
  rewrite Forall_forall in F. specialize (F _ H). lia.
Qed.

Lemma new_seed e q s who g : binv e q s who ->
  exists s' who' m, new_tensor g s = Ok (mkT (fst g) (length (hp s)), s') /\ binv e q s' who' /\ ~ In m (ids e) /\
    who' (length (hp s)) = OBack m false /\ hp s' = hp s ++ [snd g] /\ val_of (hp s') (mkT (fst g) (length (hp s))) = g /\
    (forall x r0, bext e q x r0 [] s s' who who').
Proof.
  intros B. destruct (fresh_id (ids e)) as (m & Hm). set (x := EUn m (UView (fun s => Some s)) (EVal zero)).
  destruct (back_store zero one add mul opp leb eps e q x m false false g s who B (or_introl eq_refl))
    as (t & s' & who' & N & B' & X & V & L & W & F & D).
  pose proof N as N'. unfold new_tensor, heaply, alloc in N'. injection N' as <- <-.
  exists (set_hp s (hp s ++ [snd g])), who', m. split; [exact N|]. split; [exact B'|]. split; [exact Hm|]. split; [exact W|].
  split; [reflexivity|]. split; [exact V|].
  intros y r0. destruct X. constructor; auto. intros r Hr _ _ _. cbn [set_hp hp]. now apply nth_error_app1.
Qed.

Theorem backs_ok e q : NoDup (ids e) -> sizes_ok q e -> forall gs dss s who, binv e q s who ->
  Forall2 (fun g ds => grads q None e g = Some ds /\ Forall (fits q) ds) gs dss ->
  exists s' who', backs e gs s = Ok (tt, s') /\ binv e q s' who' /\ length (hp s) <= length (hp s') /\
    (forall r, r < length (hp s) -> who' r = who r) /\
    (forall v, vars s' v = vars s v) /\ holders s' = holders s /\ objs s' = objs s /\ training s' = training s /\ own s' = own s /\
    (forall r, r < length (hp s) -> (forall v, who r = OGrad v -> forall k, ~ At e k (EVar v)) ->
       (forall m b, who r = OBack m b -> ~ In m (ids e)) -> nth_error (hp s') r = nth_error (hp s) r) /\
    (forall k v, At e k (EVar v) -> nth (ref (vgrad (vars s v))) (hp s') [] =
       gathers (vobjs s) (snd (e_var q v)) v dss (nth (ref (vgrad (vars s v))) (hp s) [])) /\
    (forall k, vobjs s' k = fold_left (fun vo ds => marks ds vo) dss (vobjs s) k).
Proof.
  intros HT HS. induction gs as [|g gs IH]; intros dss s who B F; inversion F as [|? ds ? dss' [Eg Hf] F']; subst.
  { exists s, who. split; [reflexivity|]. split; [exact B|]. repeat (split; [auto; fail|]). auto. }
  destruct (new_seed e q s who g B) as (s1 & who1 & m & N1 & B1 & Hm & W1 & Eh & V1 & X1).
  specialize (X1 e (Some (length (hp s)))).
  assert (L1 : ref (mkT (fst g) (length (hp s))) < length (hp s1)) by (rewrite Eh, app_length; cbn; lia).
  destruct (backward_ok zero one add mul opp leb eps dbg e q HT HS e None s1 who1 (mkT (fst g) (length (hp s))) g ds (At_root e) B1 L1 V1
    ltac:(exists m, false; auto) Eg Hf) as (s2 & who2 & R2 & B2 & X2 & _). cbn [ref] in X2.
  assert (X12 : bext e q e (Some (length (hp s))) ds s s2 who who2).
  { change ds with ([] ++ ds). eapply (bext_trans zero one add mul opp leb eps e q e e e _ _ _ [] ds s s1 s2 who who1 who2 X1 X2);
    try (intros ? ? ? ? ? ? []; fail); try tauto; eauto. }
  destruct (IH dss' s2 who2 B2 F') as (s3 & who3 & R3 & B3 & L3 & Wh & Ev & Eho & Eo & Et & Eow & Fr & Gr & Vo).
  pose proof (e_len _ _ _ _ _ _ _ _ _ _ _ _ _ _ _ _ X12) as L12. pose proof (e_who _ _ _ _ _ _ _ _ _ _ _ _ _ _ _ _ X12) as W12.
  pose proof (e_vars _ _ _ _ _ _ _ _ _ _ _ _ _ _ _ _ X12) as V12.
  exists s3, who3. split.
  { cbn [backs]. rewrite (gbind_ok _ _ _ _ _ N1), (gbind_ok _ _ _ _ _ R2). exact R3. }
  split; [exact B3|]. split; [lia|]. split; [intros r Hr; rewrite Wh by lia; now apply W12|].
  split; [intros v; now rewrite Ev, V12|].
  split; [now rewrite Eho, (e_holders _ _ _ _ _ _ _ _ _ _ _ _ _ _ _ _ X12)|]. split; [now rewrite Eo, (e_objs _ _ _ _ _ _ _ _ _ _ _ _ _ _ _ _ X12)|].
  split; [now rewrite Et, (e_tr _ _ _ _ _ _ _ _ _ _ _ _ _ _ _ _ X12)|]. split; [now rewrite Eow, (e_own _ _ _ _ _ _ _ _ _ _ _ _ _ _ _ _ X12)|].
  split; [|split].
  - intros r Hr H1 H2. rewrite Fr; [|lia| |].
    + apply (e_frame _ _ _ _ _ _ _ _ _ _ _ _ _ _ _ _ X12); auto. intros [= E]. lia.
    + intros v Hv. rewrite W12 in Hv by assumption. auto.
    + intros m' b Hb. rewrite W12 in Hb by assumption. now apply (H2 m' b).
  - intros k v H. rewrite <- V12. rewrite (Gr k v H). cbn [GradSpec.gathers]. rewrite V12.
    rewrite (e_grad _ _ _ _ _ _ _ _ _ _ _ _ _ _ _ _ X12 k v H).
    assert (EX : forall dss vo vo', (forall k', vo k' = vo' k') -> forall cur, gathers vo (snd (e_var q v)) v dss cur = gathers vo' (snd (e_var q v)) v dss cur).
    { clear. intros dss. induction dss as [|ds dss IH]; intros vo vo' H cur; [reflexivity|]. cbn [GradSpec.gathers].
      rewrite (gather_ext zero one add mul opp leb eps vo vo' _ _ _ _ (fun k _ _ _ => H k)). apply IH. intros k'. unfold marks. now rewrite H. }
    apply EX. intros k'. exact (e_vobj _ _ _ _ _ _ _ _ _ _ _ _ _ _ _ _ X12 k').
  - intros k. rewrite Vo. cbn [fold_left].
    assert (EX : forall (dss : list (list (delivery (A:=A)))) (vo vo' : slot -> vobj (A:=A)), (forall k', vo k' = vo' k') -> fold_left (fun vo ds => marks ds vo) dss vo k = fold_left (fun vo ds => marks ds vo) dss vo' k).
    { clear. intros dss. induction dss as [|ds dss IH]; intros vo vo' H; [apply H|]. cbn [fold_left]. apply IH. intros k'. unfold marks. now rewrite H. }
    apply EX. intros k'. exact (e_vobj _ _ _ _ _ _ _ _ _ _ _ _ _ _ _ _ X12 k').
Qed.

(** A run leaves a state in which backward passes are right. *)
Theorem run_binv e s who : (forall c, e <> EVal c) -> NoDup (ids e) -> sizes_ok (env_of s) e -> disciplined (env_of s) e ->
  legible (env_of s) e -> separate e s who -> graded e s ->
  exists t s' who', run zero one add mul dbg e s = Ok (t, s') /\ eval (env_of s) e = Some (val_of (hp s') t) /\ binv e (env_of s) s' who' /\
    vars s' = vars s /\ holders s' = holders s /\ training s' = training s /\ length (hp s) <= length (hp s') /\
    (forall r, r < length (hp s) -> who' r = who r) /\
    (forall r, r < length (hp s) -> (forall n, who r <> OOp n) -> (forall v, who r <> OGrad v) -> nth_error (hp s') r = nth_error (hp s) r) /\
    (forall k, trainable (vobjs s' k) = trainable (vobjs s k) /\ l1 (vobjs s' k) = l1 (vobjs s k) /\ l2 (vobjs s' k) = l2 (vobjs s k)) /\
    (training s = true -> forall k v, At e k (EVar v) -> 
       nth (ref (vgrad (vars s v))) (hp s') [] = repeat zero (prod (shape (vdata (vars s v)))) /\ synced (vobjs s' k) = false) /\
    (training s = false -> forall k v, At e k (EVar v) ->
       nth (ref (vgrad (vars s v))) (hp s') [] = nth (ref (vgrad (vars s v))) (hp s) [] /\ synced (vobjs s' k) = synced (vobjs s k)).
Proof.
  intros V T Z D L S Gd. destruct (run_ok zero one add mul dbg e s who V (tree_consistent e T) Z D S) as (t & s' & who' & R1 & R2 & R3 & R4 & P & R6).
  pose proof P as [P1 P2 P3 P4 P5 P6 P7]. set (s0 := set_ran (set_cache s (fun _ => None)) []) in *.
  exists t, s', who'. split; [exact R1|]. split; [exact R2|].
  pose proof (x_vars _ _ _ _ _ P2) as XV. cbn [s0 set_ran set_cache vars] in XV.
  pose proof S as (S1 & _).
  assert (Gd' : graded e s').
  { intros k v H. destruct (Gd k v H) as [G1 G2]. rewrite XV. split; [exact G1|]. rewrite <- G2. destruct (S1 k v H) as (_ & W & Lg).
    destruct (x_grad _ _ _ _ _ P2 _ v Lg W) as [E|[_ E]].
    - cbn [s0 set_ran set_cache hp] in E. now rewrite (nth_error_nth_eq _ _ _ E).
    - cbn [s0 set_ran set_cache hp] in E. rewrite (repeat_len_nth _ _ _ E). now rewrite repeat_length. }
  split; [exact (after_run zero one add mul e (env_of s) T Z L s' who' P1 P5 Gd')|].
  split; [exact XV|]. split; [exact (x_hold _ _ _ _ _ P2)|]. split; [exact (x_tr _ _ _ _ _ P2)|]. split; [exact (x_len _ _ _ _ _ P2)|].
  split; [exact (x_who _ _ _ _ _ P2)|]. split; [exact (x_frame _ _ _ _ _ P2)|].
  split; [intros k; destruct (x_vobj _ _ _ _ _ P2 k) as (Q1 & Q2 & Q3 & _); auto|].
  split; [|intros Tr k v H; destruct (S1 k v H) as (_ & W & Lg); split;
    [destruct (x_grad _ _ _ _ _ P2 _ v Lg W) as [E|[E _]];
       [exact (nth_error_nth_eq _ _ _ E)|cbn [s0 set_ran set_cache training] in E; congruence]
    |destruct (x_vobj _ _ _ _ _ P2 k) as (_ & _ & _ & [E|[E _]]); [exact E|cbn [s0 set_ran set_cache training] in E; congruence]]].
  intros Tr k v H. assert (Tr' : training s' = true) by (rewrite (x_tr _ _ _ _ _ P2); exact Tr).
  destruct (P7 Tr' k v H) as [Q1 Q2]. split.
  - unfold gzero in Q1. rewrite XV in Q1. destruct (Gd' k v H) as [_ G2]. rewrite XV in G2. rewrite <- G2.
    clear - Q1. induction (nth (ref (vgrad (vars s v))) (hp s') []) as [|a l IH]; [reflexivity|]. inversion Q1; subst. cbn. f_equal. auto.
  - destruct k; exact Q2.
Qed.

End Train.
