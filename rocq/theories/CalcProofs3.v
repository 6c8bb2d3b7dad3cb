(** Back-propagated gradients are derivatives. *)
From Coq Require Import List Arith Lia Bool PeanoNat Reals Lra FunctionalExtensionality.
From Coquelicot Require Import Rcomplements Hierarchy Derive.
From Verif Require Import ListBase TensorModel TensorSpec TensorProofs ArrayModel GraphModel GraphSpec GradSpec LayerSpec LayerProofs LayerProofs4
  GraphProofs2 GradProofs GradProofs3 CalcSpec CalcProofs CalcProofs2.
Import ListNotations.
Local Open Scope nat_scope.

Section Derive.
Variable dbg : bool.
Notation grads := (grads 0%R 1%R Rplus Rmult dbg).
Notation sizes_ok := (sizes_ok 0%R 1%R Rplus Rmult).

Lemma upd_self (l : list R) p : p < length l -> upd l p (nth p l 0%R) = l.
Proof.
  intros Hp. apply (list_eq_nth_d 0%R); rewrite upd_length; [reflexivity|]. intros i Hi. rewrite nth_upd by assumption.
  destruct (Nat.eqb_spec p i); subst; rewrite ?Nat.eqb_refl; reflexivity.
Qed.

Lemma nudge_self q v p : p < length (snd (e_var q v)) -> nudge q v p (nth p (snd (e_var q v)) 0%R) = q.
Proof.
  intros Hp. unfold nudge. destruct q as [fv fh fc]. cbn [e_var e_hold e_const] in *. f_equal. apply functional_extensionality. intros u.
  destruct (Nat.eqb_spec u v) as [->|]; [|reflexivity]. destruct (fv v) as [sh d] eqn:E. cbn [fst snd] in *. f_equal.
  now apply upd_self.
Qed.

(** the unit velocity *)
Definition unit_at (n p : nat) : list R := upd (repeat 0%R n) p 1%R.

Lemma unit_nth n p i : p < n -> nth i (unit_at n p) 0%R = (if i =? p then 1 else 0)%R.
Proof.
  intros Hp. unfold unit_at. rewrite nth_upd by (rewrite repeat_length; assumption). rewrite (Nat.eqb_sym p i). destruct (i =? p); [reflexivity|]. apply nth_zeros.
Qed.

Lemma inner_unit g n p : length g = n -> p < n -> inner g (unit_at n p) = nth p g 0%R.
Proof.
  intros L Hp. rewrite inner_comm. unfold unit_at. rewrite inner_upd by (rewrite ?repeat_length; congruence).
  rewrite inner_zeros by assumption. rewrite nth_zeros. ring.
Qed.

Lemma inner_zeros_r g n : length g = n -> inner g (repeat 0%R n) = 0%R.
Proof. intros. rewrite inner_comm. now apply inner_zeros. Qed.

(** sum of element p of the gradients delivered to v *)
Definition total (v p : nat) (ds : list (delivery (A:=R))) : R :=
  rsum (map (fun d => match d with (_, v', g) => if v' =? v then nth p (snd g) 0%R else 0%R end) ds).

Theorem grads_derive q e : evalue e = false -> sizes_ok q e -> right_everywhere dbg q e ->
  exists y, evalR q e = Some y /\ sized y /\
    forall g k, fst g = fst y -> sized g ->
      exists ds, grads q k e g = Some ds /\ Forall (fits q) ds /\
        forall kv v p, At e kv (EVar v) -> p < prod (fst (e_var q v)) ->
          is_derive (fun x => paired (snd g) (evalR (nudge q v p x) e)) (nth p (snd (e_var q v)) 0%R) (total v p ds).
Proof.
  intros Nv Sz Rt.
  (* the leaves at rest, to get the value *)
  assert (Lv : forall kv v, At e kv (EVar v) -> sized (e_var q v)).
  { intros kv v H. destruct (Sz kv _ H ltac:(discriminate)) as (w & Ew & Lw & _). cbn [eval] in Ew. injection Ew as ->. exact Lw. }
  destruct (chain dbg (fun _ => q) 0%R (fun v => repeat 0%R (prod (fst (e_var q v)))) e) with (x := e) (k0 := @None (nat * bool)) as (y & dy & Ty & Gy); auto.
  { intros kv. split; [|split; reflexivity]. intros v H. apply tangent_const. exact (Lv kv v H). }
  { constructor. }
  exists y. pose proof (tan_at _ _ _ _ Ty) as Ey. cbv beta in Ey. split; [exact Ey|]. split; [exact (tan_sized _ _ _ _ Ty)|].
  intros g k Eg Sg. destruct (Gy g k Eg Sg) as (ds & Ed & Fd & _). exists ds. split; [exact Ed|]. split; [exact Fd|].
  intros kv v p H Hp. pose proof (Lv kv v H) as Lvv. unfold sized in Lvv.
  set (x0 := nth p (snd (e_var q v)) 0%R).
  set (dx := fun u => if u =? v then unit_at (prod (fst (e_var q v))) p else repeat 0%R (prod (fst (e_var q u)))).
  assert (E0 : nudge q v p x0 = q) by (apply nudge_self; congruence).
  destruct (chain dbg (nudge q v p) x0 dx e) with (x := e) (k0 := @None (nat * bool)) as (y' & dy' & Ty' & Gy'); auto.
  { intros ku. split; [|split; reflexivity]. intros u Hu. rewrite E0. unfold dx. cbn [nudge e_var]. destruct (Nat.eqb_spec u v) as [->|Nu].
    - constructor.
      + f_equal. rewrite (surjective_pairing (e_var q v)) at 3. f_equal. unfold x0. apply upd_self. congruence.
      + exact Lvv.
      + unfold unit_at. now rewrite upd_length, repeat_length.
      + apply filter_forall. intros t. eexists. split; [reflexivity|]. split; [reflexivity|]. unfold sized. cbn [fst snd]. now rewrite upd_length.
      + intros i Hi. rewrite unit_nth by assumption. cbn [entry snd].
        apply (is_derive_ext (fun t => if i =? p then t else nth i (snd (e_var q v)) 0%R)).
        { intros t. rewrite nth_upd by congruence. now rewrite (Nat.eqb_sym p i). }
        destruct (i =? p); [apply @is_derive_id|apply @is_derive_const].
    - apply tangent_const. exact (Lv ku u Hu). }
  { now rewrite E0. }
  { now rewrite E0. }
  { constructor. }
  pose proof (tan_at _ _ _ _ Ty') as Ey'. cbv beta in Ey'. rewrite E0 in Ey'. rewrite Ey in Ey'. injection Ey' as <-.
  rewrite E0 in Gy'. destruct (Gy' g k Eg Sg) as (ds' & Ed' & _ & Hin). rewrite Ed in Ed'. injection Ed' as <-.
  pose proof (tangent_paired _ _ _ _ (snd g) Ty') as D. rewrite Hin in D.
  replace (total v p ds) with (effect dx ds); [apply D; unfold sized in Sg; congruence|].
  unfold effect, total. f_equal. apply map_ext_in. intros [[k' w] g'] Hd. rewrite Forall_forall in Fd. destruct (Fd _ Hd) as [F1 F2].
  unfold dx. destruct (Nat.eqb_spec w v) as [->|Nw].
  - apply inner_unit; congruence.
  - apply inner_zeros_r. congruence.
Qed.

Lemma arrived_total vo v p ds us : map fst ds = us -> (forall k, In (k, v) us -> trainable (vo k) = true) -> arrived vo v p ds = total v p ds.
Proof.
  intros <- H. unfold arrived, total. f_equal. apply map_ext_in. intros [[k w] g] Hin. destruct (Nat.eqb_spec w v) as [->|]; [|reflexivity].
  cbn [andb]. rewrite (H k); [reflexivity|]. change (k, v) with (fst (k, v, g)). now apply in_map.
Qed.

End Derive.

(** ** Runs and backward passes *)
Section Training.
Variable dbg : bool.
Variable eps : R.
Notation grads := (grads 0%R 1%R Rplus Rmult dbg).
Notation run := (run 0%R 1%R Rplus Rmult dbg).
Notation backs := (backs 0%R 1%R Rplus Rmult Ropp rleb eps dbg).
Notation sizes_ok := (sizes_ok 0%R 1%R Rplus Rmult).
Notation disciplined := (disciplined 0%R 1%R Rplus Rmult).
Notation legible := (legible 0%R 1%R Rplus Rmult).

Theorem train_ok e s who gs dss : (forall c, e <> EVal c) -> NoDup (ids e) -> sizes_ok (env_of s) e -> disciplined (env_of s) e ->
  legible (env_of s) e -> separate e s who -> graded e s ->
  Forall2 (fun g ds => grads (env_of s) None e g = Some ds /\ Forall (fits (env_of s)) ds) gs dss -> 
  exists t s1 s2 who2, run e s = Ok (t, s1) /\ backs e gs s1 = Ok (tt, s2) /\ evalR (env_of s) e = Some (val_of (hp s1) t) /\
    separate e s2 who2 /\ graded e s2 /\ (forall v, vars s2 v = vars s v) /\ holders s2 = holders s /\ training s2 = training s /\
    length (hp s) <= length (hp s2) /\ (forall r, r < length (hp s) -> who2 r = who r) /\
    (forall r, r < length (hp s) -> (forall n, who r <> OOp n) -> (forall v, who r <> OGrad v) -> (forall n b, who r <> OBack n b) ->
       nth_error (hp s2) r = nth_error (hp s) r) /\
    (forall k, trainable (vobjs s2 k) = trainable (vobjs s k) /\ l1 (vobjs s2 k) = l1 (vobjs s k) /\ l2 (vobjs s2 k) = l2 (vobjs s k)) /\
    (training s = true -> forall k v, At e k (EVar v) ->
       nth (ref (vgrad (vars s v))) (hp s1) [] = repeat 0%R (prod (shape (vdata (vars s v)))) /\
       (gs <> [] -> length (nth (ref (vgrad (vars s v))) (hp s2) []) = prod (shape (vdata (vars s v))) /\
        forall p, p < prod (shape (vdata (vars s v))) -> nth p (nth (ref (vgrad (vars s v))) (hp s2) []) 0%R =
         (rsum (map (arrived (vobjs s) v p) dss) + penalty eps (vobjs s) v (nth p (nth (ref (vdata (vars s v))) (hp s) []) 0) (uses None e))%R)) /\
    (training s = false -> forall k v, At e k (EVar v) ->
       nth (ref (vgrad (vars s v))) (hp s1) [] = nth (ref (vgrad (vars s v))) (hp s) [] /\
       ((forall k', At e k' (EVar v) -> trainable (vobjs s k') = true -> synced (vobjs s k') = true) ->
        forall p, p < prod (shape (vdata (vars s v))) -> nth p (nth (ref (vgrad (vars s v))) (hp s2) []) 0%R =
         (nth p (nth (ref (vgrad (vars s v))) (hp s) []) 0 + rsum (map (arrived (vobjs s) v p) dss))%R)).
Proof.
  intros V T Z D L S Gd F.
  destruct (run_binv 0%R 1%R Rplus Rmult dbg e s who V T Z D L S Gd) as (t & s1 & who1 & R1 & E1 & B1 & V1 & H1 & T1 & L1 & W1 & F1 & O1 & Tr1 & Pr1).
  destruct (backs_ok 0%R 1%R Rplus Rmult Ropp rleb eps dbg e (env_of s) T Z gs dss s1 who1 B1 F)
    as (s2 & who2 & R2 & B2 & L2 & W2 & V2 & H2 & O2 & T2 & Ow2 & F2 & G2 & M2).
  assert (FU : Forall (fun ds => map fst ds = uses None e /\ Forall (fits (env_of s)) ds) dss).
  { clear - F. induction F as [|g ds gs dss [Hg Hf] F IH]; constructor; auto. split; [|assumption]. exact (grads_uses dbg (env_of s) e None g ds Hg). }
  exists t, s1, s2, who2. split; [exact R1|]. split; [exact R2|]. split; [exact E1|].
  split; [exact (b_sep _ _ _ _ _ _ _ _ B2)|]. split; [exact (b_grad _ _ _ _ _ _ _ _ B2)|].
  split; [intros v; now rewrite V2, V1|]. split; [congruence|]. split; [congruence|]. split; [lia|].
  split; [intros r Hr; rewrite W2 by lia; now apply W1|].
  split.
  { intros r Hr N1 N2 N3. rewrite F2; [now apply F1|lia| |].
    - intros v Hv. rewrite W1 in Hv by assumption. exfalso. exact (N2 v Hv).
    - intros m b Hb. rewrite W1 in Hb by assumption. exfalso. exact (N3 m b Hb). }
  split.
  { intros k. rewrite M2. destruct (O1 k) as (Q1 & Q2 & Q3). clear - Q1 Q2 Q3.
    assert (X : forall dss (vo : slot -> vobj (A:=R)), trainable (fold_left (fun vo ds => marks ds vo) dss vo k) = trainable (vo k) /\
       l1 (fold_left (fun vo ds => marks ds vo) dss vo k) = l1 (vo k) /\ l2 (fold_left (fun vo ds => marks ds vo) dss vo k) = l2 (vo k)).
    { intros dss'. induction dss' as [|ds dss' IH]; intros vo; [auto|]. cbn [fold_left]. destruct (IH (marks ds vo)) as (X1 & X2 & X3).
      destruct (marks_same ds vo k) as (Y1 & Y2 & Y3). rewrite X1, X2, X3. auto. }
    destruct (X dss (vobjs s1)) as (X1 & X2 & X3). rewrite X1, X2, X3. auto. }
  assert (AR : forall v p, map (arrived (vobjs s1) v p) dss = map (arrived (vobjs s) v p) dss).
  { intros v p. apply map_ext. intros ds. apply arrived_same. intros k. apply O1. }
  split.
  - intros Tr k v H. destruct (Tr1 Tr k v H) as [G0 _]. split; [exact G0|]. intros Ng.
    pose proof (G2 k v H) as G. rewrite V1 in G. rewrite G, G0. cbn [env_of e_var].
    destruct dss as [|ds dss]; [inversion F; subst; congruence|].
    set (dat := snd (val_of (hp s) (vdata (vars s v)))).
    assert (Ld : length dat = prod (shape (vdata (vars s v)))).
    { destruct (Z k _ H ltac:(discriminate)) as (w & Ew & Lw & _). cbn [eval env_of e_var] in Ew. injection Ew as <-. exact Lw. }
    destruct (gathers_fresh eps (env_of s) v _ dat (uses None e) eq_refl Ld ds dss (vobjs s1) (repeat 0%R (prod (shape (vdata (vars s v)))))) as [Q1 Q2].
    { intros k' Hk'. apply (Tr1 Tr k' v). now apply (uses_at e e None (At_root e)). }
    { exact FU. }
    { cbn. apply repeat_length. }
    split; [exact Q1|]. intros p Hp. rewrite Q2 by exact Hp. rewrite nth_zeros, AR. unfold dat. cbn [val_of snd].
    replace (penalty eps (vobjs s1) v) with (penalty eps (vobjs s) v); [ring|].
    apply functional_extensionality. intros x. apply functional_extensionality. intros us. unfold penalty. f_equal. apply map_ext. intros [k' w].
    cbn [fst snd]. destruct (O1 k') as (Q3 & Q4 & Q5). unfold reg. now rewrite Q3, Q4, Q5.
  - intros Tr k v H. destruct (Pr1 Tr k v H) as [G0 _]. split; [exact G0|]. intros Sy p Hp.
    pose proof (G2 k v H) as G. rewrite V1 in G. rewrite G, G0. cbn [env_of e_var].
    set (dat := snd (val_of (hp s) (vdata (vars s v)))).
    assert (Ld : length dat = prod (shape (vdata (vars s v)))).
    { destruct (Z k _ H ltac:(discriminate)) as (w & Ew & Lw & _). cbn [eval env_of e_var] in Ew. injection Ew as <-. exact Lw. }
    destruct (gathers_synced eps (env_of s) v _ dat (uses None e) eq_refl Ld dss (vobjs s1) (nth (ref (vgrad (vars s v))) (hp s) [])) as [Q1 Q2].
    { intros k' Hk'. assert (Hk2 : At e k' (EVar v)) by now apply (uses_at e e None (At_root e)).
      destruct (O1 k') as (-> & _). destruct (Pr1 Tr k' v Hk2) as [_ ->]. now apply Sy. }
    { exact FU. }
    { exact (proj2 (Gd k v H)). }
    rewrite Q2 by exact Hp. now rewrite AR.
Qed.

End Training.
