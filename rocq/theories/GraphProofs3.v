(** A forward pass computes the mathematical value of the expression. *)
From Coq Require Import List Arith Lia Bool PeanoNat.
From Verif Require Import ListBase TensorModel TensorSpec TensorProofs TensorProofs2 GraphModel GraphSpec GraphProofs GraphProofs2.
Import ListNotations.

Local Notation "'do' x <- m ; f" := (gbind m (fun x => f)) (at level 200, x name, m at level 100, f at level 200).

Lemma gbind_ok {A S T} (m : G (A:=A) S) (f : S -> G (A:=A) T) s v s' : m s = Ok (v, s') -> gbind m f s = f v s'.
Proof. intros E. unfold gbind. now rewrite E. Qed.

Section Fwd.
Context {A : Type} (zero one : A) (add mul : A -> A -> A).
Variable dbg : bool.
Variable e0 : expr A.
Variable q : env A.
Hypothesis Hcons : consistent e0.
Hypothesis Hsz : sizes_ok zero one add mul q e0.
Hypothesis Hdis : disciplined zero one add mul q e0.

Notation inplace := (inplace zero one add mul q).
Notation path := (path zero one add mul q).
Notation eval := (eval zero one add mul q).
Notation owner_of := (owner_of zero one add mul q).
Notation const_like := (const_like one mul).
Notation inv := (inv zero one add mul e0 q).
Notation ext := (ext zero).
Notation inputs := (inputs zero one add mul q).
Notation operands := (operands zero one add mul q).
Notation gzero := (gzero zero).
Notation forward := (forward zero one add mul dbg).

Definition quiet (s : st A) (x : expr A) (k : slot) : Prop :=
  training s = true -> forall k' v, At x k' (EVar v) ->
    gzero s v /\ synced (vobjs s (match k' with None => k | _ => k' end)) = false.

Record post (k : slot) (x : expr A) (s s' : st A) (who who' : nat -> owner) (t : tensor) : Prop := {
  p_inv : inv s' who';
  p_ext : ext s s' who who';
  p_loc : loc s' x = Some t;
  p_new : forall n, cache s' n <> None -> cache s n <> None \/ In n (ids x);
  p_all : forall n, In n (ids x) -> cache s' n <> None;
  p_objs : forall k', k' <> k -> (forall m b, k' = Some (m, b) -> ~ In m (ids x)) -> objs s' k' = objs s k';
  p_quiet : quiet s' x k
}.

Lemma ext_objs s who o : ext s (set_objs s o) who who.
Proof.
  constructor; cbn [set_objs hp vars holders training ownb cache ran vobjs]; auto.
  exists []. split; [reflexivity|]. split; [constructor|]. intros n. cbn. split; [contradiction|]. intros [-> H]. now apply H.
Qed.

Lemma gzero_ext s s' who who' k v : inv s who -> ext s s' who who' -> At e0 k (EVar v) -> gzero s v -> gzero s' v.
Proof.
  intros I X H Z. destruct (i_sep _ _ _ _ _ _ _ _ I) as (S1 & _). destruct (S1 k v H) as (_ & W & L).
  unfold GraphProofs2.gzero in *. rewrite (x_vars _ _ _ _ _ X).
  destruct (x_grad _ _ _ _ _ X _ v L W) as [E|[_ E]].
  - now rewrite (nth_error_nth_eq _ _ _ E).
  - rewrite (repeat_len_nth _ _ _ E). apply Forall_forall. intros z Hz. apply repeat_spec in Hz. congruence.
Qed.

Lemma quiet_ext s s' who who' k0 x k : inv s who -> ext s s' who who' -> At e0 k0 x -> quiet s x k -> quiet s' x k.
Proof.
  intros I X H Q T k' v Hv. rewrite (x_tr _ _ _ _ _ X) in T. destruct (Q T k' v Hv) as [Z1 Z2].
  destruct (At_trans _ _ _ H _ _ Hv) as (k2 & Hv0 & _). split; [eapply gzero_ext; eauto|].
  destruct (x_vobj _ _ _ _ _ X (match k' with None => k | _ => k' end)) as (_ & _ & _ & [->|[_ ->]]); auto.
Qed.

Lemma not_grad x v : owner_of x <> OGrad v.
Proof.
  induction x as [| | | |? [] ? IH|? [] l IHl r IHr]; cbn; try discriminate; auto.
  destruct (negb (is_value l) && _); [auto|discriminate].
Qed.

(** ** leaves *)

Lemma var_ok k v s who : At e0 k (EVar v) -> inv s who ->
  exists t s', var_forward zero k v s = Ok (t, s') /\ post k (EVar v) s s' who who t.
Proof.
  intros H I. unfold var_forward. rewrite (gbind_ok _ _ _ _ _ eq_refl). rewrite (gbind_ok _ _ s (vars s v) s eq_refl).
  destruct (i_sep _ _ _ _ _ _ _ _ I) as (S1 & _). destruct (S1 k v H) as (W1 & W2 & L).
  destruct (training s) eqn:T.
  - destruct (nth_error (hp s) (ref (vgrad (vars s v)))) as [d|] eqn:Ed; [|apply nth_error_None in Ed; lia].
    set (h' := upd (hp s) (ref (vgrad (vars s v))) (map (fun _ => zero) d)).
    assert (Er : heaply (reset (vgrad (vars s v)) zero) s = Ok (tt, set_hp s h')).
    { unfold heaply, reset, map_inplace. rewrite (bind_ok _ _ (hp s) (hp s) d) by (unfold data; now rewrite Ed).
      reflexivity. }
    rewrite (gbind_ok _ _ _ _ _ Er).
    set (o := VObj false (trainable (vobjs s k)) (l1 (vobjs s k)) (l2 (vobjs s k))).
    set (s' := set_vobjs (set_hp s h') (supd (vobjs s) k o)).
    exists (vdata (vars s v)), s'. split; [reflexivity|].
    assert (X : ext s s' who who).
    { constructor; cbn [s' set_vobjs set_hp hp vars holders training ownb cache ran vobjs]; auto.
      - unfold h'. now rewrite upd_length.
      - intros r Hr _ Hg. unfold h'. apply nth_error_upd_other. intros <-. now apply (Hg v).
      - intros r w Hr Hw. unfold h'. destruct (Nat.eq_dec (ref (vgrad (vars s v))) r) as [<-|Nr].
        + right. split; [assumption|]. rewrite nth_error_upd_same by assumption. rewrite (nth_error_nth _ _ [] Ed). f_equal.
          clear. induction d; cbn; congruence.
        + left. now apply nth_error_upd_other.
      - exists []. split; [reflexivity|]. split; [constructor|]. intros n. cbn. split; [contradiction|]. intros [-> E]. now apply E.
      - intros k'. destruct (slot_eqb_spec k' k) as [->|Nk].
        + rewrite supd_same. cbn. split; [reflexivity|]. split; [reflexivity|]. split; [reflexivity|]. right. auto.
        + rewrite supd_other by assumption. split; [reflexivity|]. split; [reflexivity|]. split; [reflexivity|]. left. auto. }
    constructor; auto.
    + apply (inv_heap _ _ _ _ _ _ Hsz s s' who who); [assumption|assumption|reflexivity|reflexivity|reflexivity|].
      intros r Hr Hg. cbn. unfold h'. apply nth_error_upd_other. intros <-. now apply (Hg v).
    + intros _ k' w Hw. assert (w = v /\ k' = None) as [-> ->].
      { remember (EVar v) as x eqn:Ex. assert (size x = 1) as Sx by now subst. destruct (At_size _ _ _ Hw) as [_ Sz].
        destruct k' as [p|]; [specialize (Sz ltac:(discriminate)); cbn in Sz; lia|]. subst x. inversion Hw; subst. auto. }
      cbn [s' set_vobjs set_hp vobjs]. rewrite supd_same. split; [|reflexivity].
      unfold GraphProofs2.gzero. cbn [s' set_vobjs set_hp vars hp]. unfold h'.
      rewrite (repeat_len_nth _ _ _ (nth_error_upd_same _ _ _ L)). apply Forall_forall. intros z Hz. apply in_map_iff in Hz.
      destruct Hz as (? & <- & _). reflexivity.
  - exists (vdata (vars s v)), s. split; [reflexivity|]. constructor; auto.
    + apply ext_refl.
    + intros T'. congruence.
Qed.

Lemma quiet_leaf s x k : size x = 1 -> (forall v, x <> EVar v) -> quiet s x k.
Proof.
  intros Sx N T k' v Hv. exfalso. destruct (At_size _ _ _ Hv) as [_ Sz].
  destruct k' as [p|]; [specialize (Sz ltac:(discriminate)); cbn in Sz; lia|]. inversion Hv; subst. now apply (N v).
Qed.

Lemma leaf_ok k x s who : At e0 k x -> is_leaf x = true -> inv s who ->
  exists t s', forward k x s = Ok (t, s') /\ post k x s s' who who t.
Proof.
  intros H L I. destruct x as [v|p|t| | |]; try discriminate; cbn [GraphModel.forward].
  - now apply var_ok.
  - destruct (i_hold _ _ _ _ _ _ _ _ I k p H) as (t & E1 & E2). exists t, s. unfold hold_forward.
    rewrite (gbind_ok _ _ s (holders s p) s eq_refl), E1. split; [reflexivity|].
    constructor; auto using ext_refl. apply quiet_leaf; [reflexivity|discriminate].
  - exists t, s. split; [reflexivity|]. constructor; auto using ext_refl. apply quiet_leaf; [reflexivity|discriminate].
Qed.

(** ** operators *)

(** the end of an operator's evaluation, from the state in which its action has run *)
Lemma conclude_ok k n (s1 : st A) h' own' t :
  (do _ <- put_out k (Some t); do _ <- update n t; do _ <- modify (fun s => set_ran s (n :: ran s)); gret t)
    (set_own (set_hp s1 h') own') = Ok (t, finish s1 k n t h' own').
Proof. reflexivity. Qed.

Definition who_new (who : nat -> owner) (len : nat) (o : owner) : nat -> owner := fun r => if r <? len then who r else o.

Lemma who_new_old who len o r : r < len -> who_new who len o r = who r.
Proof. intros H. unfold who_new. now rewrite (proj2 (Nat.ltb_lt _ _) H). Qed.
Lemma who_new_new who len o r : len <= r -> who_new who len o r = o.
Proof. intros H. unfold who_new. now rewrite (proj2 (Nat.ltb_ge _ _) H). Qed.

(** storing a result in the operator's own buffer or in a new tensor *)
Lemma store_ok s who k x n w (b : bool) : inv s who -> At e0 k x -> node_id x = Some n -> cache s n = None ->
  (forall m, In m (ids x) -> m <> n -> cache s m <> None) -> owner_of x = OOp n -> eval x = Some w -> inputs s who k x ->
  (training s = true -> forall k' v, At x k' (EVar v) -> gzero s v /\ (k' <> None -> synced (vobjs s k') = false)) ->
  exists t h' own' who', (if b then into_own n w else new_tensor w) s = Ok (t, set_own (set_hp s h') own') /\
    inv (finish s k n t h' own') who' /\ ext s (finish s k n t h' own') who who'.
Proof.
  intros I H E C Hids Ho Ew Hin HZ. destruct (i_sep _ _ _ _ _ _ _ _ I) as (_ & _ & _ & S4 & _).
  assert (Happ : forall own', (forall m u, own' m = Some u -> (u = mkT (fst w) (length (hp s)) /\ m = n) \/ own s m = Some u) ->
    inv (finish s k n (mkT (fst w) (length (hp s))) (hp s ++ [snd w]) own') (who_new who (length (hp s)) (OOp n)) /\
    ext s (finish s k n (mkT (fst w) (length (hp s))) (hp s ++ [snd w]) own') who (who_new who (length (hp s)) (OOp n))).
  { intros own' Ho'. apply (inv_finish zero one add mul e0 q Hcons Hsz) with (x := x); auto; cbn [ref].
    - rewrite app_length. lia.
    - intros r Hr. now apply who_new_old.
    - intros r Hr _. now apply nth_error_app1.
    - intros m tm y Cm _ _. left. apply nth_error_app1. destruct (i_cache _ _ _ _ _ _ _ _ I m tm Cm) as (k' & y' & R).
      apply (c_live _ _ _ _ _ _ _ _ _ _ _ _ R).
    - intros m u Eu. rewrite app_length. destruct (Ho' m u Eu) as [[-> ->]|Eo]; cbn [ref].
      + split; [now apply who_new_new|cbn; lia].
      + destruct (S4 m u Eo) as [W L]. split; [now rewrite who_new_old|lia].
    - rewrite app_length. cbn. lia.
    - rewrite who_new_new; auto.
    - rewrite Ew. f_equal. unfold val_of. cbn [shape ref]. rewrite nth_middle. now destruct w. }
  destruct b; [unfold into_own; destruct (own s n) as [u|] eqn:Eu|].
  - destruct (S4 n u Eu) as [W L].
    exists (mkT (fst w) (ref u)), (upd (hp s) (ref u) (snd w)), (fupd (own s) n (Some (mkT (fst w) (ref u)))), who.
    split; [reflexivity|]. apply (inv_finish zero one add mul e0 q Hcons Hsz) with (x := x); auto; cbn [ref].
    + now rewrite upd_length.
    + intros r Hr Hr'. apply nth_error_upd_other. intros <-. now apply (Hr' n).
    + intros m tm y Cm _ _. left. apply nth_error_upd_other. intros Er.
      apply (unused_storage zero one add mul e0 q s who n m tm I C Cm). congruence.
    + intros m v Ev. rewrite upd_length. destruct (Nat.eq_dec m n) as [->|Nm].
      * rewrite fupd_same in Ev. injection Ev as <-. cbn [ref]. auto.
      * rewrite fupd_other in Ev by assumption. now apply S4.
    + now rewrite upd_length.
    + congruence.
    + rewrite Ew. f_equal. unfold val_of. cbn [shape ref]. rewrite (repeat_len_nth _ _ _ (nth_error_upd_same _ _ _ L)). now destruct w.
  - eexists _, _, (fupd (own s) n (Some (mkT (fst w) (length (hp s))))), _. split; [reflexivity|]. apply Happ.
    intros m v Ev. destruct (Nat.eq_dec m n) as [->|Nm].
    + rewrite fupd_same in Ev. injection Ev as <-. auto.
    + rewrite fupd_other in Ev by assumption. auto.
  - eexists _, _, (own s), _. split; [reflexivity|]. apply Happ. auto.
Qed.

Lemma hit_ok k x n t s who : At e0 k x -> node_id x = Some n -> inv s who ->
  (forall m b, k = Some (m, b) -> cache s m = None) -> cache s n = Some t ->
  query n s = Ok (Some t, s) /\
  post k x s (set_objs s (supd (objs s) k (Obj (in1 (objs s k)) (in2 (objs s k)) (Some t)))) who who t.
Proof.
  intros H E I Hk C.
  pose proof (cached_good zero one add mul e0 q Hcons Hdis s who k x n t I H E C Hk) as Ev.
  destruct (Hsz k x H ltac:(intros c ->; discriminate)) as (w & Ew & _ & Nw). rewrite Ev in Ew. injection Ew as <-.
  split.
  - unfold query. rewrite C. unfold val_of in Nw. cbn [snd] in Nw. now destruct (nth (ref t) (hp s) []).
  - destruct (cached_at zero one add mul e0 q Hcons s who k x n t I H E C) as (k' & R).
    constructor.
    + now apply (inv_hit zero one add mul e0 q Hcons s who k x n t).
    + apply ext_objs.
    + destruct x; try discriminate; cbn in E |- *; congruence.
    + auto.
    + exact (c_sub _ _ _ _ _ _ _ _ _ _ _ _ R).
    + intros k2 Nk _. cbn [set_objs objs]. now rewrite supd_other.
    + intros T k2 v Hv. destruct (c_zero _ _ _ _ _ _ _ _ _ _ _ _ R T k2 v Hv) as [Z1 Z2]. split; [exact Z1|].
      destruct k2 as [p|]; [apply Z2; discriminate|]. inversion Hv; subst. discriminate.
Qed.

Lemma miss_query n s : cache s n = None -> query n s = Ok (None, s) :> outcome (option tensor * st A).
Proof. intros C. unfold query. now rewrite C. Qed.

Lemma evalx k x : At e0 k x -> is_value x = false -> exists w, eval x = Some w.
Proof. intros H V. destruct (Hsz k x H ltac:(intros c ->; discriminate)) as (w & Ew & _). eauto. Qed.

Lemma At_step (x : expr A) n k' z : node_id x = Some n -> At x k' z ->
  z = x \/ exists b y k2, At x (Some (n, b)) y /\ At y k2 z /\ (k2 = None -> k' = Some (n, b)) /\ (k2 <> None -> k' = k2).
Proof.
  intros E Hz'. induction Hz' as [|k1 m o y Hy IH|k1 m o l r Hy IH|k1 m o l r Hy IH].
  - now left.
  - right. destruct IH as [Ex|(b & y' & k2 & P1 & P2 & P3 & P4)].
    + assert (m = n) as -> by (rewrite <- Ex in E; cbn in E; congruence).
      exists false, y, None. split; [now apply (At_un _ k1 n o)|]. split; [constructor|]. split; congruence.
    + exists b, y', (Some (m, false)). split; [assumption|]. split; [now apply (At_un _ k2 m o)|]. split; congruence.
  - right. destruct IH as [Ex|(b & y' & k2 & P1 & P2 & P3 & P4)].
    + assert (m = n) as -> by (rewrite <- Ex in E; cbn in E; congruence).
      exists false, l, None. split; [now apply (At_left _ k1 n o l r)|]. split; [constructor|]. split; congruence.
    + exists b, y', (Some (m, false)). split; [assumption|]. split; [now apply (At_left _ k2 m o l r)|]. split; congruence.
  - right. destruct IH as [Ex|(b & y' & k2 & P1 & P2 & P3 & P4)].
    + assert (m = n) as -> by (rewrite <- Ex in E; cbn in E; congruence).
      exists true, r, None. split; [now apply (At_right _ k1 n o l r)|]. split; [constructor|]. split; congruence.
    + exists b, y', (Some (m, true)). split; [assumption|]. split; [now apply (At_right _ k2 m o l r)|]. split; congruence.
Qed.

(** the quiet condition of an operator from those of its operands *)
Lemma quiet_op s x n k : At e0 k x -> node_id x = Some n ->
  (forall b y, At x (Some (n, b)) y -> quiet s y (Some (n, b))) ->
  training s = true -> forall k' v, At x k' (EVar v) -> gzero s v /\ (k' <> None -> synced (vobjs s k') = false).
Proof.
  intros H E Q T k' v Hv. destruct (At_step x n k' _ E Hv) as [Ex|Hstep]; [rewrite <- Ex in E; discriminate|].
  destruct Hstep as (b & y & k2 & P1 & P2 & P3 & P4). destruct (Q b y P1 T k2 v P2) as [Z1 Z2]. split; [exact Z1|].
  intros _. destruct k2 as [p|]; [rewrite (P4 ltac:(discriminate)); exact Z2|rewrite (P3 eq_refl); exact Z2].
Qed.

Lemma owner_of_un_new n own f m b y : owner_of (EUn n (UNew own f m b) y) = OOp n.
Proof. reflexivity. Qed.

Section Node.
Variables (k : slot) (n : nat).

(** after the action: assemble the postcondition *)
Lemma node_post x s s1 s3 who who3 who' t h' own' :
  At e0 k x -> node_id x = Some n -> cache s n = None ->
  ext s s3 who who3 -> (forall m, cache s3 m <> None -> cache s m <> None \/ In m (ids x)) ->
  (forall m, In m (ids x) -> m <> n -> cache s3 m <> None) ->
  (forall k', k' <> k -> (forall m b, k' = Some (m, b) -> ~ In m (ids x)) -> objs s3 k' = objs s k') ->
  inv s3 who3 -> (training s3 = true -> forall k' v, At x k' (EVar v) -> gzero s3 v /\ (k' <> None -> synced (vobjs s3 k') = false)) ->
  s1 = finish s3 k n t h' own' -> inv s1 who' -> ext s3 s1 who3 who' ->
  post k x s s1 who who' t.
Proof.
  intros H E C X Hnew Hall Hobj I3 HZ -> I' X'. constructor; auto.
  - exact (ext_trans _ _ _ _ _ _ _ X X').
  - destruct x; try discriminate; cbn in E |- *; injection E as ->; apply fupd_same.
  - intros m. cbn [finish cache]. destruct (Nat.eq_dec m n) as [->|Nm].
    + intros _. right. destruct x; try discriminate; cbn in E |- *; injection E as ->; auto.
    + rewrite fupd_other by assumption. auto.
  - intros m Hm. cbn [finish cache]. destruct (Nat.eq_dec m n) as [->|Nm]; [rewrite fupd_same; discriminate|].
    rewrite fupd_other by assumption. auto.
  - intros k' Nk Hk'. cbn [finish objs]. rewrite supd_other by assumption. auto.
  - intros T k' v Hv. cbn [finish training vobjs] in *. destruct (HZ T k' v Hv) as [Z1 Z2].
    destruct (At_trans _ _ _ H _ _ Hv) as (k2 & Hv0 & _). split; [exact (gzero_ext _ _ _ _ _ _ I3 X' Hv0 Z1)|].
    destruct k' as [p|]; [apply Z2; discriminate|]. inversion Hv; subst. discriminate.
Qed.

End Node.

Lemma un_ok k n o y s who :
  (forall k s who, At e0 k y -> is_value y = false -> inv s who -> (forall m b, k = Some (m, b) -> cache s m = None) ->
     exists t s' who', forward k y s = Ok (t, s') /\ post k y s s' who who' t) ->
  At e0 k (EUn n o y) -> inv s who -> (forall m b, k = Some (m, b) -> cache s m = None) ->
  exists t s' who', forward k (EUn n o y) s = Ok (t, s') /\ post k (EUn n o y) s s' who who' t.
Proof.
  intros IH H I Hk. set (x := EUn n o y) in *. cbn [x GraphModel.forward].
  destruct (cache s n) as [t|] eqn:C.
  { destruct (hit_ok k x n t s who H eq_refl I Hk C) as [Hq P]. rewrite (gbind_ok _ _ _ _ _ Hq).
    eexists t, _, who. split; [reflexivity|exact P]. }
  rewrite (gbind_ok _ _ _ _ _ (miss_query n s C)).
  set (s1 := set_objs s (supd (objs s) k (Obj (in1 (objs s k)) (in2 (objs s k)) None))).
  rewrite (gbind_ok (put_out k None) _ s tt s1 eq_refl).
  assert (I1 : inv s1 who) by (apply (inv_objs zero one add mul e0 q Hcons s who k x n); auto).
  pose proof (At_un _ k n o y H) as Hy.
  destruct (evalx k x H eq_refl) as (w & Ew).
  assert (Vy : is_value y = false) by (cbn in Ew; destruct y; auto; discriminate).
  destruct (IH (Some (n, false)) s1 who Hy Vy I1) as (i & s2 & who2 & F & P).
  { intros m b [= <- <-]. exact C. }
  destruct P as [P1 P2 P3 P4 P5 P6 P7].
  rewrite (gbind_ok _ _ _ _ _ F).
  assert (C2 : cache s2 n = None).
  { destruct (cache s2 n) as [u|] eqn:E; [|reflexivity]. exfalso.
    destruct (P4 n ltac:(congruence)) as [N|N]; [apply N; exact C|exact (no_cycle e0 Hcons _ _ _ Hy N)]. }
  set (s3 := set_objs s2 (supd (objs s2) k (Obj (Some i) (in2 (objs s2 k)) (out (objs s2 k))))).
  rewrite (gbind_ok (put_in1 k (Some i)) _ s2 tt s3 eq_refl).
  assert (I3 : inv s3 who2) by (apply (inv_objs zero one add mul e0 q Hcons s2 who2 k x n); auto).
  assert (X3 : ext s s3 who who2).
  { eapply ext_trans; [apply ext_objs|]. eapply ext_trans; [exact P2|]. apply ext_objs. }
  assert (Hin : inputs s3 who2 k x).
  { cbn [x GraphProofs2.inputs s3 set_objs objs]. rewrite supd_same. cbn [in1]. rewrite <- P3. reflexivity. }
  assert (Hids : forall m, In m (ids x) -> m <> n -> cache s3 m <> None).
  { intros m [->|Hm] Nm; [contradiction|]. now apply P5. }
  assert (HZ : training s3 = true -> forall k' v, At x k' (EVar v) -> gzero s3 v /\ (k' <> None -> synced (vobjs s3 k') = false)).
  { apply (quiet_op s3 x n k H eq_refl). intros b z Hz.
    destruct (At_trans _ _ _ H _ _ Hz) as (k' & Hz0 & K'). rewrite (K' ltac:(discriminate)) in Hz0.
    destruct b.
    - exfalso. inversion Hz0 as [| | |k1 ? o1 l1 r1 Hb]; subst.
      pose proof (Hcons _ _ _ _ n H Hb eq_refl eq_refl). discriminate.
    - rewrite (At_fun e0 Hcons _ _ _ Hz0 Hy). exact P7. }
  destruct (operand_good zero one add mul e0 q Hcons Hsz Hdis s3 who2 (Some (n, false)) y I3 Hy Vy) as (i' & G1 & G2 & G3 & G4).
  { intros m b [= <- <-]. exact C2. }
  { exact P5. }
  assert (i' = i) as -> by (change (loc s3 y) with (loc s2 y) in G1; congruence).
  assert (Hobj : forall k', k' <> k -> (forall m b, k' = Some (m, b) -> ~ In m (ids x)) -> objs s3 k' = objs s k').
  { intros k' Nk Hk'. cbn [s3 set_objs objs]. rewrite supd_other by assumption. rewrite P6.
    - cbn [s1 set_objs objs]. now rewrite supd_other.
    - intros ->. apply (Hk' n false eq_refl). now left.
    - intros m b -> Hm. apply (Hk' m b eq_refl). now right. }
  assert (Hnew : forall m, cache s3 m <> None -> cache s m <> None \/ In m (ids x)).
  { intros m Hm. destruct (P4 m Hm) as [?|?]; [now left|right; now right]. }
  destruct o as [b f m g|f].
  - cbn [un_forward]. assert (Ef : f (val_of (hp s3) i) = Some w) by (cbn in Ew; rewrite G2 in Ew; exact Ew).
    destruct (store_ok s3 who2 k x n w b I3 H eq_refl C2 Hids eq_refl Ew Hin HZ) as (t & h' & own' & who' & E1 & E2 & E3).
    assert (Ea : (do h <- get hp; do v <- the (f (val_of h i)); if b then into_own n v else new_tensor v) s3 = Ok (t, set_own (set_hp s3 h') own')).
    { rewrite (gbind_ok (get hp) _ s3 (hp s3) s3 eq_refl), Ef. exact E1. }
    rewrite (gbind_ok _ _ _ _ _ Ea), (conclude_ok k n).
    eexists t, _, who'. split; [reflexivity|]. apply (node_post k n x s _ s3 who who2 who' t h' own'); auto.
  - cbn [un_forward].
    cbn in Ew. rewrite G2 in Ew. cbn [obind2] in Ew. unfold val_of at 1 in Ew. cbn [fst] in Ew.
    destruct (f (shape i)) as [sh|] eqn:Ef; [|discriminate].
    set (t := mkT sh (ref i)).
    assert (Ea : (do s0 <- the (f (shape i)); gret (mkT s0 (ref i))) s3 = Ok (t, set_own (set_hp s3 (hp s3)) (own s3))).
    { rewrite Ef. reflexivity. }
    rewrite Ef in Ea. rewrite (gbind_ok _ _ _ _ _ Ea), (conclude_ok k n).
    destruct (i_sep _ _ _ _ _ _ _ _ I3) as (_ & _ & _ & S4 & _).
    destruct (inv_finish zero one add mul e0 q Hcons Hsz s3 who2 k x n t (hp s3) (own s3) who2) as [E2 E3]; auto.
    { cbn. rewrite G2. cbn. now rewrite Ef. }
    eexists t, _, who2. split; [reflexivity|]. apply (node_post k n x s _ s3 who who2 who2 t (hp s3) (own s3)); auto.
Qed.


Lemma ext_alloc s who d o : ext s (set_hp s (hp s ++ [d])) who (who_new who (length (hp s)) o).
Proof.
  constructor; cbn [set_hp hp vars holders training ownb cache ran vobjs]; auto.
  - rewrite app_length. lia.
  - intros r Hr. now apply who_new_old.
  - intros r Hr _ _. now apply nth_error_app1.
  - intros r v Hr _. left. now apply nth_error_app1.
  - exists []. split; [reflexivity|]. split; [constructor|]. intros n. cbn. split; [contradiction|]. intros [-> H]. now apply H.
Qed.

Lemma inv_alloc s who d o : inv s who -> inv (set_hp s (hp s ++ [d])) (who_new who (length (hp s)) o).
Proof.
  intros I. apply (inv_heap _ _ _ _ _ _ Hsz s _ who _ I (ext_alloc s who d o)); auto.
  intros r Hr _. now apply nth_error_app1.
Qed.

(** operation.hpp:174-191, the operands of a binary operator *)
Definition operand_code (k : slot) (n : nat) (l r : expr A) : G (tensor * tensor) :=
  match l, r with
  | EVal c, _ =>
      do rt <- forward (Some (n, true)) r;
      do _ <- put_in2 k (Some rt);
      do lt <- value_forward one mul c rt;
      do _ <- put_in1 k (Some lt);
      gret (lt, rt)
  | _, EVal c =>
      do lt <- forward (Some (n, false)) l;
      do _ <- put_in1 k (Some lt);
      do rt <- value_forward one mul c lt;
      do _ <- put_in2 k (Some rt);
      gret (lt, rt)
  | _, _ =>
      do lt <- forward (Some (n, false)) l;
      do _ <- put_in1 k (Some lt);
      do rt <- forward (Some (n, true)) r;
      do _ <- put_in2 k (Some rt);
      gret (lt, rt)
  end.

Lemma operand_code_plain k n l r : is_value l = false -> is_value r = false -> operand_code k n l r =
  (do lt <- forward (Some (n, false)) l;
   do _ <- put_in1 k (Some lt);
   do rt <- forward (Some (n, true)) r;
   do _ <- put_in2 k (Some rt);
   gret (lt, rt)).
Proof. destruct l, r; try discriminate; reflexivity. Qed.

Lemma operand_code_right k n l c : is_value l = false -> operand_code k n l (EVal c) =
  (do lt <- forward (Some (n, false)) l;
   do _ <- put_in1 k (Some lt);
   do rt <- value_forward one mul c lt;
   do _ <- put_in2 k (Some rt);
   gret (lt, rt)).
Proof. destruct l; try discriminate; reflexivity. Qed.

Lemma inputs_plain s who k n o l r : is_value l = false -> is_value r = false ->
  in1 (objs s k) = loc s l -> in2 (objs s k) = loc s r -> inputs s who k (EBin n o l r).
Proof. intros L R H1 H2. destruct l, r; try discriminate; split; assumption. Qed.

Lemma inputs_right s who k n o l c v : is_value l = false -> in1 (objs s k) = loc s l -> eval l = Some v ->
  temp one mul s who (is_plus o) c v (in2 (objs s k)) -> inputs s who k (EBin n o l (EVal c)).
Proof. intros L H1 H2 H3. destruct l; try discriminate; (split; [assumption|]; exists v; split; assumption). Qed.

Lemma operands_plain l r a b : is_value l = false -> is_value r = false -> eval l = Some a -> eval r = Some b ->
  operands l r = Some (a, b).
Proof. intros L R H1 H2. unfold GraphSpec.operands. destruct l, r; try discriminate; now rewrite H1, H2. Qed.

Lemma operands_right l c a : is_value l = false -> eval l = Some a -> operands l (EVal c) = Some (a, const_like c a).
Proof. intros L H1. unfold GraphSpec.operands. destruct l; try discriminate; now rewrite H1. Qed.

Lemma eval_bin n o l r : eval (EBin n o l r) = obind2 (operands l r) (fun p => match o with
  | BPlus => plus_val zero add (fst p) (snd p) | BNew _ f _ _ => f (fst p) (snd p) end).
Proof. reflexivity. Qed.

Record operands_post (k : slot) (n : nat) (o : bop A) (l r : expr A) (s s3 : st A) (who who3 : nat -> owner) (lt rt : tensor) : Prop := {
  o_inv : inv s3 who3;
  o_ext : ext s s3 who who3;
  o_none : cache s3 n = None;
  o_new : forall m, cache s3 m <> None -> cache s m <> None \/ In m (ids l ++ ids r);
  o_all : forall m, In m (ids l ++ ids r) -> cache s3 m <> None;
  o_objs : forall k', k' <> k -> (forall m b, k' = Some (m, b) -> ~ In m (n :: ids l ++ ids r)) -> objs s3 k' = objs s k';
  o_ql : quiet s3 l (Some (n, false));
  o_qr : quiet s3 r (Some (n, true));
  o_in : inputs s3 who3 k (EBin n o l r);
  o_val : operands l r = Some (val_of (hp s3) lt, val_of (hp s3) rt);
  o_llive : ref lt < length (hp s3);
  o_rlive : ref rt < length (hp s3);
  o_who : who3 (ref lt) = if is_value l then (if is_plus o then OOp n else OTmp) else owner_of l
}.

Lemma quiet_value s c k : quiet s (EVal c) k.
Proof. apply quiet_leaf; [reflexivity|discriminate]. Qed.

Lemma operands_ok k n o l r s who :
  (forall k s who, At e0 k l -> is_value l = false -> inv s who -> (forall m b, k = Some (m, b) -> cache s m = None) ->
     exists t s' who', forward k l s = Ok (t, s') /\ post k l s s' who who' t) ->
  (forall k s who, At e0 k r -> is_value r = false -> inv s who -> (forall m b, k = Some (m, b) -> cache s m = None) ->
     exists t s' who', forward k r s = Ok (t, s') /\ post k r s s' who who' t) ->
  At e0 k (EBin n o l r) -> inv s who -> cache s n = None ->
  exists lt rt s3 who3, operand_code k n l r s = Ok ((lt, rt), s3) /\ operands_post k n o l r s s3 who who3 lt rt.
Proof.
  intros IHl IHr H I C. set (x := EBin n o l r) in *.
  pose proof (At_left _ k n o l r H) as Hl. pose proof (At_right _ k n o l r H) as Hr.
  assert (Nl : ~ In n (ids l)) by exact (no_cycle e0 Hcons _ _ _ Hl).
  assert (Nr : ~ In n (ids r)) by exact (no_cycle e0 Hcons _ _ _ Hr).
  assert (Kx : forall m b, k = Some (m, b) -> ~ In m (n :: ids l ++ ids r)).
  { intros m b ->. exact (no_cycle e0 Hcons _ _ _ H). }
  assert (Hn : forall s' : st A, cache s' n = None -> forall (b b' : bool) m, Some (n, b) = Some (m, b') -> cache s' m = None) by congruence.
  destruct (evalx k x H eq_refl) as (w & Ew). unfold x in Ew. rewrite eval_bin in Ew.
  destruct (is_value l) eqn:Vl; [|destruct (is_value r) eqn:Vr].
  - (* the left operand is a value *)
    destruct l as [| | |c| |]; try discriminate.
    assert (Vr : is_value r = false) by (destruct r; auto; discriminate).
    cbn [operand_code]. destruct (IHr (Some (n, true)) s who Hr Vr I (fun m b => Hn s C true b m)) as (rt & s1 & who1 & F & P).
    destruct P as [P1 P2 P3 P4 P5 P6 P7].
    rewrite (gbind_ok _ _ _ _ _ F).
    assert (C1 : cache s1 n = None).
    { destruct (cache s1 n) eqn:E; [|reflexivity]. exfalso. destruct (P4 n ltac:(congruence)); [congruence|contradiction]. }
    set (s2 := set_objs s1 (supd (objs s1) k (Obj (in1 (objs s1 k)) (Some rt) (out (objs s1 k))))).
    rewrite (gbind_ok (put_in2 k (Some rt)) _ s1 tt s2 eq_refl).
    assert (I2 : inv s2 who1) by (apply (inv_objs zero one add mul e0 q Hcons s1 who1 k x n); auto).
    set (d := repeat (mul one c) (prod (shape rt))). set (lt := mkT (shape rt) (length (hp s2))).
    set (ow := if is_plus o then OOp n else OTmp).
    set (who3 := who_new who1 (length (hp s2)) ow).
    set (s2' := set_hp s2 (hp s2 ++ [d])).
    rewrite (gbind_ok (value_forward one mul c rt) _ s2 lt s2' eq_refl).
    assert (I2' : inv s2' who3) by now apply inv_alloc.
    set (s3 := set_objs s2' (supd (objs s2') k (Obj (Some lt) (in2 (objs s2' k)) (out (objs s2' k))))).
    rewrite (gbind_ok (put_in1 k (Some lt)) _ s2' tt s3 eq_refl).
    assert (I3 : inv s3 who3) by (apply (inv_objs zero one add mul e0 q Hcons s2' who3 k x n); auto).
    assert (X13 : ext s1 s3 who1 who3).
    { eapply ext_trans; [apply ext_objs|]. eapply ext_trans; [apply (ext_alloc s2)|]. apply ext_objs. }
    exists lt, rt, s3, who3. split; [reflexivity|].
    destruct (operand_good zero one add mul e0 q Hcons Hsz Hdis s3 who3 (Some (n, true)) r I3 Hr Vr (fun m b => Hn s3 C1 true b m) P5)
      as (rt' & G1 & G2 & G3 & G4).
    assert (rt' = rt) as -> by (change (loc s3 r) with (loc s1 r) in G1; congruence).
    assert (Lv : val_of (hp s3) lt = const_like c (val_of (hp s3) rt)).
    { unfold val_of, GraphSpec.const_like. cbn [lt shape ref s3 s2' set_objs set_hp hp fst]. now rewrite nth_middle. }
    assert (Ll : ref lt < length (hp s3)) by (cbn [lt ref s3 s2' set_objs set_hp hp]; rewrite app_length; cbn; lia).
    assert (Wl : who3 (ref lt) = ow) by (apply who_new_new; reflexivity).
    constructor; auto.
    + exact (ext_trans _ _ _ _ _ _ _ P2 X13).
    + intros k' Nk Hk'. cbn [s3 s2' set_objs set_hp objs s2]. rewrite !supd_other by assumption. apply P6.
      * intros ->. apply (Hk' n true eq_refl). now left.
      * intros m b -> Hm. apply (Hk' m b eq_refl). now right.
    + apply quiet_value.
    + exact (quiet_ext s1 s3 who1 who3 (Some (n, true)) r (Some (n, true)) P1 X13 Hr P7).
    + cbn [x GraphProofs2.inputs]. cbn [s3 set_objs objs s2' set_hp s2]. rewrite !supd_same. cbn [in1 in2].
      split; [symmetry; exact G1|]. exists (val_of (hp s3) rt). split; [exact G2|]. exists lt. split; [reflexivity|]. split; [reflexivity|].
      intros Hp. split; [exact Lv|]. split; [|exact Ll]. change (who3 (ref lt) = OTmp). rewrite Wl. unfold ow. now rewrite Hp.
    + cbn [GraphSpec.operands]. rewrite G2. cbn [obind2]. now rewrite Lv.
  - (* the right operand is a value *)
    destruct r as [| | |c| |]; try discriminate.
    rewrite (operand_code_right k n l c Vl).
    destruct (IHl (Some (n, false)) s who Hl eq_refl I (fun m b => Hn s C false b m)) as (lt & s1 & who1 & F & P).
    destruct P as [P1 P2 P3 P4 P5 P6 P7].
    rewrite (gbind_ok _ _ _ _ _ F).
    assert (C1 : cache s1 n = None).
    { destruct (cache s1 n) eqn:E; [|reflexivity]. exfalso. destruct (P4 n ltac:(congruence)); [congruence|contradiction]. }
    set (s2 := set_objs s1 (supd (objs s1) k (Obj (Some lt) (in2 (objs s1 k)) (out (objs s1 k))))).
    rewrite (gbind_ok (put_in1 k (Some lt)) _ s1 tt s2 eq_refl).
    assert (I2 : inv s2 who1) by (apply (inv_objs zero one add mul e0 q Hcons s1 who1 k x n); auto).
    set (d := repeat (mul one c) (prod (shape lt))). set (rt := mkT (shape lt) (length (hp s2))).
    set (who3 := who_new who1 (length (hp s2)) OTmp).
    set (s2' := set_hp s2 (hp s2 ++ [d])).
    rewrite (gbind_ok (value_forward one mul c lt) _ s2 rt s2' eq_refl).
    assert (I2' : inv s2' who3) by now apply inv_alloc.
    set (s3 := set_objs s2' (supd (objs s2') k (Obj (in1 (objs s2' k)) (Some rt) (out (objs s2' k))))).
    rewrite (gbind_ok (put_in2 k (Some rt)) _ s2' tt s3 eq_refl).
    assert (I3 : inv s3 who3) by (apply (inv_objs zero one add mul e0 q Hcons s2' who3 k x n); auto).
    assert (X13 : ext s1 s3 who1 who3).
    { eapply ext_trans; [apply ext_objs|]. eapply ext_trans; [apply (ext_alloc s2)|]. apply ext_objs. }
    exists lt, rt, s3, who3. split; [reflexivity|].
    destruct (operand_good zero one add mul e0 q Hcons Hsz Hdis s3 who3 (Some (n, false)) l I3 Hl Vl (fun m b => Hn s3 C1 false b m) P5)
      as (lt' & G1 & G2 & G3 & G4).
    assert (lt' = lt) as -> by (change (loc s3 l) with (loc s1 l) in G1; congruence).
    assert (Rv : val_of (hp s3) rt = const_like c (val_of (hp s3) lt)).
    { unfold val_of, GraphSpec.const_like. cbn [rt shape ref s3 s2' set_objs set_hp hp fst]. now rewrite nth_middle. }
    assert (Lr : ref rt < length (hp s3)) by (cbn [rt ref s3 s2' set_objs set_hp hp]; rewrite app_length; cbn; lia).
    assert (Wr : who3 (ref rt) = OTmp) by (apply who_new_new; reflexivity).
    constructor; auto.
    + exact (ext_trans _ _ _ _ _ _ _ P2 X13).
    + intros m Hm. destruct (P4 m Hm) as [?|?]; [now left|right]. rewrite app_nil_r. assumption.
    + intros m Hm. cbn [ids] in Hm. rewrite app_nil_r in Hm. now apply P5.
    + intros k' Nk Hk'. cbn [s3 s2' set_objs set_hp objs s2]. rewrite !supd_other by assumption. apply P6.
      * intros ->. apply (Hk' n false eq_refl). now left.
      * intros m b -> Hm. apply (Hk' m b eq_refl). right. rewrite app_nil_r. assumption.
    + exact (quiet_ext s1 s3 who1 who3 (Some (n, false)) l (Some (n, false)) P1 X13 Hl P7).
    + apply quiet_value.
    + apply (inputs_right _ _ _ _ _ _ _ (val_of (hp s3) lt)); auto.
      * cbn [s3 set_objs objs s2' set_hp s2]. rewrite !supd_same. cbn [in1]. symmetry. exact G1.
      * cbn [s3 set_objs objs s2' set_hp s2]. rewrite !supd_same. cbn [in2]. exists rt. split; [reflexivity|]. split; [reflexivity|].
        intros _. split; [exact Rv|]. split; [exact Wr|exact Lr].
    + rewrite (operands_right l c _ Vl G2). now rewrite Rv.
    + rewrite Vl. exact G3.
  - (* two sub-expressions *)
    rewrite (operand_code_plain k n l r Vl Vr).
    destruct (IHl (Some (n, false)) s who Hl eq_refl I (fun m b => Hn s C false b m)) as (lt & s1 & who1 & F & P).
    destruct P as [P1 P2 P3 P4 P5 P6 P7].
    rewrite (gbind_ok _ _ _ _ _ F).
    assert (C1 : cache s1 n = None).
    { destruct (cache s1 n) eqn:E; [|reflexivity]. exfalso. destruct (P4 n ltac:(congruence)); [congruence|contradiction]. }
    set (s2 := set_objs s1 (supd (objs s1) k (Obj (Some lt) (in2 (objs s1 k)) (out (objs s1 k))))).
    rewrite (gbind_ok (put_in1 k (Some lt)) _ s1 tt s2 eq_refl).
    assert (I2 : inv s2 who1) by (apply (inv_objs zero one add mul e0 q Hcons s1 who1 k x n); auto).
    destruct (IHr (Some (n, true)) s2 who1 Hr eq_refl I2 (fun m b => Hn s2 C1 true b m)) as (rt & s2' & who3 & F' & P').
    destruct P' as [P1' P2' P3' P4' P5' P6' P7'].
    rewrite (gbind_ok _ _ _ _ _ F').
    assert (C2 : cache s2' n = None).
    { destruct (cache s2' n) eqn:E; [|reflexivity]. exfalso. destruct (P4' n ltac:(congruence)) as [Q|Q]; [apply Q; exact C1|contradiction]. }
    set (s3 := set_objs s2' (supd (objs s2') k (Obj (in1 (objs s2' k)) (Some rt) (out (objs s2' k))))).
    rewrite (gbind_ok (put_in2 k (Some rt)) _ s2' tt s3 eq_refl).
    assert (I3 : inv s3 who3) by (apply (inv_objs zero one add mul e0 q Hcons s2' who3 k x n); auto).
    assert (X13 : ext s1 s3 who1 who3).
    { eapply ext_trans; [apply ext_objs|]. eapply ext_trans; [exact P2'|]. apply ext_objs. }
    assert (X23 : ext s2' s3 who3 who3) by apply ext_objs.
    assert (All : forall m, In m (ids l) -> cache s3 m <> None).
    { intros m Hm. destruct (cache s1 m) as [u|] eqn:E; [|exfalso; now apply (P5 m)]. rewrite (x_cache _ _ _ _ _ X13 m u E). discriminate. }
    exists lt, rt, s3, who3. split; [reflexivity|].
    destruct (operand_good zero one add mul e0 q Hcons Hsz Hdis s3 who3 (Some (n, false)) l I3 Hl Vl (fun m b => Hn s3 C2 false b m) All)
      as (lt' & G1 & G2 & G3 & G4).
    assert (El : loc s3 l = loc s1 l).
    { apply loc_mono; auto; [apply (x_vars _ _ _ _ _ X13)|apply (x_hold _ _ _ _ _ X13)|apply (x_cache _ _ _ _ _ X13)]. }
    assert (lt' = lt) as -> by congruence.
    destruct (operand_good zero one add mul e0 q Hcons Hsz Hdis s3 who3 (Some (n, true)) r I3 Hr Vr (fun m b => Hn s3 C2 true b m) P5')
      as (rt' & G1' & G2' & G3' & G4').
    assert (rt' = rt) as -> by (change (loc s3 r) with (loc s2' r) in G1'; congruence).
    assert (Ek : objs s2' k = objs s2 k).
    { apply P6'.
      - intros E. apply (Kx n true E). now left.
      - intros m b E Hm. apply (Kx m b E). right. apply in_app_iff. now right. }
    constructor; auto.
    + exact (ext_trans _ _ _ _ _ _ _ P2 X13).
    + intros m Hm. rewrite in_app_iff. destruct (P4' m Hm) as [Hm'|?]; [|tauto]. destruct (P4 m Hm'); tauto.
    + intros m Hm. apply in_app_iff in Hm. destruct Hm; [now apply All|now apply P5'].
    + intros k' Nk Hk'. cbn [s3 set_objs objs]. rewrite supd_other by assumption. rewrite P6'.
      * cbn [s2 set_objs objs]. rewrite supd_other by assumption. apply P6.
        -- intros ->. apply (Hk' n false eq_refl). now left.
        -- intros m b -> Hm. apply (Hk' m b eq_refl). right. apply in_app_iff. now left.
      * intros ->. apply (Hk' n true eq_refl). now left.
      * intros m b -> Hm. apply (Hk' m b eq_refl). right. apply in_app_iff. now right.
    + exact (quiet_ext s1 s3 who1 who3 (Some (n, false)) l (Some (n, false)) P1 X13 Hl P7).
    + apply inputs_plain; auto; cbn [s3 set_objs objs]; rewrite supd_same; cbn [in1 in2].
      * rewrite Ek. cbn [s2 set_objs objs]. rewrite supd_same. cbn [in1]. congruence.
      * congruence.
    + now apply operands_plain.
    + rewrite Vl. exact G3.
Qed.

(** the storage written by an in-place sum belongs to an operator *)
Lemma owner_op l : is_value l = false -> (exists k, At e0 k l) -> (forall z, In z (path l) -> is_leaf z = false) ->
  exists m, owner_of l = OOp m.
Proof.
  induction l as [v|p|t|c|n o y IH|n o l IHl r IHr]; intros V [k H] Hp; try discriminate.
  - specialize (Hp _ (or_introl eq_refl)). discriminate.
  - specialize (Hp _ (or_introl eq_refl)). discriminate.
  - specialize (Hp _ (or_introl eq_refl)). discriminate.
  - destruct o as [|f]; [now exists n|]. cbn [GraphProofs.owner_of]. apply IH.
    + destruct (evalx k _ H eq_refl) as (w & Ew). cbn in Ew. destruct y; auto; discriminate.
    + exists (Some (n, false)). now apply (At_un _ k n (UView f)).
    + intros z Hz. apply Hp. now right.
  - destruct o as [|own f bown b]; [|now exists n]. cbn [GraphProofs.owner_of]. destruct (negb (is_value l) && inplace l r) eqn:B; [|now exists n].
    apply andb_prop in B. destruct B as [B1 B2]. apply IHl.
    + now destruct (is_value l).
    + exists (Some (n, false)). now apply (At_left _ k n BPlus l r).
    + intros z Hz. apply Hp. rewrite path_bin, B2. rewrite B1. now right.
Qed.

Lemma same_length (h h' : list (list A)) i d : nth_error h' i = Some d ->
  (forall s, s < length h -> s <> i -> nth_error h' s = nth_error h s) -> length h <= length h'.
Proof.
  intros Hi Hf. destruct (length h) as [|m] eqn:E; [lia|]. assert (m < length h'); [|lia].
  apply nth_error_Some. destruct (Nat.eq_dec m i) as [->|N]; [congruence|].
  rewrite Hf by lia. apply nth_error_Some. lia.
Qed.

Lemma plus_ok k n l r s who lt rt s0 who0 : At e0 k (EBin n BPlus l r) ->
  operands_post k n BPlus l r s0 s who0 who lt rt ->
  (training s = true -> forall k' v, At (EBin n BPlus l r) k' (EVar v) -> gzero s v /\ (k' <> None -> synced (vobjs s k') = false)) ->
  exists t h' who', zip_broadcast zero dbg add lt rt (hp s) = Ok (t, h') /\
    inv (finish s k n t h' (own s)) who' /\ ext s (finish s k n t h' (own s)) who who'.
Proof.
  intros H [O1 O2 O3 O4 O5 O6 O7 O8 O9 O10 O11 O12 O13] HZ. set (x := EBin n BPlus l r) in *.
  destruct (Hsz k x H ltac:(discriminate)) as (w & Ew & Lw & _). pose proof Ew as Ew'. unfold x in Ew'. rewrite eval_bin, O10 in Ew'.
  cbn [obind2 fst snd] in Ew'. unfold plus_val in Ew'. unfold val_of in Ew' at 1 2. cbn [fst] in Ew'.
  destruct (broadcast_shape true (shape lt) (shape rt)) as [rs| |] eqn:B; try discriminate.
  apply broadcast_shape_iff in B.
  pose proof (At_left _ k n BPlus l r H) as Hl. pose proof (At_right _ k n BPlus l r H) as Hr.
  assert (Hlen : length (nth (ref lt) (hp s) []) = prod (shape lt) /\ length (nth (ref rt) (hp s) []) = prod (shape rt)).
  { pose proof O10 as Oo. unfold GraphSpec.operands in Oo.
    assert (forall v, eval l = Some v -> length (snd v) = prod (fst v)) as Sl.
    { intros v Ev. assert (is_value l = false) by (destruct l; auto; discriminate).
      destruct (Hsz _ l Hl ltac:(intros c ->; discriminate)) as (v' & Ev' & ? & _). rewrite Ev in Ev'. injection Ev' as <-. assumption. }
    assert (forall v, eval r = Some v -> length (snd v) = prod (fst v)) as Sr.
    { intros v Ev. assert (is_value r = false) by (destruct r; auto; discriminate).
      destruct (Hsz _ r Hr ltac:(intros c ->; discriminate)) as (v' & Ev' & ? & _). rewrite Ev in Ev'. injection Ev' as <-. assumption. }
    assert (Sc : forall c v, length (snd (const_like c v)) = prod (fst (const_like c v))).
    { intros c v. cbn. apply repeat_length. }
    change (length (snd (val_of (hp s) lt)) = prod (fst (val_of (hp s) lt)) /\ length (snd (val_of (hp s) rt)) = prod (fst (val_of (hp s) rt))).
    destruct (is_value l) eqn:Vl; [|destruct (is_value r) eqn:Vr].
    - destruct l as [| | |c| |]; try discriminate. destruct (eval r) as [v|] eqn:Er; [|discriminate]. cbn [obind2] in Oo.
      assert (E1 : const_like c v = val_of (hp s) lt) by congruence. assert (E2 : v = val_of (hp s) rt) by congruence. rewrite <- E1, <- E2. auto.
    - destruct r as [| | |c| |]; try discriminate. destruct (eval l) as [v|] eqn:El; [|destruct l; discriminate].
      rewrite (operands_right l c v Vl El) in O10.
      assert (E1 : v = val_of (hp s) lt) by congruence. assert (E2 : const_like c v = val_of (hp s) rt) by congruence. rewrite <- E1, <- E2. auto.
    - destruct (eval l) as [v|] eqn:El; [|destruct l, r; discriminate]. destruct (eval r) as [v'|] eqn:Er; [|destruct l, r; discriminate].
      rewrite (operands_plain l r v v' Vl Vr El Er) in O10.
      assert (E1 : v = val_of (hp s) lt) by congruence. assert (E2 : v' = val_of (hp s) rt) by congruence. rewrite <- E1, <- E2. auto. }
  destruct Hlen as [Ll Lr].
  destruct (nth_error (hp s) (ref lt)) as [dl|] eqn:Edl; [|apply nth_error_None in Edl; lia].
  destruct (nth_error (hp s) (ref rt)) as [dr|] eqn:Edr; [|apply nth_error_None in Edr; lia].
  rewrite (repeat_len_nth _ _ _ Edl) in Ll. rewrite (repeat_len_nth _ _ _ Edr) in Lr.
  destruct (zip_broadcast_full zero dbg add lt rt rs (hp s) dl dr Edl Ll Edr Lr B) as (t & h' & res & Z1 & Z2 & Z3 & Z4 & Z5 & Z6 & Z7 & Z8).
  assert (HL : length (hp s) <= length h') by (eapply same_length; eauto).
  assert (Lt : ref t < length h') by (apply nth_error_Some; congruence).
  assert (Ev : eval x = Some (val_of h' t)).
  { rewrite Ew, <- Ew'. unfold val_of. cbn [fst snd]. rewrite (repeat_len_nth _ _ _ Edl), (repeat_len_nth _ _ _ Edr), (repeat_len_nth _ _ _ Z3), Z2.
    f_equal. f_equal. apply list_eq_nth; [now rewrite tab_length|]. intros p. destruct (lt_dec p (prod rs)) as [Hp|Np].
    - rewrite nth_error_tab by assumption. destruct (Z5 (unoffset rs p) (unoffset_valid rs p Hp)) as (a & b & Y1 & Y2 & Y3).
      rewrite offset_unoffset in Y3 by assumption. rewrite Y3. cbv zeta. rewrite (nth_error_nth _ _ zero Y1), (nth_error_nth _ _ zero Y2). reflexivity.
    - rewrite !(proj2 (nth_error_None _ _)); [reflexivity| |]; rewrite ?tab_length; lia. }
  assert (Hip : inplace l r = list_eqb (padded (length rs) (shape lt)) rs).
  { unfold GraphSpec.inplace. rewrite O10. unfold plus_val. unfold val_of. cbn [fst snd].
    rewrite (proj2 (broadcast_shape_iff _ _ _) B). reflexivity. }
  assert (Hids : forall m, In m (ids x) -> m <> n -> cache s m <> None).
  { intros m [->|Hm] Nm; [contradiction|]. now apply O5. }
  destruct (i_sep _ _ _ _ _ _ _ _ O1) as (_ & _ & _ & S4 & _).
  exists t, h'. destruct (list_eqb_spec (padded (length rs) (shape lt)) rs) as [Ep|Np].
  - (* in place *)
    specialize (Z6 Ep). exists who. split; [exact Z1|]. destruct (is_value l) eqn:Vl.
    + apply (inv_finish zero one add mul e0 q Hcons Hsz) with (x := x); auto.
      * intros i Hi Hw. apply Z8; [assumption|]. intros ->. rewrite Z6 in Hw. now apply (Hw n).
      * intros m tm y Cm _ _. left. destruct (i_cache _ _ _ _ _ _ _ _ O1 m tm Cm) as (k' & y' & R).
        apply Z8; [apply (c_live _ _ _ _ _ _ _ _ _ _ _ _ R)|]. intros E.
        apply (unused_storage zero one add mul e0 q s who n m tm O1 O3 Cm). rewrite E, Z6. exact O13.
      * intros m u Eu. destruct (S4 m u Eu). split; [assumption|lia].
      * rewrite Z6, O13. cbn [is_plus x GraphProofs.owner_of]. now rewrite Vl.
    + destruct (owner_op l Vl (ex_intro _ _ Hl)) as (m0 & Em0).
      { intros z Hz. now destruct (Hdis k n l r H Hip z Hz). }
      apply (inv_finish zero one add mul e0 q Hcons Hsz) with (x := x); auto.
      * intros i Hi Hw. apply Z8; [assumption|]. intros ->. rewrite Z6 in Hw. apply (Hw m0). congruence.
      * intros m tm y Cm Ey [ky Hy]. destruct (cached_at zero one add mul e0 q Hcons s who ky y m tm O1 Hy Ey Cm) as (k' & R).
        destruct (Nat.eq_dec (ref tm) (ref t)) as [E|N]; [|left; apply Z8; [apply (c_live _ _ _ _ _ _ _ _ _ _ _ _ R)|assumption]].
        right. assert (Eo : owner_of y = OOp m0).
        { rewrite <- (c_who _ _ _ _ _ _ _ _ _ _ _ _ R), E, Z6. congruence. }
        destruct (owner_path zero one add mul q _ _ Eo) as (z1 & Hz1 & Iz1 & _).
        destruct (owner_path zero one add mul q _ _ Em0) as (z2 & Hz2 & Iz2 & _).
        destruct (path_At zero one add mul q _ _ Hz1) as (kz1 & Az1). destruct (At_trans _ _ _ Hy _ _ Az1) as (? & Bz1 & _).
        destruct (path_At zero one add mul q _ _ Hz2) as (kz2 & Az2). destruct (At_trans _ _ _ Hl _ _ Az2) as (? & Bz2 & _).
        assert (z1 = z2) as -> by (eapply Hcons; [exact Bz1|exact Bz2|exact Iz1|exact Iz2]).
        destruct (same_storage zero one add mul q e0 Hcons Hdis k n l r H Hip Vl y z2 (ex_intro _ _ Hy) Hz1 Hz2 ltac:(congruence)) as [Hin|Hin].
        -- exists n, l, r. auto.
        -- exfalso. apply (c_sub _ _ _ _ _ _ _ _ _ _ _ _ R n); [|exact O3]. apply (path_ids zero one add mul q _ _ _ Hin eq_refl).
      * intros m u Eu. destruct (S4 m u Eu). split; [assumption|lia].
      * rewrite Z6, O13. cbn [x GraphProofs.owner_of]. now rewrite Vl, Hip.
  - (* in a new tensor *)
    specialize (Z7 Np). exists (who_new who (length (hp s)) (OOp n)). split; [exact Z1|].
    apply (inv_finish zero one add mul e0 q Hcons Hsz) with (x := x); auto.
    + intros i Hi. now apply who_new_old.
    + intros i Hi _. apply Z8; [assumption|lia].
    + intros m tm y Cm _ _. left. destruct (i_cache _ _ _ _ _ _ _ _ O1 m tm Cm) as (k' & y' & R).
      pose proof (c_live _ _ _ _ _ _ _ _ _ _ _ _ R). apply Z8; lia.
    + intros m u Eu. destruct (S4 m u Eu). rewrite who_new_old by assumption. split; [assumption|lia].
    + rewrite who_new_new by assumption. cbn [x GraphProofs.owner_of]. now rewrite Hip, andb_false_r.
Qed.

Lemma bin_ok k n o l r s who :
  (forall k s who, At e0 k l -> is_value l = false -> inv s who -> (forall m b, k = Some (m, b) -> cache s m = None) ->
     exists t s' who', forward k l s = Ok (t, s') /\ post k l s s' who who' t) ->
  (forall k s who, At e0 k r -> is_value r = false -> inv s who -> (forall m b, k = Some (m, b) -> cache s m = None) ->
     exists t s' who', forward k r s = Ok (t, s') /\ post k r s s' who who' t) ->
  At e0 k (EBin n o l r) -> inv s who -> (forall m b, k = Some (m, b) -> cache s m = None) ->
  exists t s' who', forward k (EBin n o l r) s = Ok (t, s') /\ post k (EBin n o l r) s s' who who' t.
Proof.
  intros IHl IHr H I Hk. set (x := EBin n o l r) in *. cbn [x GraphModel.forward]. fold (operand_code k n l r).
  destruct (cache s n) as [t|] eqn:C.
  { destruct (hit_ok k x n t s who H eq_refl I Hk C) as [Hq P]. rewrite (gbind_ok _ _ _ _ _ Hq).
    eexists t, _, who. split; [reflexivity|exact P]. }
  rewrite (gbind_ok _ _ _ _ _ (miss_query n s C)).
  set (s1 := set_objs s (supd (objs s) k (Obj (in1 (objs s k)) (in2 (objs s k)) None))).
  rewrite (gbind_ok (put_out k None) _ s tt s1 eq_refl).
  assert (I1 : inv s1 who) by (apply (inv_objs zero one add mul e0 q Hcons s who k x n); auto).
  destruct (operands_ok k n o l r s1 who IHl IHr H I1 C) as (lt & rt & s3 & who3 & F & P).
  rewrite (gbind_ok _ _ _ _ _ F). cbn [fst snd].
  pose proof P as [O1 O2 O3 O4 O5 O6 O7 O8 O9 O10 O11 O12 O13].
  assert (X3 : ext s s3 who who3) by (eapply ext_trans; [apply ext_objs|exact O2]).
  assert (Hids : forall m, In m (ids x) -> m <> n -> cache s3 m <> None).
  { intros m [->|Hm] Nm; [contradiction|]. now apply O5. }
  assert (HZ : training s3 = true -> forall k' v, At x k' (EVar v) -> gzero s3 v /\ (k' <> None -> synced (vobjs s3 k') = false)).
  { apply (quiet_op s3 x n k H eq_refl). intros b z Hz.
    destruct (At_trans _ _ _ H _ _ Hz) as (k' & Hz0 & K'). rewrite (K' ltac:(discriminate)) in Hz0.
    destruct b.
    - rewrite (At_fun e0 Hcons _ _ _ Hz0 (At_right _ k n o l r H)). exact O8.
    - rewrite (At_fun e0 Hcons _ _ _ Hz0 (At_left _ k n o l r H)). exact O7. }
  assert (Hobj : forall k', k' <> k -> (forall m b, k' = Some (m, b) -> ~ In m (ids x)) -> objs s3 k' = objs s k').
  { intros k' Nk Hk'. rewrite O6 by assumption. cbn [s1 set_objs objs]. now rewrite supd_other. }
  assert (Hnew : forall m, cache s3 m <> None -> cache s m <> None \/ In m (ids x)).
  { intros m Hm. destruct (O4 m Hm) as [?|?]; [now left|right; now right]. }
  destruct o as [|b f bown g].
  - cbn [bin_forward]. destruct (plus_ok k n l r s3 who3 lt rt s1 who H P HZ) as (t & h' & who' & E1 & E2 & E3).
    assert (Ea : heaply (zip_broadcast zero dbg add lt rt) s3 = Ok (t, set_own (set_hp s3 h') (own s3))) by (unfold heaply; now rewrite E1).
    rewrite (gbind_ok _ _ _ _ _ Ea), (conclude_ok k n).
    eexists t, _, who'. split; [reflexivity|]. apply (node_post k n x s _ s3 who who3 who' t h' (own s3)); auto.
  - cbn [bin_forward]. destruct (evalx k x H eq_refl) as (w & Ew). pose proof Ew as Ew'. unfold x in Ew'. rewrite eval_bin, O10 in Ew'.
    cbn [obind2 fst snd] in Ew'.
    destruct (store_ok s3 who3 k x n w b O1 H eq_refl O3 Hids eq_refl Ew O9 HZ) as (t & h' & own' & who' & E1 & E2 & E3).
    assert (Ea : (do h <- get hp; do v <- the (f (val_of h lt) (val_of h rt)); if b then into_own n v else new_tensor v) s3
                 = Ok (t, set_own (set_hp s3 h') own')).
    { rewrite (gbind_ok (get hp) _ s3 (hp s3) s3 eq_refl), Ew'. exact E1. }
    rewrite (gbind_ok _ _ _ _ _ Ea), (conclude_ok k n).
    eexists t, _, who'. split; [reflexivity|]. apply (node_post k n x s _ s3 who who3 who' t h' own'); auto.
Qed.

Theorem forward_ok x : forall k s who, At e0 k x -> is_value x = false -> inv s who ->
  (forall m b, k = Some (m, b) -> cache s m = None) ->
  exists t s' who', forward k x s = Ok (t, s') /\ post k x s s' who who' t.
Proof.
  induction x as [v|p|t|c|n o y IH|n o l IHl r IHr]; intros k s who H V I Hk; try discriminate.
  - destruct (leaf_ok k (EVar v) s who H eq_refl I) as (t & s' & F & P). eauto.
  - destruct (leaf_ok k (EHold p) s who H eq_refl I) as (t & s' & F & P). eauto.
  - destruct (leaf_ok k (EConst t) s who H eq_refl I) as (t' & s' & F & P). eauto.
  - now apply un_ok.
  - now apply bin_ok.
Qed.

End Fwd.
