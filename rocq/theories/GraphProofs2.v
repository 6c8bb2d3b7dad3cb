(** The invariant of a forward pass and its preservation by the steps of a pass. *)
From Coq Require Import List Arith Lia Bool PeanoNat.
From Verif Require Import ListBase TensorModel TensorSpec TensorProofs TensorProofs2 GraphModel GraphSpec GraphProofs.
Import ListNotations.

Section Inv.
Context {A : Type} (zero one : A) (add mul : A -> A -> A).
Variable e0 : expr A.
Variable q : env A.
Hypothesis Hcons : consistent e0.
Hypothesis Hsz : sizes_ok zero one add mul q e0.
Hypothesis Hdis : disciplined zero one add mul q e0.

Notation inplace := (inplace zero one add mul q).
Notation path := (path zero one add mul q).
Notation eval := (eval zero one add mul q).
Notation owner_of := (owner_of zero one add mul q).
Notation const_like := (const_like one mul).

(** the tensor a sub-expression's value is in *)
Definition loc (s : st A) (x : expr A) : option tensor :=
  match x with
  | EVar v => Some (vdata (vars s v))
  | EHold p => holders s p
  | EConst t => Some t
  | EVal _ => None
  | EUn n _ _ => cache s n
  | EBin n _ _ _ => cache s n
  end.

Definition temp (s : st A) (who : nat -> owner) (plus : bool) (c : A) (v : val A) (i : option tensor) : Prop :=
  exists t, i = Some t /\ shape t = fst v /\
    (plus = false -> val_of (hp s) t = const_like c v /\ who (ref t) = OTmp /\ ref t < length (hp s)).

Definition is_plus (o : bop A) : bool := match o with BPlus => true | _ => false end.

(** the operand tensors remembered in slot k are where the operands' values are *)
Definition inputs (s : st A) (who : nat -> owner) (k : slot) (x : expr A) : Prop :=
  match x with
  | EUn n o y => in1 (objs s k) = loc s y
  | EBin n o l r =>
      match l, r with
      | EVal c, _ => in2 (objs s k) = loc s r /\ exists v, eval r = Some v /\ temp s who (is_plus o) c v (in1 (objs s k))
      | _, EVal c => in1 (objs s k) = loc s l /\ exists v, eval l = Some v /\ temp s who (is_plus o) c v (in2 (objs s k))
      | _, _ => in1 (objs s k) = loc s l /\ in2 (objs s k) = loc s r
      end
  | _ => True
  end.

Definition consumed (s : st A) (y : expr A) : Prop :=
  exists k n l r, At e0 k (EBin n BPlus l r) /\ inplace l r = true /\ is_value l = false /\ cache s n <> None /\ In y (path l).

Definition gzero (s : st A) (v : nat) : Prop := Forall (eq zero) (nth (ref (vgrad (vars s v))) (hp s) []).

Record cached (s : st A) (who : nat -> owner) (n : nat) (t : tensor) (k : slot) (x : expr A) : Prop := {
  c_at : At e0 k x;
  c_id : node_id x = Some n;
  c_live : ref t < length (hp s);
  c_who : who (ref t) = owner_of x;
  c_val : eval x = Some (val_of (hp s) t) \/ consumed s x;
  c_sub : forall m, In m (ids x) -> cache s m <> None;
  c_out : out (objs s k) = Some t;
  c_in : inputs s who k x;
  c_zero : training s = true -> forall k' v, At x k' (EVar v) -> gzero s v /\ (k' <> None -> synced (vobjs s k') = false);
  c_shape : exists w, eval x = Some w /\ fst w = shape t
}.

Record inv (s : st A) (who : nat -> owner) : Prop := {
  i_sep : separate e0 s who;
  i_var : forall k v, At e0 k (EVar v) -> val_of (hp s) (vdata (vars s v)) = e_var q v;
  i_hold : forall k p, At e0 k (EHold p) -> exists t, holders s p = Some t /\ e_hold q p = Some (val_of (hp s) t);
  i_const : forall k t, At e0 k (EConst t) -> val_of (hp s) t = e_const q t;
  i_cache : forall n t, cache s n = Some t -> exists k x, cached s who n t k x
}.

Record ext (s s' : st A) (who who' : nat -> owner) : Prop := {
  x_vars : vars s' = vars s;
  x_hold : holders s' = holders s;
  x_tr : training s' = training s;
  x_ownb : ownb s' = ownb s;
  x_len : length (hp s) <= length (hp s');
  x_who : forall r, r < length (hp s) -> who' r = who r;
  x_frame : forall r, r < length (hp s) -> (forall n, who r <> OOp n) -> (forall v, who r <> OGrad v) ->
              nth_error (hp s') r = nth_error (hp s) r;
  x_grad : forall r v, r < length (hp s) -> who r = OGrad v -> nth_error (hp s') r = nth_error (hp s) r \/
              (training s = true /\ nth_error (hp s') r = Some (repeat zero (length (nth r (hp s) []))));
  x_cache : forall n t, cache s n = Some t -> cache s' n = Some t;
  x_ran : exists l, ran s' = l ++ ran s /\ NoDup l /\ forall n, In n l <-> cache s n = None /\ cache s' n <> None;
  x_vobj : forall k, trainable (vobjs s' k) = trainable (vobjs s k) /\ l1 (vobjs s' k) = l1 (vobjs s k) /\
              l2 (vobjs s' k) = l2 (vobjs s k) /\
              (synced (vobjs s' k) = synced (vobjs s k) \/ (training s = true /\ synced (vobjs s' k) = false))
}.

Lemma nth_error_nth_eq (h h' : list (list A)) r : nth_error h' r = nth_error h r -> nth r h' [] = nth r h [].
Proof.
  intros E. destruct (nth_error h r) as [d|] eqn:E1.
  - now rewrite (nth_error_nth _ _ [] E), (nth_error_nth _ _ [] E1).
  - rewrite !nth_overflow; [reflexivity| |]; apply nth_error_None; congruence.
Qed.

Lemma val_of_eq (h h' : list (list A)) t : nth_error h' (ref t) = nth_error h (ref t) -> val_of h' t = val_of h t.
Proof. intros E. unfold val_of. now rewrite (nth_error_nth_eq _ _ _ E). Qed.

Lemma val_live (h : list (list A)) t : snd (val_of h t) <> [] -> ref t < length h.
Proof.
  unfold val_of. cbn [snd]. intros H. destruct (lt_dec (ref t) (length h)) as [|N]; [assumption|].
  exfalso. apply H. apply nth_overflow. lia.
Qed.

Lemma NoDup_app_disj {B} (a b : list B) : NoDup a -> NoDup b -> (forall x, In x a -> In x b -> False) -> NoDup (a ++ b).
Proof.
  induction a as [|x a IH]; [auto|]. cbn. intros Ha Hb D. inversion Ha; subst. constructor.
  - rewrite in_app_iff. intros [?|?]; [contradiction|]. apply (D x); auto.
  - apply IH; auto. intros y Hy1 Hy2. apply (D y); auto.
Qed.

Lemma ext_refl s who : ext s s who who.
Proof.
  constructor; auto. exists []. split; [reflexivity|]. split; [constructor|]. intros n. cbn. split; [contradiction|]. intros [-> H]. now apply H.
Qed.

Lemma repeat_len_nth (h : list (list A)) r d : nth_error h r = Some d -> nth r h [] = d.
Proof. intros E. exact (nth_error_nth _ _ [] E). Qed.

Lemma ext_trans s s1 s2 who who1 who2 : ext s s1 who who1 -> ext s1 s2 who1 who2 -> ext s s2 who who2.
Proof.
  intros H1 H2. constructor.
  - now rewrite (x_vars _ _ _ _ H2), (x_vars _ _ _ _ H1).
  - now rewrite (x_hold _ _ _ _ H2), (x_hold _ _ _ _ H1).
  - now rewrite (x_tr _ _ _ _ H2), (x_tr _ _ _ _ H1).
  - now rewrite (x_ownb _ _ _ _ H2), (x_ownb _ _ _ _ H1).
  - pose proof (x_len _ _ _ _ H1). pose proof (x_len _ _ _ _ H2). lia.
  - intros r Hr. pose proof (x_len _ _ _ _ H1). rewrite (x_who _ _ _ _ H2) by lia. now apply (x_who _ _ _ _ H1).
  - intros r Hr Ho Hv. pose proof (x_len _ _ _ _ H1). rewrite (x_frame _ _ _ _ H2); [now apply (x_frame _ _ _ _ H1)|lia| |];
    intros ?; rewrite (x_who _ _ _ _ H1 r Hr); auto.
  - intros r v Hr Hv. pose proof (x_len _ _ _ _ H1) as HL.
    destruct (x_grad _ _ _ _ H1 r v Hr Hv) as [E1|[T1 E1]];
    (destruct (x_grad _ _ _ _ H2 r v ltac:(lia) ltac:(rewrite (x_who _ _ _ _ H1 r Hr); exact Hv)) as [E2|[T2 E2]]).
    + left. congruence.
    + right. split; [now rewrite <- (x_tr _ _ _ _ H1)|]. rewrite E2. now rewrite (nth_error_nth_eq _ _ _ E1).
    + right. split; [assumption|]. congruence.
    + right. split; [assumption|]. rewrite E2. rewrite (repeat_len_nth _ _ _ E1), repeat_length. reflexivity.
  - intros n t E. now apply (x_cache _ _ _ _ H2), (x_cache _ _ _ _ H1).
  - destruct (x_ran _ _ _ _ H1) as (l1 & R1 & N1 & I1). destruct (x_ran _ _ _ _ H2) as (l2 & R2 & N2 & I2).
    exists (l2 ++ l1). split; [now rewrite R2, R1, app_assoc|]. split.
    + apply NoDup_app_disj; [assumption|assumption|].
      intros n Hn1 Hn2. apply I2 in Hn1. apply I1 in Hn2. destruct Hn1, Hn2. contradiction.
    + intros n. rewrite in_app_iff, I1, I2. split.
      * intros [[E1 E2]|[E1 E2]]; split; auto.
        -- destruct (cache s n) as [t|] eqn:E; [|reflexivity]. now rewrite (x_cache _ _ _ _ H1 _ _ E) in E1.
        -- destruct (cache s1 n) as [t|] eqn:E; [|contradiction]. now rewrite (x_cache _ _ _ _ H2 _ _ E).
      * intros [E1 E2]. destruct (cache s1 n) as [t|] eqn:E; [right|left]; split; auto; congruence.
  - intros k. destruct (x_vobj _ _ _ _ H1 k) as (a & b & c & d), (x_vobj _ _ _ _ H2 k) as (a' & b' & c' & d').
    rewrite (x_tr _ _ _ _ H1) in d'.
    split; [congruence|]. split; [congruence|]. split; [congruence|].
    destruct d' as [d'|[? d']]; [|right; auto]. rewrite d'. exact d.
Qed.

(** ** consequences of the invariant *)

Lemma leaf_good s who k x : inv s who -> At e0 k x -> is_leaf x = true ->
  exists t, loc s x = Some t /\ eval x = Some (val_of (hp s) t) /\ who (ref t) = OLeaf /\ ref t < length (hp s).
Proof.
  intros I H L.
  destruct (Hsz k x H ltac:(intros c ->; discriminate)) as (w & Ew & _ & Nw).
  destruct (i_sep _ _ I) as (S1 & S2 & S3 & _).
  destruct x as [v|p|t| | |]; try discriminate; cbn [loc GraphSpec.eval] in *.
  - exists (vdata (vars s v)). split; [reflexivity|]. rewrite (i_var _ _ I k v H). split; [reflexivity|].
    split; [apply (S1 k v H)|]. apply val_live. rewrite (i_var _ _ I k v H). injection Ew as ->. assumption.
  - destruct (i_hold _ _ I k p H) as (t & E1 & E2). exists t. split; [assumption|]. split; [assumption|].
    split; [now apply (S2 k p t)|]. apply val_live. rewrite E2 in Ew. injection Ew as ->. assumption.
  - exists t. split; [reflexivity|]. rewrite (i_const _ _ I k t H). split; [reflexivity|]. split; [apply (S3 k t H)|].
    apply val_live. rewrite (i_const _ _ I k t H). injection Ew as ->. assumption.
Qed.

Lemma cached_at s who k x n t : inv s who -> At e0 k x -> node_id x = Some n -> cache s n = Some t ->
  exists k', cached s who n t k' x.
Proof.
  intros I H E C. destruct (i_cache _ _ I n t C) as (k' & x' & R).
  assert (x' = x) as -> by (eapply Hcons; [apply (c_at _ _ _ _ _ _ R)|exact H|apply (c_id _ _ _ _ _ _ R)|exact E]). eauto.
Qed.

(** a cached result whose user is still to be evaluated has the right value *)
Lemma cached_good s who k x n t : inv s who -> At e0 k x -> node_id x = Some n -> cache s n = Some t ->
  (forall m b, k = Some (m, b) -> cache s m = None) -> eval x = Some (val_of (hp s) t).
Proof.
  intros I H E C Hk. destruct (cached_at _ _ _ _ _ _ I H E C) as (k' & R).
  destruct (c_val _ _ _ _ _ _ R) as [|(kp & np & l & r & Hp & Hin & Hv & Hc & Hx)]; [assumption|exfalso].
  destruct (Hdis kp np l r Hp Hin x Hx) as [_ U].
  destruct (path_parent _ _ _ _ _ _ _ Hx) as [->|(w & m & Hw & Ew & Hwx)].
  - assert (k = Some (np, false)) as ->.
    { apply U; [assumption|now apply (At_left _ kp np BPlus l r)|congruence]. }
    apply Hc. now apply (Hk np false).
  - destruct (path_At _ _ _ _ _ _ _ Hw) as (kw & Hkw).
    destruct (At_trans e0 (Some (np, false)) l (At_left _ kp np BPlus l r Hp) _ _ Hkw) as (kw' & Hw0 & _).
    destruct (At_trans _ _ _ Hw0 _ _ Hwx) as (k2 & Hy2 & K2). rewrite (K2 ltac:(discriminate)) in Hy2.
    assert (k = Some (m, false)) as -> by (apply U; [assumption|assumption|congruence]).
    destruct (cache s np) as [tp|] eqn:Ep; [|now apply Hc].
    destruct (cached_at _ _ _ _ _ _ I Hp eq_refl Ep) as (kp' & Rp).
    apply (c_sub _ _ _ _ _ _ Rp m); [|now apply (Hk m false)].
    cbn [ids]. right. apply in_app_iff. left. apply (path_ids _ _ _ _ _ _ _ _ Hw Ew).
Qed.

Lemma operand_good s who k x : inv s who -> At e0 k x -> is_value x = false ->
  (forall m b, k = Some (m, b) -> cache s m = None) -> (forall m, In m (ids x) -> cache s m <> None) ->
  exists t, loc s x = Some t /\ eval x = Some (val_of (hp s) t) /\ who (ref t) = owner_of x /\ ref t < length (hp s).
Proof.
  intros I H V Hk Hc. destruct (is_leaf x) eqn:L.
  - destruct (leaf_good _ _ _ _ I H L) as (t & H1 & H2 & H3 & H4). exists t. split; [assumption|]. split; [assumption|]. split; [|assumption].
    rewrite H3. now destruct x.
  - assert (exists n, node_id x = Some n /\ loc s x = cache s n) as (n & E & El) by (destruct x; try discriminate; cbn; eauto).
    assert (cache s n <> None) as Hn by (apply Hc; apply ids_At; exists None, x; split; [constructor|assumption]).
    destruct (cache s n) as [t|] eqn:C; [|contradiction]. exists t. split; [assumption|].
    destruct (cached_at _ _ _ _ _ _ I H E C) as (k' & R).
    split; [now apply (cached_good s who k x n t)|]. split; [apply (c_who _ _ _ _ _ _ R)|apply (c_live _ _ _ _ _ _ R)].
Qed.

(** nobody uses the storage of an operator that has not been evaluated *)
Lemma unused_storage s who n m t : inv s who -> cache s n = None -> cache s m = Some t -> who (ref t) <> OOp n.
Proof.
  intros I Cn Cm E. destruct (i_cache _ _ I m t Cm) as (k & x & R). rewrite (c_who _ _ _ _ _ _ R) in E.
  destruct (owner_path _ _ _ _ _ _ _ E) as (y & Hy & Ey & _).
  apply (c_sub _ _ _ _ _ _ R n); [|assumption]. apply (path_ids _ _ _ _ _ _ _ _ Hy Ey).
Qed.

Lemma loc_mono s s' y : vars s' = vars s -> holders s' = holders s -> (forall n t, cache s n = Some t -> cache s' n = Some t) ->
  (forall m, In m (ids y) -> cache s m <> None) -> loc s' y = loc s y.
Proof.
  intros Hv Hh Hc Hi. destruct y as [v|p|t|c|n o y|n o l r]; cbn [loc]; rewrite ?Hv, ?Hh; try reflexivity;
  (specialize (Hi n (or_introl eq_refl)); destruct (cache s n) as [t|] eqn:E; [now apply Hc|contradiction]).
Qed.

Lemma temp_mono s s' who who' p c v i : length (hp s) <= length (hp s') -> (forall r, r < length (hp s) -> who' r = who r) ->
  (forall r, r < length (hp s) -> who r = OTmp -> nth_error (hp s') r = nth_error (hp s) r) ->
  temp s who p c v i -> temp s' who' p c v i.
Proof.
  intros HL HW HF (t & E & Es & H). exists t. split; [assumption|]. split; [assumption|]. intros Hp.
  destruct (H Hp) as (H1 & H2 & H3). split; [|split; [|lia]].
  - rewrite <- H1. apply val_of_eq. now apply HF.
  - rewrite <- H2. now apply HW.
Qed.

Lemma inputs_mono s s' who who' k x : vars s' = vars s -> holders s' = holders s ->
  (forall n t, cache s n = Some t -> cache s' n = Some t) ->
  (forall n b m y, node_id x = Some n -> At x (Some (n, b)) y -> In m (ids y) -> cache s m <> None) ->
  length (hp s) <= length (hp s') -> (forall r, r < length (hp s) -> who' r = who r) ->
  (forall r, r < length (hp s) -> who r = OTmp -> nth_error (hp s') r = nth_error (hp s) r) ->
  in1 (objs s' k) = in1 (objs s k) -> in2 (objs s' k) = in2 (objs s k) ->
  inputs s who k x -> inputs s' who' k x.
Proof.
  intros Hv Hh Hc Hi HL HW HF O1 O2. destruct x as [v|p|t|c|n o y|n o l r]; cbn [inputs]; auto.
  - intros E. rewrite O1, E. symmetry. apply (loc_mono s s' y); auto. intros m Hm. apply (Hi n false m y); auto.
    apply (At_un _ None n o). constructor.
  - assert (El : loc s' l = loc s l).
    { apply (loc_mono s s' l); auto. intros m Hm. apply (Hi n false m l); auto. apply (At_left _ None n o l r). constructor. }
    assert (Er : loc s' r = loc s r).
    { apply (loc_mono s s' r); auto. intros m Hm. apply (Hi n true m r); auto. apply (At_right _ None n o l r). constructor. }
    assert (HT : forall p c v i, temp s who p c v i -> temp s' who' p c v i) by (intros; eapply temp_mono; eauto).
    rewrite O1, O2, El, Er.
    destruct l; try (destruct r); intros H; try exact H;
    (destruct H as (H1 & v0 & H2 & H3); split; [exact H1|]; exists v0; split; [exact H2|now apply HT]).
Qed.

(** ** steps *)

(** writing the record of a node that is not cached yet *)
Lemma inv_objs s who k x n o : inv s who -> At e0 k x -> node_id x = Some n -> cache s n = None ->
  inv (set_objs s (supd (objs s) k o)) who.
Proof.
  intros I H E C. destruct I as [I1 I2 I3 I4 I5]. constructor; auto.
  intros m t Cm. destruct (I5 m t Cm) as (k' & y & R). exists k', y. destruct R as [R1 R2 R3 R4 R5 R6 R7 R8 R9 R10].
  assert (k' <> k) as Hk.
  { intros ->. pose proof (At_fun _ Hcons _ _ _ H R1). subst y. rewrite E in R2. injection R2 as ->. cbn in Cm. congruence. }
  constructor; auto.
  - cbn [objs set_objs]. now rewrite supd_other.
  - revert R8. apply inputs_mono; auto; cbn [objs set_objs hp]; rewrite ?supd_other; auto.
    intros n' b m' z Ez Hz Hm'. apply R6. destruct (At_trans y None y (At_root _) _ _ Hz) as (? & Hz' & _).
    apply ids_At in Hm'. destruct Hm' as (k3 & y3 & H3 & E3). destruct (At_trans _ _ _ Hz _ _ H3) as (k4 & H4 & _). apply ids_At. eauto.
Qed.

(** a cache hit writes the output that is there already *)
Lemma inv_hit s who k x n t : inv s who -> At e0 k x -> node_id x = Some n -> cache s n = Some t ->
  inv (set_objs s (supd (objs s) k (Obj (in1 (objs s k)) (in2 (objs s k)) (Some t)))) who.
Proof.
  intros I H E C. destruct I as [I1 I2 I3 I4 I5]. constructor; auto.
  intros m u Cm. destruct (I5 m u Cm) as (k' & y & R). exists k', y. destruct R as [R1 R2 R3 R4 R5 R6 R7 R8 R9 R10].
  assert (Hi : forall n' b m' z, node_id y = Some n' -> At y (Some (n', b)) z -> In m' (ids z) -> cache s m' <> None).
  { intros n' b m' z Ez Hz Hm'. apply R6.
    apply ids_At in Hm'. destruct Hm' as (k3 & y3 & H3 & E3). destruct (At_trans _ _ _ Hz _ _ H3) as (k4 & H4 & _). apply ids_At. eauto. }
  destruct (slot_eqb_spec k' k) as [->|Hk].
  - pose proof (At_fun _ Hcons _ _ _ H R1). subst y. rewrite E in R2. injection R2 as <-. cbn in Cm. rewrite C in Cm. injection Cm as <-.
    constructor; auto.
    + cbn [objs set_objs]. now rewrite supd_same.
    + revert R8. apply inputs_mono; auto; cbn [objs set_objs hp]; rewrite ?supd_same; auto.
  - constructor; auto.
    + cbn [objs set_objs]. now rewrite supd_other.
    + revert R8. apply inputs_mono; auto; cbn [objs set_objs hp]; rewrite ?supd_other; auto.
Qed.

Lemma At_ids_sub (x : expr A) n b y m : At x (Some (n, b)) y -> In m (ids y) -> In m (ids x).
Proof.
  intros H Hm. apply ids_At in Hm. destruct Hm as (k3 & y3 & H3 & E3). destruct (At_trans _ _ _ H _ _ H3) as (k4 & H4 & _).
  apply ids_At. eauto.
Qed.

(** a step that leaves leaves, temporaries and results alone and keeps zero gradients zero *)
Lemma inv_heap s s' who who' : inv s who -> ext s s' who who' -> cache s' = cache s -> own s' = own s -> objs s' = objs s ->
  (forall r, r < length (hp s) -> (forall v, who r <> OGrad v) -> nth_error (hp s') r = nth_error (hp s) r) ->
  inv s' who'.
Proof.
  intros I X EC EO EJ HF. destruct I as [I1 I2 I3 I4 I5]. destruct I1 as (S1 & S2 & S3 & S4 & S5).
  pose proof (x_vars _ _ _ _ X) as XV. pose proof (x_hold _ _ _ _ X) as XH. pose proof (x_len _ _ _ _ X) as XL.
  assert (HS : inv s who) by (constructor; auto; split; [|split; [|split; [|split]]]; auto).
  assert (HLeaf : forall k x, At e0 k x -> is_leaf x = true -> forall t, loc s x = Some t ->
            nth_error (hp s') (ref t) = nth_error (hp s) (ref t) /\ who' (ref t) = who (ref t)).
  { intros k x H L t E. destruct (leaf_good _ _ _ _ HS H L) as (t' & E1 & _ & E2 & E3). rewrite E in E1. injection E1 as <-.
    split; [apply HF; [assumption|congruence]|now apply (x_who _ _ _ _ X)]. }
  assert (HZ : forall k v, At e0 k (EVar v) -> training s = true -> gzero s v -> gzero s' v).
  { intros k v H T Z. unfold gzero in *. rewrite XV. destruct (S1 k v H) as (_ & W & L).
    destruct (x_grad _ _ _ _ X _ v L W) as [E|[_ E]].
    - now rewrite (nth_error_nth_eq _ _ _ E).
    - rewrite (repeat_len_nth _ _ _ E). apply Forall_forall. intros z Hz. apply repeat_spec in Hz. congruence. }
  constructor.
  - split; [|split; [|split; [|split]]].
    + intros k v H. rewrite XV. destruct (S1 k v H) as (W1 & W2 & L).
      destruct (HLeaf k (EVar v) H eq_refl _ eq_refl) as [_ W]. rewrite W, (x_who _ _ _ _ X _ L). split; [assumption|]. split; [assumption|lia].
    + intros k p t H E. rewrite XH in E. destruct (HLeaf k (EHold p) H eq_refl t E) as [_ W]. rewrite W. now apply (S2 k p).
    + intros k t H. destruct (HLeaf k (EConst t) H eq_refl t eq_refl) as [_ W]. rewrite W. now apply (S3 k).
    + intros n t E. rewrite EO in E. destruct (S4 n t E) as [W L]. rewrite (x_who _ _ _ _ X _ L). split; [assumption|lia].
    + intros n b t E. rewrite (x_ownb _ _ _ _ X) in E. destruct (S5 n b t E) as [W L]. rewrite (x_who _ _ _ _ X _ L). split; [assumption|lia].
  - intros k v H. rewrite XV, <- (I2 k v H). apply val_of_eq. now destruct (HLeaf k (EVar v) H eq_refl _ eq_refl).
  - intros k p H. destruct (I3 k p H) as (t & E1 & E2). exists t. rewrite XH. split; [assumption|]. rewrite E2. f_equal. symmetry.
    apply val_of_eq. now destruct (HLeaf k (EHold p) H eq_refl t E1).
  - intros k t H. rewrite <- (I4 k t H). apply val_of_eq. now destruct (HLeaf k (EConst t) H eq_refl t eq_refl).
  - intros n t C. rewrite EC in C. destruct (I5 n t C) as (k & x & R). exists k, x. destruct R as [R1 R2 R3 R4 R5 R6 R7 R8 R9 R10].
    assert (Hnv : forall v, who (ref t) <> OGrad v).
    { intros v. rewrite R4. clear. induction x as [| | | |? [] ? IH|? [] l IHl r IHr]; cbn; try discriminate; auto.
      destruct (negb (is_value l) && _); [auto|discriminate]. }
    constructor; auto.
    + lia.
    + rewrite (x_who _ _ _ _ X _ R3). assumption.
    + destruct R5 as [R5|R5]; [left|right].
      * rewrite R5. f_equal. symmetry. apply val_of_eq. now apply HF.
      * destruct R5 as (kp & np & l & r & P1 & P2 & P3 & P4 & P5). exists kp, np, l, r. rewrite EC. auto.
    + intros m Hm. rewrite EC. now apply R6.
    + now rewrite EJ.
    + revert R8. apply inputs_mono; auto.
      * rewrite EC. auto.
      * intros n' b m y _ Hy Hm. apply R6. now apply (At_ids_sub x n' b y).
      * apply (x_who _ _ _ _ X).
      * intros r Hr W. apply HF; [assumption|congruence].
      * now rewrite EJ.
      * now rewrite EJ.
    + intros T k' v Hv. rewrite (x_tr _ _ _ _ X) in T. destruct (At_trans _ _ _ R1 _ _ Hv) as (k2 & Hv0 & _).
      destruct (R9 T k' v Hv) as [Z1 Z2]. split; [now apply (HZ k2 v Hv0 T)|]. intros Nk. specialize (Z2 Nk).
      destruct (x_vobj _ _ _ _ X k') as (_ & _ & _ & [->|[_ ->]]); auto.
Qed.

(** the sums computed inside a storage *)
Definition consumed_by (x y : expr A) : Prop :=
  exists n l r, x = EBin n BPlus l r /\ inplace l r = true /\ is_value l = false /\ In y (path l).

Definition finish (s : st A) (k : slot) (n : nat) (t : tensor) (h' : list (list A)) (own' : nat -> option tensor) : st A :=
  St h' (fupd (cache s) n (Some t)) (supd (objs s) k (Obj (in1 (objs s k)) (in2 (objs s k)) (Some t))) (vobjs s) (vars s)
     (holders s) own' (ownb s) (training s) (n :: ran s).

(** the last step of evaluating node n *)
Lemma inv_finish s who k x n t h' own' who' :
  inv s who -> At e0 k x -> node_id x = Some n -> cache s n = None ->
  (forall m, In m (ids x) -> m <> n -> cache s m <> None) ->
  length (hp s) <= length h' -> (forall r, r < length (hp s) -> who' r = who r) ->
  (forall r, r < length (hp s) -> (forall o, who r <> OOp o) -> nth_error h' r = nth_error (hp s) r) ->
  (forall m tm y, cache s m = Some tm -> node_id y = Some m -> (exists ky, At e0 ky y) ->
     nth_error h' (ref tm) = nth_error (hp s) (ref tm) \/ consumed_by x y) ->
  (forall m u, own' m = Some u -> who' (ref u) = OOp m /\ ref u < length h') ->
  ref t < length h' -> who' (ref t) = owner_of x -> eval x = Some (val_of h' t) ->
  inputs s who k x ->
  (training s = true -> forall k' v, At x k' (EVar v) -> gzero s v /\ (k' <> None -> synced (vobjs s k') = false)) ->
  inv (finish s k n t h' own') who' /\ ext s (finish s k n t h' own') who who'.
Proof.
  intros I H E C Hids HL HW HF HC HO Lt Wt Et Hin HZ.
  destruct (i_sep _ _ I) as (S1 & S2 & S3 & S4 & S5).
  assert (HLeaf : forall ky y, At e0 ky y -> is_leaf y = true -> forall u, loc s y = Some u ->
            nth_error h' (ref u) = nth_error (hp s) (ref u) /\ who' (ref u) = who (ref u)).
  { intros ky y Hy L u Eu. destruct (leaf_good _ _ _ _ I Hy L) as (u' & E1 & _ & E2 & E3). rewrite Eu in E1. injection E1 as <-.
    split; [apply HF; [assumption|congruence]|now apply HW]. }
  assert (HG : forall ky v, At e0 ky (EVar v) -> gzero s v -> gzero (finish s k n t h' own') v).
  { intros ky v Hv Z. unfold gzero in *. cbn [finish vars hp]. destruct (S1 ky v Hv) as (_ & W & L).
    rewrite (nth_error_nth_eq (hp s)); [assumption|]. apply HF; [assumption|congruence]. }
  assert (Hmono : forall m u, cache s m = Some u -> fupd (cache s) n (Some t) m = Some u).
  { intros m u Cm. destruct (Nat.eq_dec m n) as [->|]; [congruence|now rewrite fupd_other]. }
  assert (Hnn : forall m, cache s m <> None -> fupd (cache s) n (Some t) m <> None).
  { intros m Hm. destruct (cache s m) as [u|] eqn:Em; [|contradiction]. now rewrite (Hmono m u Em). }
  split.
  - constructor; cbn [finish hp vars holders cache].
    + split; [|split; [|split; [|split]]]; cbn [finish hp vars holders own ownb].
      * intros ky v Hv. destruct (S1 ky v Hv) as (W1 & W2 & L). destruct (HLeaf ky (EVar v) Hv eq_refl _ eq_refl) as [_ W].
        rewrite W, (HW _ L). split; [assumption|]. split; [assumption|lia].
      * intros ky p u Hv Eu. destruct (HLeaf ky (EHold p) Hv eq_refl u Eu) as [_ W]. rewrite W. now apply (S2 ky p).
      * intros ky u Hv. destruct (HLeaf ky (EConst u) Hv eq_refl u eq_refl) as [_ W]. rewrite W. now apply (S3 ky).
      * exact HO.
      * intros m b u Eu. destruct (S5 m b u Eu) as [W L]. rewrite (HW _ L). split; [assumption|lia].
    + intros ky v Hv. rewrite <- (i_var _ _ I ky v Hv). apply val_of_eq. now destruct (HLeaf ky (EVar v) Hv eq_refl _ eq_refl).
    + intros ky p Hv. destruct (i_hold _ _ I ky p Hv) as (u & E1 & E2). exists u. split; [assumption|]. rewrite E2. f_equal. symmetry.
      apply val_of_eq. now destruct (HLeaf ky (EHold p) Hv eq_refl u E1).
    + intros ky u Hv. rewrite <- (i_const _ _ I ky u Hv). apply val_of_eq. now destruct (HLeaf ky (EConst u) Hv eq_refl u eq_refl).
    + intros m u Cm. destruct (Nat.eq_dec m n) as [->|Nm].
      * rewrite fupd_same in Cm. injection Cm as <-. exists k, x. constructor; cbn [finish hp objs cache]; auto.
        -- intros m Hm. destruct (Nat.eq_dec m n) as [->|]; [rewrite fupd_same; discriminate|]. apply Hnn. now apply Hids.
        -- now rewrite supd_same.
        -- revert Hin. apply inputs_mono; cbn [finish hp objs cache vars holders]; auto.
           ++ intros n' b m' y En Hy Hm'. rewrite E in En. injection En as <-. apply Hids; [now apply (At_ids_sub x n b y)|].
              intros ->. destruct (At_trans _ _ _ H _ _ Hy) as (k2 & Hy0 & K2). rewrite (K2 ltac:(discriminate)) in Hy0.
              exact (no_cycle _ Hcons _ _ _ Hy0 Hm').
           ++ intros r Hr W. apply HF; [assumption|congruence].
           ++ now rewrite supd_same.
           ++ now rewrite supd_same.
        -- intros T k' v Hv. destruct (At_trans _ _ _ H _ _ Hv) as (k2 & Hv0 & _). destruct (HZ T k' v Hv) as [Z1 Z2].
           split; [now apply (HG k2 v Hv0)|exact Z2].
        -- exists (val_of h' t). split; [exact Et|reflexivity].
      * rewrite fupd_other in Cm by assumption. destruct (i_cache _ _ I m u Cm) as (k' & y & R).
        exists k', y. destruct R as [R1 R2 R3 R4 R5 R6 R7 R8 R9 R10].
        assert (k' <> k) as Hk.
        { intros ->. pose proof (At_fun _ Hcons _ _ _ H R1). subst y. congruence. }
        constructor; cbn [finish hp objs cache]; auto.
        -- lia.
        -- now rewrite (HW _ R3).
        -- destruct R5 as [R5|R5].
           ++ destruct (HC m u y Cm R2 (ex_intro _ _ R1)) as [F|(n' & l & r & -> & P2 & P3 & P4)].
              ** left. rewrite R5. f_equal. symmetry. now apply val_of_eq.
              ** right. exists k, n', l, r. split; [assumption|]. split; [assumption|]. split; [assumption|]. split; [|assumption].
                 cbn [finish cache]. cbn in E. injection E as ->. rewrite fupd_same. discriminate.
           ++ right. destruct R5 as (kp & np & l & r & P1 & P2 & P3 & P4 & P5). exists kp, np, l, r.
              split; [assumption|]. split; [assumption|]. split; [assumption|]. split; [|assumption]. cbn [finish cache]. now apply Hnn.
        -- now rewrite supd_other.
        -- revert R8. apply inputs_mono; cbn [finish hp objs cache vars holders]; auto.
           ++ intros n' b m' z _ Hz Hm'. apply R6. now apply (At_ids_sub y n' b z).
           ++ intros r Hr W. apply HF; [assumption|congruence].
           ++ now rewrite supd_other.
           ++ now rewrite supd_other.
        -- intros T k2 v Hv. destruct (At_trans _ _ _ R1 _ _ Hv) as (k3 & Hv0 & _). destruct (R9 T k2 v Hv) as [Z1 Z2].
           split; [now apply (HG k3 v Hv0)|exact Z2].
  - constructor; cbn [finish hp vars holders training ownb cache ran vobjs]; auto.
    + intros r v Hr Hv. left. apply HF; [assumption|congruence].
    + exists [n]. split; [reflexivity|]. split; [constructor; [intros []|constructor]|]. intros m. cbn [In]. split.
      * intros [<-|[]]. split; [assumption|]. rewrite fupd_same. discriminate.
      * intros [E1 E2]. left. destruct (Nat.eq_dec m n); [congruence|]. rewrite fupd_other in E2 by assumption. contradiction.
Qed.

End Inv.
