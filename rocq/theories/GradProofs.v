(** A backward pass delivers the gradients of the chain rule. *)
From Coq Require Import List Arith Lia Bool PeanoNat.
From Verif Require Import ListBase TensorModel TensorSpec TensorProofs TensorProofs2 GraphModel GraphSpec GraphProofs GraphProofs2
  GraphProofs3 GraphProofs4 GradSpec.
Import ListNotations.

Local Notation "'do' x <- m ; f" := (gbind m (fun x => f)) (at level 200, x name, m at level 100, f at level 200).

(** ** trees: every operator occurs once *)

(** every object of an expression with its slot *)
Fixpoint all_at {A} (k : slot) (e : expr A) : list (slot * expr A) :=
  (k, e) :: match e with
            | EUn n _ x => all_at (Some (n, false)) x
            | EBin n _ l r => all_at (Some (n, false)) l ++ all_at (Some (n, true)) r
            | _ => []
            end.

Lemma all_at_self {A} k (e : expr A) : In (k, e) (all_at k e).
Proof. destruct e; left; reflexivity. Qed.

Lemma all_at_trans {A} (x : expr A) : forall k k1 y, In (k1, y) (all_at k x) ->
  match y with
  | EUn n _ z => In (Some (n, false), z) (all_at k x)
  | EBin n _ l r => In (Some (n, false), l) (all_at k x) /\ In (Some (n, true), r) (all_at k x)
  | _ => True
  end.
Proof.
  induction x as [v|p|t|c|n o x IH|n o l IHl r IHr]; intros k k1 y H; cbn [all_at] in H;
  try (destruct H as [[= <- <-]|[]]; exact I).
  - destruct H as [[= <- <-]|H]; [right; apply all_at_self|]. specialize (IH _ _ _ H).
    destruct y; auto; [right; exact IH|destruct IH; split; right; assumption].
  - destruct H as [[= <- <-]|H].
    + split; right; apply in_app_iff; [left|right]; apply all_at_self.
    + apply in_app_iff in H. destruct H as [H|H]; [specialize (IHl _ _ _ H); rename IHl into J|specialize (IHr _ _ _ H); rename IHr into J];
      (destruct y; auto; [right; apply in_app_iff; auto|destruct J; split; right; apply in_app_iff; auto]).
Qed.

Lemma At_all {A} (e : expr A) k x : At e k x -> In (k, x) (all_at None e).
Proof.
  induction 1 as [|k n o x H IH|k n o l r H IH|k n o l r H IH]; [apply all_at_self| | |]; apply all_at_trans in IH; tauto.
Qed.

Definition ids_of {A} (p : slot * expr A) : list nat := match node_id (snd p) with Some n => [n] | None => [] end.

Lemma all_at_ids {A} (e : expr A) : forall k, flat_map ids_of (all_at k e) = ids e.
Proof.
  induction e as [v|p|t|c|n o x IH|n o l IHl r IHr]; intros k; cbn [all_at flat_map ids_of node_id snd ids]; try reflexivity.
  - now rewrite IH.
  - now rewrite flat_map_app, IHl, IHr.
Qed.

Lemma flat_map_once {B} (f : B -> list nat) (l : list B) x y n : NoDup (flat_map f l) -> In x l -> In y l -> In n (f x) -> In n (f y) -> x = y.
Proof.
  induction l as [|a l IH]; [intros _ []|]. cbn [flat_map In]. intros N Hx Hy Nx Ny.
  assert (NoDup (flat_map f l)) as N' by (clear - N; induction (f a) as [|b m IHm]; [exact N|inversion N; auto]).
  assert (forall z, In z l -> In n (f z) -> In n (f a) -> False) as D.
  { intros z Hz Nz Na. assert (In n (flat_map f l)) as Hn by (apply in_flat_map; eauto).
    clear - N Na Hn. induction (f a) as [|b m IHm]; [exact Na|]. inversion N as [|? ? Nb Nm]; subst. destruct Na as [->|Na]; [|auto].
    apply Nb. apply in_app_iff. now right. }
  destruct Hx as [->|Hx], Hy as [->|Hy]; auto; exfalso; eauto.
Qed.

Section Tree.
Context {A : Type}.
Variable e0 : expr A.
Hypothesis Htree : NoDup (ids e0).

Lemma tree_unique k1 k2 x y n : At e0 k1 x -> At e0 k2 y -> node_id x = Some n -> node_id y = Some n -> k1 = k2 /\ x = y.
Proof.
  intros H1 H2 E1 E2. apply At_all in H1, H2. rewrite <- (all_at_ids e0 None) in Htree.
  assert (E : (k1, x) = (k2, y)).
  { apply (flat_map_once ids_of _ _ _ n Htree H1 H2); unfold ids_of; cbn [snd]; [rewrite E1|rewrite E2]; now left. }
  injection E as -> ->. auto.
Qed.

Lemma tree_consistent : consistent e0.
Proof. intros k1 k2 x y n H1 H2 E1 E2. apply (tree_unique k1 k2 x y n); assumption. Qed.

Lemma tree_sub k x : At e0 k x -> NoDup (ids x).
Proof.
  induction 1 as [|k n o x H IH|k n o l r H IH|k n o l r H IH]; [exact Htree| | |]; cbn [ids] in IH; inversion IH as [|? ? N D]; subst; auto.
  - clear - D. induction (ids l) as [|b m IHm]; [constructor|]. inversion D as [|? ? Nb Nm]; subst. constructor; auto.
    intros Hb. apply Nb. apply in_app_iff. now left.
  - clear - D. induction (ids l) as [|b m IHm]; [exact D|]. inversion D; auto.
Qed.

Lemma tree_disjoint k n o l r m : At e0 k (EBin n o l r) -> In m (ids l) -> In m (ids r) -> False.
Proof.
  intros H Hl Hr. pose proof (tree_sub k _ H) as D. cbn [ids] in D. inversion D as [|? ? _ D']; subst.
  clear - D' Hl Hr. induction (ids l) as [|b m' IHm]; [exact Hl|]. inversion D' as [|? ? Nb Nm]; subst. destruct Hl as [->|Hl]; auto.
  apply Nb. apply in_app_iff. now right.
Qed.
End Tree.

Lemma path_parent2 {A} zero one add mul q (x y : expr A) : In y (path zero one add mul q x) ->
  y = x \/ exists w m, In w (path zero one add mul q x) /\ node_id w = Some m /\ At w (Some (m, false)) y /\
             path zero one add mul q w = w :: path zero one add mul q y.
Proof.
  remember (size x) as s eqn:Es. revert x Es. induction s as [s IH] using lt_wf_ind. intros x -> H.
  destruct (path_step zero one add mul q x y H) as [->|(y' & m & E1 & H1 & H2 & H3)]; [now left|right].
  assert (size y' < size x) as Sz by (apply At_size in H1; apply H1; discriminate).
  destruct (IH (size y') Sz y' eq_refl H2) as [->|(w & m' & W1 & W2 & W3 & W4)].
  - exists x, m. split; [apply path_self|]. auto.
  - exists w, m'. split; [rewrite H3; now right|]. auto.
Qed.

Section Back.
Context {A : Type} (zero one : A) (add mul : A -> A -> A) (opp : A -> A) (leb : A -> A -> bool) (eps : A).
Variable dbg : bool.
Variable e0 : expr A.
Variable q : env A.
Hypothesis Htree : NoDup (ids e0).
Hypothesis Hsz : sizes_ok zero one add mul q e0.

Notation eval := (eval zero one add mul q).
Notation operands := (operands zero one add mul q).
Notation owner_of := (owner_of zero one add mul q).
Notation grads := (grads zero one add mul dbg q).
Notation local1 := local1.
Notation deliver := (deliver zero one add mul opp leb eps).
Notation gather := (gather zero one add mul opp leb eps).
Notation seed_after := (seed_after zero one add mul q).
Notation backward := (backward zero one add mul opp leb eps dbg).
Notation var_backward := (var_backward zero one add mul opp leb eps dbg).

Definition safe (s : st A) (who : nat -> owner) (t : option tensor) : Prop :=
  exists u, t = Some u /\ ref u < length (hp s) /\ (forall m b, who (ref u) <> OBack m b) /\ (forall v, who (ref u) <> OGrad v).

(** what a backward action finds in slot k *)
Definition reads (s : st A) (who : nat -> owner) (k : slot) (x : expr A) : Prop :=
  match x with
  | EUn n (UNew _ _ _ _) c => exists i, eval c = Some i /\ val_opt (hp s) (in1 (objs s k)) = i /\ safe s who (in1 (objs s k)) /\
      safe s who (out (objs s k)) /\ (blind x \/ eval x = Some (val_opt (hp s) (out (objs s k))))
  | EUn n (UView _) c => exists i, eval c = Some i /\ fst (val_opt (hp s) (in1 (objs s k))) = fst i
  | EBin n BPlus l r => exists a b, operands l r = Some (a, b) /\ fst (val_opt (hp s) (in1 (objs s k))) = fst a /\
      fst (val_opt (hp s) (in2 (objs s k))) = fst b
  | EBin n (BNew _ _ _ _) l r => exists a b, operands l r = Some (a, b) /\
      val_opt (hp s) (in1 (objs s k)) = a /\ safe s who (in1 (objs s k)) /\
      val_opt (hp s) (in2 (objs s k)) = b /\ safe s who (in2 (objs s k)) /\
      safe s who (out (objs s k)) /\ (blind x \/ eval x = Some (val_opt (hp s) (out (objs s k))))
  | _ => True
  end.

Record binv (s : st A) (who : nat -> owner) : Prop := {
  b_live : forall k y t, At e0 k y -> is_leaf y = true -> loc s y = Some t -> ref t < length (hp s);
  b_sep : separate e0 s who;
  b_reads : forall k x, At e0 k x -> reads s who k x;
  b_var : forall k v, At e0 k (EVar v) -> val_of (hp s) (vdata (vars s v)) = e_var q v;
  b_grad : graded e0 s
}.

Record bext (x : expr A) (r0 : option nat) (ds : list (delivery (A:=A))) (s s' : st A) (who who' : nat -> owner) : Prop := {
  e_len : length (hp s) <= length (hp s');
  e_who : forall r, r < length (hp s) -> who' r = who r;
  e_vars : forall v, vars s' v = vars s v;
  e_holders : holders s' = holders s;
  e_objs : objs s' = objs s;
  e_tr : training s' = training s;
  e_own : own s' = own s;
  e_frame : forall r, r < length (hp s) -> Some r <> r0 -> (forall v, who r = OGrad v -> forall k', ~ At x k' (EVar v)) ->
              (forall m b, who r = OBack m b -> ~ In m (ids x)) -> nth_error (hp s') r = nth_error (hp s) r;
  e_grad : forall k v, At e0 k (EVar v) -> nth (ref (vgrad (vars s v))) (hp s') [] =
              gather (vobjs s) (snd (e_var q v)) v ds (nth (ref (vgrad (vars s v))) (hp s) []);
  e_vobj : forall k', vobjs s' k' = marks ds (vobjs s) k'
}.

(** ** composing *)

Lemma gather_ext vo vo' dat v ds cur : (forall k v' g, In (k, v', g) ds -> vo k = vo' k) -> gather vo dat v ds cur = gather vo' dat v ds cur.
Proof.
  revert cur. unfold GradSpec.gather. induction ds as [|[[k v'] g] ds IH]; intros cur H; [reflexivity|]. cbn [fold_left].
  rewrite (H k v' g (or_introl eq_refl)). apply IH. intros k1 v1 g1 H1. apply (H k1 v1 g1). now right.
Qed.

Lemma gather_app vo dat v d1 d2 cur : gather vo dat v (d1 ++ d2) cur = gather vo dat v d2 (gather vo dat v d1 cur).
Proof. apply fold_left_app. Qed.

Lemma hit_false (ds : list (delivery (A:=A))) k' : hit k' ds = false <-> forall k v g, In (k, v, g) ds -> k <> k'.
Proof.
  unfold hit. induction ds as [|[[k v] g] ds IH]; cbn [existsb fst].
  - split; [intros _ ? ? ? []|reflexivity].
  - rewrite orb_false_iff, IH. split.
    + intros [E H] k1 v1 g1 [[= <- <- <-]|H1]; [|eauto]. intros ->. destruct (slot_eqb_spec k' k'); congruence.
    + intros H. split; [|intros; eapply H; right; eauto]. destruct (slot_eqb_spec k k'); [|reflexivity]. exfalso. eapply H; [now left|assumption].
Qed.

Lemma bext_refl x r0 s who : bext x r0 [] s s who who.
Proof. constructor; auto. Qed.

(** the second pass must not meet a slot of the first again *)
Lemma bext_trans x1 x2 x r1 r2 r0 d1 d2 s s1 s2 who who1 who2 :
  bext x1 r1 d1 s s1 who who1 -> bext x2 r2 d2 s1 s2 who1 who2 ->
  (forall k v g k2 v2 g2, In (k, v, g) d1 -> In (k2, v2, g2) d2 -> k <> k2) ->
  (forall k v, At x1 k (EVar v) -> exists k', At x k' (EVar v)) -> (forall k v, At x2 k (EVar v) -> exists k', At x k' (EVar v)) ->
  (forall m, In m (ids x1) \/ In m (ids x2) -> In m (ids x)) ->
  (forall r, Some r = r1 -> Some r = r0 \/ length (hp s) <= r \/ exists m b, who r = OBack m b /\ In m (ids x)) ->
  (forall r, Some r = r2 -> Some r = r0 \/ length (hp s) <= r \/ exists m b, who r = OBack m b /\ In m (ids x)) ->
  bext x r0 (d1 ++ d2) s s2 who who2.
Proof.
  intros H1 H2 Hd Hv1 Hv2 Hi Hr1 Hr2. pose proof (e_len _ _ _ _ _ _ _ H1) as L1. pose proof (e_len _ _ _ _ _ _ _ H2) as L2. constructor.
  - lia.
  - intros r Hr. rewrite (e_who _ _ _ _ _ _ _ H2) by lia. now apply (e_who _ _ _ _ _ _ _ H1).
  - intros v. now rewrite (e_vars _ _ _ _ _ _ _ H2), (e_vars _ _ _ _ _ _ _ H1).
  - now rewrite (e_holders _ _ _ _ _ _ _ H2), (e_holders _ _ _ _ _ _ _ H1).
  - now rewrite (e_objs _ _ _ _ _ _ _ H2), (e_objs _ _ _ _ _ _ _ H1).
  - now rewrite (e_tr _ _ _ _ _ _ _ H2), (e_tr _ _ _ _ _ _ _ H1).
  - now rewrite (e_own _ _ _ _ _ _ _ H2), (e_own _ _ _ _ _ _ _ H1).
  - intros r Hr Nr Hg Hb.
    assert (N1 : Some r <> r1). { intros E. destruct (Hr1 r E) as [?|[?|(m & b & W & Hm)]]; [auto|lia|exact (Hb m b W Hm)]. }
    assert (N2 : Some r <> r2). { intros E. destruct (Hr2 r E) as [?|[?|(m & b & W & Hm)]]; [auto|lia|exact (Hb m b W Hm)]. }
    rewrite (e_frame _ _ _ _ _ _ _ H2).
    + apply (e_frame _ _ _ _ _ _ _ H1); auto.
      * intros v W k' Hk'. destruct (Hv1 _ _ Hk') as (k2 & Hk2). exact (Hg v W k2 Hk2).
      * intros m b W Hm. apply (Hb m b W). auto.
    + lia.
    + exact N2.
    + intros v W k' Hk'. rewrite (e_who _ _ _ _ _ _ _ H1) in W by assumption. destruct (Hv2 _ _ Hk') as (k2 & Hk2). exact (Hg v W k2 Hk2).
    + intros m b W Hm. rewrite (e_who _ _ _ _ _ _ _ H1) in W by assumption. apply (Hb m b W). auto.
  - intros k v Hk. pose proof (e_grad _ _ _ _ _ _ _ H2 k v Hk) as E2. rewrite (e_vars _ _ _ _ _ _ _ H1) in E2. rewrite E2.
    rewrite (e_grad _ _ _ _ _ _ _ H1 k v Hk). rewrite gather_app. apply gather_ext. intros k1 v1 g1 Hin.
    rewrite (e_vobj _ _ _ _ _ _ _ H1). unfold marks. rewrite (proj2 (hit_false d1 k1)); [reflexivity|]. intros k0 v0 g0 H0. exact (Hd _ _ _ _ _ _ H0 Hin).
  - intros k'. rewrite (e_vobj _ _ _ _ _ _ _ H2). unfold marks at 1. rewrite (e_vobj _ _ _ _ _ _ _ H1). unfold marks.
    assert (hit k' (d1 ++ d2) = hit k' d1 || hit k' d2) as -> by apply existsb_app.
    destruct (hit k' d1) eqn:X1, (hit k' d2) eqn:X2; cbn [orb]; try reflexivity.
    exfalso. apply existsb_exists in X1, X2. destruct X1 as ([[k1 v1] g1] & I1 & S1), X2 as ([[k2 v2] g2] & I2 & S2). cbn [fst] in S1, S2.
    destruct (slot_eqb_spec k1 k'), (slot_eqb_spec k2 k'); try discriminate. subst. exact (Hd _ _ _ _ _ _ I1 I2 eq_refl).
Qed.

Lemma safe_ext s s' who who' t : length (hp s) <= length (hp s') -> (forall r, r < length (hp s) -> who' r = who r) ->
  safe s who t -> safe s' who' t.
Proof. intros HL HW (u & -> & L & H1 & H2). exists u. split; [reflexivity|]. split; [lia|]. now rewrite HW. Qed.

(** the invariant only depends on storages a backward pass leaves alone *)
Lemma binv_ext x r0 ds s s' who who' : binv s who -> bext x r0 ds s s' who who' ->
  (forall k v, At e0 k (EVar v) -> length (nth (ref (vgrad (vars s v))) (hp s') []) = length (nth (ref (vgrad (vars s v))) (hp s) [])) ->
  (forall r, Some r = r0 -> (length (hp s) <= r \/ exists m b, who r = OBack m b)) ->
  (forall n b t, ownb s' n b = Some t -> who' (ref t) = OBack n b /\ ref t < length (hp s')) ->
  binv s' who'.
Proof.
  intros B X HL Hr0 HO. destruct B as [B0 B1 B2 B3 B4]. destruct B1 as (S1 & S2 & S3 & S4 & S5).
  pose proof (e_len _ _ _ _ _ _ _ X) as XL. pose proof (e_vars _ _ _ _ _ _ _ X) as XV. pose proof (e_objs _ _ _ _ _ _ _ X) as XO.
  pose proof (e_who _ _ _ _ _ _ _ X) as XW. pose proof (e_holders _ _ _ _ _ _ _ X) as XH.
  assert (F : forall r, r < length (hp s) -> (forall m b, who r <> OBack m b) -> (forall v, who r <> OGrad v) ->
                nth_error (hp s') r = nth_error (hp s) r).
  { intros r Hr Hb Hg. apply (e_frame _ _ _ _ _ _ _ X); auto.
    - intros E. destruct (Hr0 r (eq_sym (eq_sym E))) as [?|(m & b & W)]; [lia|exact (Hb m b W)].
    - intros v W. exfalso. exact (Hg v W).
    - intros m b W. exfalso. exact (Hb m b W). }
  assert (SV : forall t, safe s who t -> val_opt (hp s') t = val_opt (hp s) t).
  { intros t (u & -> & L & N1 & N2). cbn [val_opt]. apply val_of_eq. now apply F. }
  assert (SS : forall t, safe s who t -> safe s' who' t) by (intros t; now apply safe_ext).
  assert (FS : forall t, fst (val_opt (hp s') t) = fst (val_opt (hp s) t)) by (intros [u|]; reflexivity).
  constructor.
  - intros k y t H L E. apply Nat.lt_le_trans with (length (hp s)); [|exact XL]. apply (B0 k y t H L).
    destruct y; try discriminate; cbn [loc] in *; rewrite ?XV, ?XH in E; exact E.
  - split; [|split; [|split; [|split]]].
    + intros k v H. rewrite XV. destruct (S1 k v H) as (W1 & W2 & L). rewrite !XW; [split; [assumption|split; [assumption|lia]]|assumption|].
      apply (B0 k (EVar v)); auto.
    + intros k p t H E. rewrite XH in E. rewrite XW; [now apply (S2 k p)|]. apply (B0 k (EHold p)); auto.
    + intros k t H. rewrite XW; [now apply (S3 k)|]. apply (B0 k (EConst t)); auto.
    + intros n t E. rewrite (e_own _ _ _ _ _ _ _ X) in E. destruct (S4 n t E) as [W L]. rewrite XW by assumption. split; [assumption|lia].
    + exact HO.
  - intros k y H. specialize (B2 k y H). destruct y as [v|p|t|c|n [own f m b|f] c|n [|own f bown b] l r]; auto; cbn [reads] in *; rewrite XO.
    + destruct B2 as (i & R1 & R2 & R3 & R4 & R5). exists i. split; [assumption|]. rewrite !SV by assumption.
      split; [assumption|]. split; [auto|]. split; [auto|assumption].
    + destruct B2 as (i & R1 & R2). exists i. split; [assumption|]. now rewrite FS.
    + destruct B2 as (a & b & R1 & R2 & R3). exists a, b. split; [assumption|]. now rewrite !FS.
    + destruct B2 as (a & b' & R1 & R2 & R3 & R4 & R5 & R6 & R7). exists a, b'. split; [assumption|]. rewrite !SV by assumption.
      split; [assumption|]. split; [auto|]. split; [assumption|]. split; [auto|]. split; [auto|assumption].
  - intros k v H. rewrite XV. rewrite <- (B3 k v H). apply val_of_eq. destruct (S1 k v H) as (W1 & _ & _). apply F; try congruence.
    apply (B0 k (EVar v)); auto.
  - intros k v H. rewrite XV. destruct (B4 k v H) as [E1 E2]. split; [assumption|]. now rewrite (HL k v H).
Qed.

(** ** steps *)

Lemma grad_len s who k v : binv s who -> At e0 k (EVar v) -> ref (vgrad (vars s v)) < length (hp s) /\ who (ref (vgrad (vars s v))) = OGrad v.
Proof. intros B H. destruct (b_sep _ _ B) as (S1 & _). destruct (S1 k v H) as (_ & W & L). auto. Qed.

(** putting an outgoing gradient into a new tensor or the operator's own buffer *)
Lemma back_store x n side (b : bool) v s who : binv s who -> In n (ids x) ->
  exists t s' who', (if b then into_ownb n side v else new_tensor v) s = Ok (t, s') /\ binv s' who' /\ bext x None [] s s' who who' /\
    val_of (hp s') t = v /\ ref t < length (hp s') /\ who' (ref t) = OBack n side /\
    (forall r, r < length (hp s) -> r <> ref t -> nth_error (hp s') r = nth_error (hp s) r) /\
    (length (hp s) <= ref t \/ who (ref t) = OBack n side).
Proof.
  intros B Hn. destruct (b_sep _ _ B) as (S1 & S2 & S3 & S4 & S5).
  assert (New : forall s', hp s' = hp s ++ [snd v] -> vars s' = vars s -> holders s' = holders s -> objs s' = objs s -> training s' = training s ->
     own s' = own s -> vobjs s' = vobjs s ->
     (forall m c t, ownb s' m c = Some t -> ownb s m c = Some t \/ (m = n /\ c = side /\ ref t = length (hp s))) ->
     binv s' (who_new who (length (hp s)) (OBack n side)) /\ bext x None [] s s' who (who_new who (length (hp s)) (OBack n side))).
  { intros s' E1 E2 E3 E4 E5 E6 E7 E8.
    assert (X : bext x None [] s s' who (who_new who (length (hp s)) (OBack n side))).
    { constructor; auto.
      - rewrite E1, app_length. lia.
      - intros r Hr. now apply who_new_old.
      - intros w. now rewrite E2.
      - intros r Hr _ _ _. rewrite E1. now apply nth_error_app1.
      - intros k w H. rewrite E1. destruct (grad_len s who k w B H) as [L _]. apply app_nth1. exact L.
      - intros k'. now rewrite E7. }
    split; [|exact X]. apply (binv_ext x None [] s s' who _ B X).
    - intros k w H. now rewrite (e_grad _ _ _ _ _ _ _ X k w H).
    - discriminate.
    - intros m c t E. rewrite E1, app_length. cbn [length]. destruct (E8 m c t E) as [E'|(-> & -> & Er)].
      + destruct (S5 m c t E') as [W L]. rewrite who_new_old by assumption. split; [assumption|lia].
      + rewrite Er. split; [now apply who_new_new|lia]. }
  assert (Nth : nth (length (hp s)) (hp s ++ [snd v]) [] = snd v) by apply nth_middle.
  assert (Out : forall s', hp s' = hp s ++ [snd v] -> val_of (hp s') (mkT (fst v) (length (hp s))) = v /\ length (hp s) < length (hp s') /\
     (forall r, r < length (hp s) -> r <> length (hp s) -> nth_error (hp s') r = nth_error (hp s) r)).
  { intros s' ->. split; [unfold val_of; cbn [shape ref]; rewrite Nth; now destruct v|]. rewrite app_length. cbn [length]. split; [lia|].
    intros r Hr _. now apply nth_error_app1. }
  destruct b; [unfold into_ownb; destruct (ownb s n side) as [u|] eqn:Eu|].
  - destruct (S5 n side u Eu) as [W L].
    eexists (mkT (fst v) (ref u)), _, who. split; [reflexivity|].
    match goal with |- binv ?s1 _ /\ _ => set (s' := s1) end.
    assert (X : bext x None [] s s' who who).
    { constructor; auto; cbn [s' set_ownb set_hp hp vars].
      - now rewrite upd_length.
      - intros r Hr _ _ Hb. apply nth_error_upd_other. intros <-. exact (Hb n side W Hn).
      - intros k w H. destruct (grad_len s who k w B H) as [_ Wg]. apply nth_error_nth_eq. apply nth_error_upd_other. intros E. rewrite E in W. congruence. }
    split.
    { apply (binv_ext x None [] s s' who who B X).
      - intros k w H. now rewrite (e_grad _ _ _ _ _ _ _ X k w H).
      - discriminate.
      - intros m c t E. cbn [s' set_ownb set_hp hp ownb] in *. rewrite upd_length. unfold fupd in E. destruct (Nat.eqb_spec m n) as [->|Nm].
        + destruct (Bool.eqb c side) eqn:Ec.
          * apply eqb_prop in Ec. subst c. injection E as <-. cbn [ref]. auto.
          * now apply S5.
        + now apply S5. }
    split; [exact X|]. cbn [s' set_ownb set_hp hp ref]. rewrite upd_length.
    split; [unfold val_of; cbn [shape ref]; rewrite (repeat_len_nth _ _ _ (nth_error_upd_same _ _ _ L)); now destruct v|].
    split; [assumption|]. split; [assumption|]. split; [|now right].
    intros r Hr Nr. apply nth_error_upd_other. congruence.
  - eexists (mkT (fst v) (length (hp s))), _, _. split; [reflexivity|].
    match goal with |- binv ?s1 _ /\ _ => set (s' := s1) end.
    destruct (New s' eq_refl eq_refl eq_refl eq_refl eq_refl eq_refl eq_refl) as [B' X'].
    { intros m c t E. cbn [s' set_ownb set_hp ownb] in E. unfold fupd in E. destruct (Nat.eqb_spec m n) as [->|Nm]; [|now left].
      destruct (Bool.eqb c side) eqn:Ec; [|now left]. apply eqb_prop in Ec. subst c. injection E as <-. right. auto. }
    destruct (Out s' eq_refl) as (V1 & V2 & V3).
    split; [exact B'|]. split; [exact X'|]. split; [exact V1|]. split; [exact V2|]. split; [apply who_new_new; reflexivity|]. split; [exact V3|]. left. reflexivity.
  - eexists (mkT (fst v) (length (hp s))), _, _. split; [reflexivity|].
    match goal with |- binv ?s1 _ /\ _ => set (s' := s1) end.
    destruct (New s' eq_refl eq_refl eq_refl eq_refl eq_refl eq_refl eq_refl) as [B' X'].
    { intros m c t E. now left. }
    destruct (Out s' eq_refl) as (V1 & V2 & V3).
    split; [exact B'|]. split; [exact X'|]. split; [exact V1|]. split; [exact V2|]. split; [apply who_new_new; reflexivity|]. split; [exact V3|]. left. reflexivity.
Qed.

(** ** variables *)

Lemma nth_map2_eq {B C D} (f : B -> C -> D) l m : length (map2 f l m) = Nat.min (length l) (length m).
Proof. apply map2_length. Qed.

Lemma var_backward_ok k v g gv s who : At e0 k (EVar v) -> binv s who -> ref g < length (hp s) -> val_of (hp s) g = gv ->
  (exists m b, who (ref g) = OBack m b) -> fits q (k, v, gv) ->
  exists s', var_backward k v g s = Ok (tt, s') /\ binv s' who /\ bext (EVar v) (Some (ref g)) [(k, v, gv)] s s' who who /\
    nth_error (hp s') (ref g) = nth_error (hp s) (ref g).
Proof.
  intros H B Lg Eg (m & b & Wg) [F1 F2]. destruct (grad_len s who k v B H) as [L W].
  destruct (b_grad _ _ B k v H) as [Es El]. pose proof (b_var _ _ B k v H) as Ev.
  destruct (b_sep _ _ B) as (_ & _ & _ & _ & S5).
  destruct (Hsz k _ H ltac:(discriminate)) as (w & Ew & Lw & _). cbn in Ew. injection Ew as <-.
  assert (Sd : shape (vdata (vars s v)) = fst (e_var q v)) by (rewrite <- Ev; reflexivity).
  assert (Dd : nth (ref (vdata (vars s v))) (hp s) [] = snd (e_var q v)) by (rewrite <- Ev; reflexivity).
  unfold GraphModel.var_backward. rewrite (gbind_ok (get (fun s => vobjs s k)) _ s (vobjs s k) s eq_refl).
  set (o := vobjs s k). set (cur := nth (ref (vgrad (vars s v))) (hp s) []).
  (* a step that ends with a new gradient *)
  assert (Step : forall s' new, hp s' = upd (hp s) (ref (vgrad (vars s v))) new -> (forall w, vars s' w = vars s w) -> holders s' = holders s ->
     objs s' = objs s -> training s' = training s -> own s' = own s -> ownb s' = ownb s -> length new = length cur ->
     new = deliver o (snd (e_var q v)) cur (snd gv) -> (forall k', vobjs s' k' = if slot_eqb k k' then mark (vobjs s k') else vobjs s k') ->
     binv s' who /\ bext (EVar v) (Some (ref g)) [(k, v, gv)] s s' who who /\ nth_error (hp s') (ref g) = nth_error (hp s) (ref g)).
  { intros s' new E1 E2 E3 E4 E5 E6 E7 E8 E9 E10.
    assert (X : bext (EVar v) (Some (ref g)) [(k, v, gv)] s s' who who).
    { constructor; auto.
      - now rewrite E1, upd_length.
      - intros r Hr _ Hg _. rewrite E1. apply nth_error_upd_other. intros <-. exact (Hg v W None (At_root _)).
      - intros k' v' H'. rewrite E1. unfold GradSpec.gather. cbn [fold_left]. destruct (grad_len s who k' v' B H') as [L' W'].
        destruct (Nat.eqb_spec v v') as [<-|Nv].
        + rewrite (repeat_len_nth _ _ _ (nth_error_upd_same _ _ _ L)). exact E9.
        + apply nth_error_nth_eq. apply nth_error_upd_other. intros Er. rewrite Er in W. congruence.
      - intros k'. rewrite E10. unfold marks, hit. cbn [existsb fst]. now rewrite orb_false_r. }
    split; [|split; [exact X|]].
    - apply (binv_ext (EVar v) (Some (ref g)) [(k, v, gv)] s s' who who B X).
      + intros k' v' H'. rewrite E1. destruct (grad_len s who k' v' B H') as [L' W'].
        destruct (Nat.eq_dec (ref (vgrad (vars s v))) (ref (vgrad (vars s v')))) as [Er|Nr].
        * rewrite <- Er. rewrite (repeat_len_nth _ _ _ (nth_error_upd_same _ _ _ L)). exact E8.
        * f_equal. apply nth_error_nth_eq. now apply nth_error_upd_other.
      + intros r [= ->]. right. eauto.
      + intros n c t E. rewrite E7 in E. rewrite E1, upd_length. now apply S5.
    - rewrite E1. apply nth_error_upd_other. congruence. }
  destruct (trainable o) eqn:To; cbn [negb].
  2:{ exists s. split; [reflexivity|]. apply (Step s cur); auto.
      - symmetry. apply upd_self. unfold cur. apply nth_error_nth'. exact L.
      - unfold GradSpec.deliver. now rewrite To.
      - intros k'. destruct (slot_eqb_spec k k') as [<-|]; [|reflexivity]. unfold mark. fold o. now rewrite To. }
  rewrite (gbind_ok (get (fun s => vars s v)) _ s (vars s v) s eq_refl).
  assert (list_eqb (shape (vgrad (vars s v))) (shape (vdata (vars s v))) = true) as ->.
  { rewrite Es. destruct (list_eqb_spec (shape (vdata (vars s v))) (shape (vdata (vars s v)))); congruence. }
  rewrite (gbind_ok (gret (vgrad (vars s v))) _ s (vgrad (vars s v)) s eq_refl).
  set (s1 := set_vars s (fupd (vars s) v (VState (vdata (vars s v)) (vgrad (vars s v))))).
  rewrite (gbind_ok (modify (fun s0 => set_vars s0 (fupd (vars s0) v (VState (vdata (vars s v)) (vgrad (vars s v)))))) _ s tt s1 eq_refl).
  assert (V1 : forall w, vars s1 w = vars s w).
  { intros w. cbn [s1 set_vars vars]. unfold fupd. destruct (Nat.eqb_spec w v) as [->|]; [|reflexivity]. now destruct (vars s v). }
  assert (Ecur : nth_error (hp s) (ref (vgrad (vars s v))) = Some cur) by (apply nth_error_nth'; exact L).
  assert (Egv : nth_error (hp s) (ref g) = Some (snd gv)).
  { rewrite <- Eg. cbn [val_of snd]. apply nth_error_nth'. exact Lg. }
  assert (Lcur : length cur = length (snd gv)).
  { unfold cur. rewrite El, F2, F1, Sd. reflexivity. }
  set (c1 := map2 add cur (snd gv)).
  set (s2 := set_hp s1 (upd (hp s) (ref (vgrad (vars s v))) c1)).
  assert (Z : heaply (zip_inplace dbg add (vgrad (vars s v)) g) s1 = Ok (tt, s2)).
  { unfold heaply, zip_inplace. cbn [s1 set_vars hp].
    assert (Ha : better_assert dbg (list_eqb (shape (vgrad (vars s v))) (shape g)) (hp s) = Ok (tt, hp s)).
    { assert (list_eqb (shape (vgrad (vars s v))) (shape g) = true) as ->.
      { rewrite Es, Sd, <- F1, <- Eg. cbn [val_of fst]. destruct (list_eqb_spec (shape g) (shape g)); congruence. }
      unfold better_assert. destruct dbg; reflexivity. }
    rewrite (bind_ok _ _ _ _ _ Ha). rewrite (bind_ok _ _ (hp s) (hp s) cur) by (unfold data; now rewrite Ecur).
    rewrite (bind_ok _ _ (hp s) (hp s) (snd gv)) by (unfold data; now rewrite Egv).
    rewrite (proj2 (Nat.leb_le _ _)) by lia. reflexivity. }
  rewrite (gbind_ok _ _ _ _ _ Z).
  assert (Lc1 : length c1 = length cur) by (unfold c1; rewrite map2_length; lia).
  destruct (synced o) eqn:So.
  - exists s2. split; [reflexivity|]. apply (Step s2 c1); auto.
    + unfold GradSpec.deliver. rewrite To, So. reflexivity.
    + intros k'. cbn [s2 s1 set_hp set_vars vobjs]. destruct (slot_eqb_spec k k') as [<-|]; [|reflexivity].
      unfold mark. fold o. rewrite To. destruct o as [so to o1 o2]. cbn in So, To |- *. congruence.
  - rewrite (gbind_ok (get hp) _ s2 (hp s2) s2 eq_refl).
    set (reg := fun d x => l2_term one add mul leb eps o d (l1_term zero add opp leb eps o d x)).
    set (c2 := map2 reg (snd (e_var q v)) c1).
    assert (Ed2 : nth (ref (vdata (vars s v))) (hp s2) [] = snd (e_var q v)).
    { rewrite <- Dd. apply nth_error_nth_eq. cbn [s2 set_hp hp]. apply nth_error_upd_other.
      destruct (b_sep _ _ B) as (S1 & _). destruct (S1 k v H) as (Wd & _). congruence. }
    assert (Eg2 : nth (ref (vgrad (vars s v))) (hp s2) [] = c1).
    { cbn [s2 set_hp hp]. exact (repeat_len_nth _ _ _ (nth_error_upd_same _ _ _ L)). }
    rewrite Ed2, Eg2. fold reg. fold c2.
    set (s3 := set_hp s2 (upd (hp s) (ref (vgrad (vars s v))) c2)).
    assert (Z3 : heaply (store (vgrad (vars s v)) c2) s2 = Ok (tt, s3)).
    { unfold heaply, store. cbn [s2 set_hp hp]. unfold s3. rewrite upd_upd. reflexivity. }
    rewrite (gbind_ok _ _ _ _ _ Z3).
    set (s4 := set_vobjs s3 (supd (vobjs s3) k (VObj true true (l1 o) (l2 o)))).
    exists s4. split; [reflexivity|]. apply (Step s4 c2); auto.
    + unfold c2. rewrite map2_length, Lc1. unfold cur. rewrite El, Lw, Sd. lia.
    + unfold GradSpec.deliver. rewrite To, So. reflexivity.
    + intros k'. cbn [s4 s3 s2 s1 set_vobjs set_hp set_vars vobjs]. unfold supd.
      destruct (slot_eqb_spec k k') as [<-|Nk].
      * destruct (slot_eqb_spec k k); [|congruence]. unfold mark. fold o. now rewrite To.
      * destruct (slot_eqb_spec k' k); [congruence|reflexivity].
Qed.

(** ** whole passes *)

Lemma grads_slots x : forall k g ds, grads k x g = Some ds -> forall k' v g', In (k', v, g') ds ->
  (k' = k /\ x = EVar v) \/ exists m b, k' = Some (m, b) /\ In m (ids x).
Proof.
  induction x as [v|p|t|c|n o x IH|n o l IHl r IHr]; intros k g ds E k' w g' Hin; cbn [GradSpec.grads] in E.
  - injection E as <-. destruct Hin as [[= <- <- <-]|[]]. now left.
  - injection E as <-. destruct Hin.
  - injection E as <-. destruct Hin.
  - injection E as <-. destruct Hin.
  - right. destruct (eval x) as [i|]; [|discriminate]. cbn [obind2] in E. destruct (GradSpec.local1 o i g) as [g1|]; [|discriminate]. cbn [obind2] in E.
    destruct (IH _ _ _ E _ _ _ Hin) as [[-> _]|(m & b & -> & Hm)]; [exists n, false|exists m, b]; (split; [reflexivity|]); cbn; auto.
  - right. destruct (operands l r) as [[a b]|]; [|discriminate]. cbn [obind2 fst snd] in E.
    destruct (local2 zero add dbg o a b g) as [[gl gr]|]; [|discriminate]. cbn [obind2 fst snd] in E.
    destruct (grads (Some (n, false)) l gl) as [dl|] eqn:El; [|discriminate]. cbn [obind2] in E.
    destruct (grads (Some (n, true)) r gr) as [dr|] eqn:Er; [|discriminate]. injection E as <-.
    apply in_app_iff in Hin. destruct Hin as [Hin|Hin].
    + destruct (IHl _ _ _ El _ _ _ Hin) as [[-> _]|(m & c & -> & Hm)]; [exists n, false|exists m, c]; (split; [reflexivity|]); cbn; auto.
      right. apply in_app_iff. now left.
    + destruct (IHr _ _ _ Er _ _ _ Hin) as [[-> _]|(m & c & -> & Hm)]; [exists n, true|exists m, c]; (split; [reflexivity|]); cbn; auto.
      right. apply in_app_iff. now right.
Qed.

Definition goal_of (x : expr A) : Prop := forall k s who g gv ds, At e0 k x -> binv s who -> ref g < length (hp s) -> val_of (hp s) g = gv ->
  (exists m b, who (ref g) = OBack m b /\ ~ In m (ids x)) -> grads k x gv = Some ds -> Forall (fits q) ds ->
  exists s' who', backward k x g s = Ok (tt, s') /\ binv s' who' /\ bext x (Some (ref g)) ds s s' who who' /\
    Some (nth (ref g) (hp s') []) = seed_after x gv.

Lemma At_sub_var (x y : expr A) n b : At x (Some (n, b)) y -> forall k v, At y k (EVar v) -> exists k', At x k' (EVar v).
Proof. intros H k v Hv. destruct (At_trans _ _ _ H _ _ Hv) as (k' & H' & _). eauto. Qed.

Lemma un_backward_ok n o y : goal_of y -> goal_of (EUn n o y).
Proof.
  intros IH k s who g gv ds H B Lg Eg (m & b & Wg & Nm) Ed Hf. set (x := EUn n o y) in *.
  pose proof (At_un _ k n o y H) as Hy.
  assert (Axy : At x (Some (n, false)) y) by (apply (At_un _ None n o); constructor).
  assert (Nn : ~ In n (ids y)) by exact (no_cycle e0 (tree_consistent e0 Htree) _ _ _ Hy).
  assert (Hix : forall i, In i (ids x) \/ In i (ids y) -> In i (ids x)) by (intros i [?|?]; [assumption|now right]).
  cbn [x GradSpec.grads] in Ed. destruct (eval y) as [i|] eqn:Ei; [|discriminate]. cbn [obind2] in Ed.
  destruct (GradSpec.local1 o i gv) as [g1|] eqn:El; [|discriminate]. cbn [obind2] in Ed.
  pose proof (b_reads _ _ B k x H) as R.
  cbn [x GraphModel.backward]. rewrite (gbind_ok (get (fun s => objs s k)) _ s (objs s k) s eq_refl).
  (* the rest of the pass, from the state after the action *)
  assert (Rest : forall t s1 who1, un_backward n o (in1 (objs s k)) (out (objs s k)) g s = Ok (t, s1) -> binv s1 who1 ->
    bext x (Some (ref g)) [] s s1 who who1 -> val_of (hp s1) t = g1 -> ref t < length (hp s1) -> 
    (exists m' b', who1 (ref t) = OBack m' b' /\ ~ In m' (ids y)) ->
    (ref t = ref g \/ length (hp s) <= ref t \/ exists b', who (ref t) = OBack n b') ->
    exists s' who', (do g2 <- un_backward n o (in1 (objs s k)) (out (objs s k)) g; backward (Some (n, false)) y g2) s = Ok (tt, s') /\
      binv s' who' /\ bext x (Some (ref g)) ds s s' who who' /\ Some (nth (ref t) (hp s') []) = seed_after y g1 /\
      (ref t <> ref g -> nth_error (hp s') (ref g) = nth_error (hp s1) (ref g))).
  { intros t s1 who1 Ea B1 X1 Et Lt Wt Hr. destruct (IH (Some (n, false)) s1 who1 t g1 ds Hy B1 Lt Et Wt Ed Hf) as (s' & who' & F & B' & X' & Se).
    exists s', who'. rewrite (gbind_ok _ _ _ _ _ Ea). split; [exact F|]. split; [exact B'|]. split; [|split; [exact Se|]].
    - change ds with ([] ++ ds). apply (bext_trans x y x (Some (ref g)) (Some (ref t)) (Some (ref g)) [] ds s s1 s' who who1 who' X1 X').
      + intros ? ? ? ? ? ? [].
      + eauto.
      + exact (At_sub_var x y n false Axy).
      + exact Hix.
      + auto.
      + intros r [= ->]. destruct Hr as [->|[?|(b' & Wb)]]; [now left|right; now left|right; right]. exists n, b'. split; [assumption|now left].
    - intros Nt. pose proof (e_len _ _ _ _ _ _ _ X1). apply (e_frame _ _ _ _ _ _ _ X').
      + lia.
      + congruence.
      + intros v W. rewrite (e_who _ _ _ _ _ _ _ X1) in W by assumption. congruence.
      + intros m' b' W Hm'. rewrite (e_who _ _ _ _ _ _ _ X1) in W by assumption. rewrite Wg in W. injection W as <- <-. apply Nm. now right. }
  destruct o as [own f md bk|f].
  - cbn [x reads] in R. destruct R as (i' & R1 & R2 & R3 & R4 & R5). rewrite Ei in R1. injection R1 as <-.
    cbn [GradSpec.local1] in El. destruct (f i) as [y0|] eqn:Ef; [|discriminate]. cbn [obind2] in El.
    assert (Eb : bk (val_opt (hp s) (in1 (objs s k))) (val_opt (hp s) (out (objs s k))) (val_of (hp s) g) = Some g1).
    { rewrite R2, Eg. rewrite <- El. destruct R5 as [Bl|Ev]; [apply Bl|].
      cbn in Ev. rewrite Ei in Ev. cbn [obind2] in Ev. rewrite Ef in Ev. injection Ev as Ev. now rewrite <- Ev. }
    cbn [x GradSpec.seed_after]. rewrite Ei. cbn [obind2].
    destruct md.
    + (* new tensor *)
      destruct (back_store x n false false g1 s who B (or_introl eq_refl)) as (t & s1 & who1 & A1 & B1 & X1 & V1 & L1 & W1 & F1 & D1).
      assert (Nt : ref t <> ref g).
      { intros E. destruct D1 as [D1|D1]; [lia|]. rewrite E, Wg in D1. injection D1 as -> _. apply Nm. now left. }
      destruct (Rest t s1 who1) as (s' & who' & Q1 & Q2 & Q3 & Q4 & Q5); auto.
      * unfold un_backward. rewrite (gbind_ok (get hp) _ s (hp s) s eq_refl), Eb. exact A1.
      * destruct X1. constructor; auto.
        intros r Hr Nr Hg Hb. apply e_frame0; auto. discriminate.
      * exists n, false. auto.
      * destruct D1 as [?|?]; [auto|right; right; eauto].
      * exists s', who'. split; [exact Q1|]. split; [exact Q2|]. split; [exact Q3|]. rewrite (nth_error_nth_eq _ _ _ (Q5 Nt)).
        rewrite (nth_error_nth_eq _ _ _ (F1 _ Lg (not_eq_sym Nt))). rewrite <- Eg. reflexivity.
    + (* own buffer *)
      destruct (back_store x n false true g1 s who B (or_introl eq_refl)) as (t & s1 & who1 & A1 & B1 & X1 & V1 & L1 & W1 & F1 & D1).
      assert (Nt : ref t <> ref g).
      { intros E. destruct D1 as [D1|D1]; [lia|]. rewrite E, Wg in D1. injection D1 as -> _. apply Nm. now left. }
      destruct (Rest t s1 who1) as (s' & who' & Q1 & Q2 & Q3 & Q4 & Q5); auto.
      * unfold un_backward. rewrite (gbind_ok (get hp) _ s (hp s) s eq_refl), Eb. exact A1.
      * destruct X1. constructor; auto.
        intros r Hr Nr Hg Hb. apply e_frame0; auto. discriminate.
      * exists n, false. auto.
      * destruct D1 as [?|?]; [auto|right; right; eauto].
      * exists s', who'. split; [exact Q1|]. split; [exact Q2|]. split; [exact Q3|]. rewrite (nth_error_nth_eq _ _ _ (Q5 Nt)).
        rewrite (nth_error_nth_eq _ _ _ (F1 _ Lg (not_eq_sym Nt))). rewrite <- Eg. reflexivity.
    + (* over the incoming gradient *)
      set (s1 := set_hp s (upd (hp s) (ref g) (snd g1))). set (t := mkT (fst g1) (ref g)).
      assert (X1 : bext x (Some (ref g)) [] s s1 who who).
      { constructor; auto; cbn [s1 set_hp hp vars].
        - now rewrite upd_length.
        - intros r Hr Nr _ _. apply nth_error_upd_other. congruence.
        - intros k' v' H'. destruct (grad_len s who k' v' B H') as [L' W']. apply nth_error_nth_eq. apply nth_error_upd_other. intros Er.
          rewrite Er in Wg. congruence. }
      assert (B1 : binv s1 who).
      { apply (binv_ext x (Some (ref g)) [] s s1 who who B X1).
        - intros k' v' H'. now rewrite (e_grad _ _ _ _ _ _ _ X1 k' v' H').
        - intros r [= ->]. right. eauto.
        - intros n' c u E. cbn [s1 set_hp hp]. rewrite upd_length. destruct (b_sep _ _ B) as (_ & _ & _ & _ & S5). now apply S5. }
      destruct (Rest t s1 who) as (s' & who' & Q1 & Q2 & Q3 & Q4 & Q5); auto.
      * unfold un_backward. rewrite (gbind_ok (get hp) _ s (hp s) s eq_refl), Eb. reflexivity.
      * unfold val_of. cbn [t shape ref s1 set_hp hp]. rewrite (repeat_len_nth _ _ _ (nth_error_upd_same _ _ _ Lg)). now destruct g1.
      * cbn [t ref s1 set_hp hp]. now rewrite upd_length.
      * cbn [t ref]. exists m, b. split; [assumption|]. intros Hm. apply Nm. now right.
      * exists s', who'. split; [exact Q1|]. split; [exact Q2|]. split; [exact Q3|]. cbn [GradSpec.local1]. rewrite Ef. cbn [obind2]. rewrite El. exact Q4.
  - (* view *)
    cbn [x reads] in R. destruct R as (i' & R1 & R2). rewrite Ei in R1. injection R1 as <-.
    cbn [GradSpec.local1] in El. injection El as <-.
    cbn [x GradSpec.seed_after]. rewrite Ei. cbn [obind2].
    set (t := mkT (fst i) (ref g)).
    destruct (Rest t s who) as (s' & who' & Q1 & Q2 & Q3 & Q4 & Q5); auto.
    + unfold un_backward. rewrite (gbind_ok (get hp) _ s (hp s) s eq_refl), R2. reflexivity.
    + apply bext_refl.
    + unfold val_of. cbn [t shape ref]. rewrite <- Eg. reflexivity.
    + cbn [t ref]. exists m, b. split; [assumption|]. intros Hm. apply Nm. now right.
    + exists s', who'. split; [exact Q1|]. split; [exact Q2|]. split; [exact Q3|]. exact Q4.
Qed.

Lemma bext_none x r0 ds s s' who who' : bext x None ds s s' who who' -> bext x r0 ds s s' who who'.
Proof. intros []. constructor; auto. intros r Hr Nr Hg Hb. apply e_frame0; auto. discriminate. Qed.

Lemma bin_backward_ok n o l r : goal_of l -> goal_of r -> goal_of (EBin n o l r).
Proof.
  intros IHl IHr k s who g gv ds H B Lg Eg (m & b & Wg & Nm) Ed Hf. set (x := EBin n o l r) in *.
  pose proof (At_left _ k n o l r H) as Hl. pose proof (At_right _ k n o l r H) as Hr.
  assert (Axl : At x (Some (n, false)) l) by (apply (At_left _ None n o l r); constructor).
  assert (Axr : At x (Some (n, true)) r) by (apply (At_right _ None n o l r); constructor).
  assert (Nl : ~ In n (ids l)) by exact (no_cycle e0 (tree_consistent e0 Htree) _ _ _ Hl).
  assert (Nr : ~ In n (ids r)) by exact (no_cycle e0 (tree_consistent e0 Htree) _ _ _ Hr).
  assert (Hil : forall i, In i (ids l) -> In i (ids x)) by (intros i Hi; right; apply in_app_iff; now left).
  assert (Hir : forall i, In i (ids r) -> In i (ids x)) by (intros i Hi; right; apply in_app_iff; now right).
  cbn [x GradSpec.grads] in Ed. destruct (operands l r) as [[a c]|] eqn:Eo; [|discriminate]. cbn [obind2 fst snd] in Ed.
  destruct (local2 zero add dbg o a c gv) as [[gl gr]|] eqn:El; [|discriminate]. cbn [obind2 fst snd] in Ed.
  destruct (grads (Some (n, false)) l gl) as [dl|] eqn:Edl; [|discriminate]. cbn [obind2] in Ed.
  destruct (grads (Some (n, true)) r gr) as [dr|] eqn:Edr; [|discriminate]. injection Ed as <-.
  apply Forall_app in Hf. destruct Hf as [Hfl Hfr].
  pose proof (b_reads _ _ B k x H) as R.
  cbn [x GraphModel.backward]. rewrite (gbind_ok (get (fun s => objs s k)) _ s (objs s k) s eq_refl).
  (* the action *)
  assert (exists tl tr s2 who2, bin_backward zero add dbg n o (in1 (objs s k)) (in2 (objs s k)) (out (objs s k)) g s = Ok ((tl, tr), s2) /\
    binv s2 who2 /\ bext x None [] s s2 who who2 /\ val_of (hp s2) tl = gl /\ val_of (hp s2) tr = gr /\
    ref tl < length (hp s2) /\ ref tr < length (hp s2) /\ who2 (ref tl) = OBack n false /\ who2 (ref tr) = OBack n true /\
    (length (hp s) <= ref tl \/ who (ref tl) = OBack n false) /\ (length (hp s) <= ref tr \/ who (ref tr) = OBack n true) /\
    nth_error (hp s2) (ref g) = nth_error (hp s) (ref g))
    as (tl & tr & s2 & who2 & Ea & B2 & X2 & Vl & Vr & Ll & Lr & Wl & Wr & Dl & Dr & Fg).
  { assert (Two : forall bown : bool, exists tl tr s2 who2,
      (do tl <- (if bown then into_ownb n false gl else new_tensor gl); do tr <- (if bown then into_ownb n true gr else new_tensor gr); gret (tl, tr)) s
        = Ok ((tl, tr), s2) /\
      binv s2 who2 /\ bext x None [] s s2 who who2 /\ val_of (hp s2) tl = gl /\ val_of (hp s2) tr = gr /\
      ref tl < length (hp s2) /\ ref tr < length (hp s2) /\ who2 (ref tl) = OBack n false /\ who2 (ref tr) = OBack n true /\
      (length (hp s) <= ref tl \/ who (ref tl) = OBack n false) /\ (length (hp s) <= ref tr \/ who (ref tr) = OBack n true) /\
      nth_error (hp s2) (ref g) = nth_error (hp s) (ref g)).
    { intros bown.
      destruct (back_store x n false bown gl s who B (or_introl eq_refl)) as (tl & s1 & who1 & A1 & B1 & X1 & V1 & L1 & W1 & F1 & D1).
      destruct (back_store x n true bown gr s1 who1 B1 (or_introl eq_refl)) as (tr & s2 & who2 & A2 & B2 & X2 & V2 & L2 & W2 & F2 & D2).
      assert (Ntr : ref tl <> ref tr).
      { intros E. destruct D2 as [D2|D2]; [lia|]. rewrite <- E in D2. congruence. }
      assert (Ngl : ref g <> ref tl).
      { intros E. destruct D1 as [D1|D1]; [lia|]. rewrite <- E, Wg in D1. injection D1 as -> _. apply Nm. now left. }
      pose proof (e_len _ _ _ _ _ _ _ X1) as XL1.
      assert (Ngr : ref g <> ref tr).
      { intros E. destruct D2 as [D2|D2]; [lia|]. rewrite <- E, (e_who _ _ _ _ _ _ _ X1) in D2 by assumption. rewrite Wg in D2. injection D2 as -> _. apply Nm. now left. }
      exists tl, tr, s2, who2. split.
      { rewrite (gbind_ok _ _ _ _ _ A1), (gbind_ok _ _ _ _ _ A2). reflexivity. }
      split; [exact B2|]. split.
      { change (@nil (delivery (A:=A))) with (@nil (delivery (A:=A)) ++ []).
        apply (bext_trans x x x None None None [] [] s s1 s2 who who1 who2 X1 X2); try (intros ? ? ? ? ? ? []; fail); try discriminate; try tauto; eauto. }
      split; [rewrite <- V1; apply val_of_eq, F2; assumption|]. split; [exact V2|]. pose proof (e_len _ _ _ _ _ _ _ X2). split; [lia|]. split; [exact L2|].
      split; [now rewrite (e_who _ _ _ _ _ _ _ X2)|]. split; [exact W2|]. split; [exact D1|]. split.
      { destruct (lt_dec (ref tr) (length (hp s))) as [Q|Q]; [right|left; lia]. rewrite <- (e_who _ _ _ _ _ _ _ X1) by assumption.
        destruct D2 as [D2|D2]; [lia|exact D2]. }
      rewrite F2 by (assumption || lia). now apply F1. }
    destruct o as [|own f bown bk].
    - cbn [x reads] in R. destruct R as (a' & c' & R1 & R2 & R3). assert (a' = a /\ c' = c) as [-> ->] by (split; congruence).
      cbn [local2] in El. destruct (unbroadcast zero add dbg (fst a) gv) as [u1|] eqn:U1; [|discriminate]. cbn [obind2] in El.
      destruct (unbroadcast zero add dbg (fst c) gv) as [u2|] eqn:U2; [|discriminate]. cbn [obind2] in El. injection El as -> ->.
      destruct (Two false) as (tl & tr & s2 & who2 & Q & Qs). exists tl, tr, s2, who2. split; [|exact Qs].
      unfold bin_backward. rewrite (gbind_ok (get hp) _ s (hp s) s eq_refl), R2, R3, Eg, U1.
      rewrite (gbind_ok (the (Some gl)) _ s gl s eq_refl). unfold gbind at 1.
      unfold gbind at 1 in Q. destruct (new_tensor gl s) as [[t1 q1]| |]; [|exact Q|exact Q]. rewrite U2. rewrite (gbind_ok (the (Some gr)) _ q1 gr q1 eq_refl). exact Q.
    - cbn [x reads] in R. destruct R as (a' & c' & R1 & R2 & R3 & R4 & R5 & R6 & R7). assert (a' = a /\ c' = c) as [-> ->] by (split; congruence).
      cbn [local2] in El. destruct (f a c) as [y0|] eqn:Ef; [|discriminate]. cbn [obind2] in El.
      assert (Eb : bk (val_opt (hp s) (in1 (objs s k))) (val_opt (hp s) (in2 (objs s k))) (val_opt (hp s) (out (objs s k))) (val_of (hp s) g) = Some (gl, gr)).
      { rewrite R2, R4, Eg. rewrite <- El. destruct R7 as [Bl|Ev]; [apply Bl|].
        unfold x in Ev. rewrite eval_bin in Ev. rewrite R1 in Ev. cbn [obind2 fst snd] in Ev. rewrite Ef in Ev. injection Ev as Ev. now rewrite <- Ev. }
      destruct (Two bown) as (tl & tr & s2 & who2 & Q & Qs). exists tl, tr, s2, who2. split; [|exact Qs].
      unfold bin_backward. rewrite (gbind_ok (get hp) _ s (hp s) s eq_refl), Eb. rewrite (gbind_ok (the (Some (gl, gr))) _ s (gl, gr) s eq_refl).
      cbn [fst snd]. destruct bown; exact Q. }
  rewrite (gbind_ok _ _ _ _ _ Ea). cbn [fst snd].
  pose proof (e_len _ _ _ _ _ _ _ X2) as XL2.
  assert (Ngl : ref g <> ref tl).
  { intros E. destruct Dl as [D1|D1]; [lia|]. rewrite <- E, Wg in D1. injection D1 as -> _. apply Nm. now left. }
  assert (Ngr : ref g <> ref tr).
  { intros E. destruct Dr as [D1|D1]; [lia|]. rewrite <- E, Wg in D1. injection D1 as -> _. apply Nm. now left. }
  assert (Nlr : ref tl <> ref tr) by congruence.
  destruct (IHl (Some (n, false)) s2 who2 tl gl dl Hl B2 Ll Vl ltac:(exists n, false; auto) Edl Hfl) as (s3 & who3 & F3 & B3 & X3 & _).
  rewrite (gbind_ok _ _ _ _ _ F3). pose proof (e_len _ _ _ _ _ _ _ X3) as XL3.
  assert (Vr3 : val_of (hp s3) tr = gr).
  { rewrite <- Vr. apply val_of_eq. apply (e_frame _ _ _ _ _ _ _ X3); [assumption|congruence|congruence|].
    intros m' b' W. rewrite Wr in W. injection W as <- <-. exact Nl. }
  assert (Wr3 : who3 (ref tr) = OBack n true) by now rewrite (e_who _ _ _ _ _ _ _ X3).
  destruct (IHr (Some (n, true)) s3 who3 tr gr dr Hr B3 ltac:(lia) Vr3 ltac:(exists n, true; auto) Edr Hfr) as (s4 & who4 & F4 & B4 & X4 & _).
  exists s4, who4. split; [exact F4|]. split; [exact B4|]. split.
  - assert (X24 : bext x (Some (ref g)) (dl ++ dr) s2 s4 who2 who4).
    { apply (bext_trans l r x (Some (ref tl)) (Some (ref tr)) (Some (ref g)) dl dr s2 s3 s4 who2 who3 who4 X3 X4).
      - intros k1 v1 g1 k2 v2 g2 I1 I2 ->.
        destruct (grads_slots l _ _ _ Edl _ _ _ I1) as [[E1 _]|(m1 & b1 & E1 & H1)], (grads_slots r _ _ _ Edr _ _ _ I2) as [[E2 _]|(m2 & b2 & E2 & H2)]; rewrite E1 in E2; injection E2 as; subst.
        + discriminate.
        + exact (Nr H2).
        + exact (Nl H1).
        + exact (tree_disjoint e0 Htree k n o l r m2 H H1 H2).
      - exact (At_sub_var x l n false Axl).
      - exact (At_sub_var x r n true Axr).
      - intros i [Hi|Hi]; auto.
      - intros r' [= ->]. right. right. exists n, false. split; [assumption|now left].
      - intros r' [= ->]. right. right. exists n, true. split; [assumption|now left]. }
    change (dl ++ dr) with ([] ++ (dl ++ dr)).
    apply (bext_trans x x x None (Some (ref g)) (Some (ref g)) [] (dl ++ dr) s s2 s4 who who2 who4 X2 X24); try (intros ? ? ? ? ? ? []; fail); try discriminate; try tauto; eauto.
  - cbn [x GradSpec.seed_after]. f_equal. rewrite <- Eg. cbn [val_of snd].
    assert (Wg2 : who2 (ref g) = OBack m b) by now rewrite (e_who _ _ _ _ _ _ _ X2).
    assert (Wg3 : who3 (ref g) = OBack m b) by (rewrite (e_who _ _ _ _ _ _ _ X3); [assumption|lia]).
    apply nth_error_nth_eq. rewrite (e_frame _ _ _ _ _ _ _ X4); [|lia|congruence|congruence|].
    2:{ intros m' b' W Hm'. rewrite Wg3 in W. injection W as <- <-. apply Nm. auto. }
    rewrite (e_frame _ _ _ _ _ _ _ X3); [exact Fg|lia|congruence|congruence|].
    intros m' b' W Hm'. rewrite Wg2 in W. injection W as <- <-. apply Nm. auto.
Qed.

Theorem backward_ok x : goal_of x.
Proof.
  induction x as [v|p|t|c|n o y IH|n o l IHl r IHr].
  - intros k s who g gv ds H B Lg Eg (m & b & Wg & _) Ed Hf. cbn [GradSpec.grads] in Ed. injection Ed as <-. inversion Hf as [|? ? Hf1 _]; subst.
    destruct (var_backward_ok k v g (val_of (hp s) g) s who H B Lg eq_refl ltac:(eauto) Hf1) as (s' & F & B' & X' & Fg).
    exists s', who. split; [exact F|]. split; [exact B'|]. split; [exact X'|]. cbn [GradSpec.seed_after val_of snd]. f_equal. now apply nth_error_nth_eq.
  - intros k s who g gv ds H B Lg Eg _ Ed Hf. injection Ed as <-. exists s, who. split; [reflexivity|]. split; [exact B|]. split; [apply bext_refl|]. now rewrite <- Eg.
  - intros k s who g gv ds H B Lg Eg _ Ed Hf. injection Ed as <-. exists s, who. split; [reflexivity|]. split; [exact B|]. split; [apply bext_refl|]. now rewrite <- Eg.
  - intros k s who g gv ds H B Lg Eg _ Ed Hf. injection Ed as <-. exists s, who. split; [reflexivity|]. split; [exact B|]. split; [apply bext_refl|]. now rewrite <- Eg.
  - now apply un_backward_ok.
  - now apply bin_backward_ok.
Qed.

End Back.
