(** Runs of losses whose left operand is a place holder, continued: the whole run. *)
From Coq Require Import List Arith Lia Bool PeanoNat.
From Verif Require Import ListBase TensorModel TensorSpec TensorProofs TensorProofs2 GraphModel GraphSpec GraphProofs GraphProofs2
  GraphProofs3 GraphProofs4 GradSpec GradProofs GradProofs2 GraphProps ComplexRun LossRun.
Import ListNotations.

Section Spine.
Context {A : Type} (zero one : A) (add mul : A -> A -> A).
Variable dbg : bool.
Variable q : env A.
Notation eval := (eval zero one add mul).
Notation reads := (reads zero one add mul q).

(** the slot of a sub-expression of x when x itself is in slot kx *)
Definition under (kx k : slot) : slot := match k with None => kx | _ => k end.
Definition plain (x : expr A) : Prop := match x with EUn _ (UNew _ _ _ _) _ | EBin _ (BNew _ _ _ _) _ _ => True | _ => False end.
Definition binary (x : expr A) : Prop := match x with EBin _ _ _ _ => True | _ => False end.

(** x, in slot kx, has been computed: its value is in t *)
Record finished (kx : slot) (x : expr A) (s : st A) (who : nat -> owner) (t : tensor) (v : val A) : Prop := {
  f_reads : forall k y, At x k y -> reads s who (under kx k) y;
  f_own : forall k y u m, At x k y -> plain y ->
    in1 (objs s (under kx k)) = Some u \/ (binary y /\ in2 (objs s (under kx k)) = Some u) \/ out (objs s (under kx k)) = Some u ->
    who (ref u) = OOp m -> In m (ids x);
  f_eval : eval q x = Some v;
  f_val : val_of (hp s) t = v;
  f_live : ref t < length (hp s);
  f_who : who (ref t) = OLeaf \/ exists m, who (ref t) = OOp m /\ In m (ids x);
  f_buf : forall n t, own s n = Some t -> who (ref t) = OOp n /\ ref t < length (hp s)
}.

(** what a step of an operator n leaves alone *)
Record kept (n : nat) (s s' : st A) (who who' : nat -> owner) : Prop := {
  k_vars : vars s' = vars s;
  k_hold : holders s' = holders s;
  k_tr : training s' = training s;
  k_ownb : ownb s' = ownb s;
  k_vobj : vobjs s' = vobjs s;
  k_len : length (hp s) <= length (hp s');
  k_who : forall a, a < length (hp s) -> who' a = who a;
  k_frame : forall a, a < length (hp s) -> who a <> OOp n -> nth_error (hp s') a = nth_error (hp s) a
}.

Lemma At_under n o (x : expr A) k y : At (EUn n o x) k y -> (k = None /\ y = EUn n o x) \/ exists k', At x k' y /\ k = under (Some (n, false)) k'.
Proof.
  intros H. induction H as [|k m o' y H IH|k m o' l r H IH|k m o' l r H IH]; [now left| | |];
    right; (destruct IH as [[_ E]|(k' & Hk & _)]; [try discriminate E|]).
  - injection E as -> _ ->. exists None. split; [constructor|reflexivity].
  - exists (Some (m, false)). split; [exact (At_un _ _ _ _ _ Hk)|reflexivity].
  - exists (Some (m, false)). split; [exact (At_left _ _ _ _ _ _ Hk)|reflexivity].
  - exists (Some (m, true)). split; [exact (At_right _ _ _ _ _ _ Hk)|reflexivity].
Qed.

Lemma under_in (x : expr A) k y n : At x k y -> forall m b, under (Some (n, false)) k = Some (m, b) -> In m (n :: ids x).
Proof.
  intros H m b E. destruct k as [[m' b']|]; cbn [under] in E; [injection E as -> ->; right|injection E as -> _; now left].
  inversion H; subst; match goal with H : At _ _ _ |- _ => apply (ids_At x m); eexists _, _; split; [exact H|reflexivity] end.
Qed.

Lemma step_finished n own_ f m b k x s who t v v' : finished (Some (n, false)) x s who t v -> ~ In n (ids x) ->
  (forall m b, k = Some (m, b) -> ~ In m (n :: ids x)) -> f v = Some v' ->
  exists t' s' who',
    gbind (put_in1 k (Some t)) (fun _ => gbind (un_forward n (UNew own_ f m b) t) (fun t => gbind (put_out k (Some t)) (fun _ =>
      gbind (update n t) (fun _ => gbind (modify (fun s => set_ran s (n :: ran s))) (fun _ => gret t))))) s = Ok (t', s') /\
    finished k (EUn n (UNew own_ f m b) x) s' who' t' v' /\ kept n s s' who who'.
Proof.
  intros F Hn Hk Ef.
  rewrite (gbind_ok (put_in1 k (Some t)) _ s tt (set_objs s (supd (objs s) k (Obj (Some t) (in2 (objs s k)) (out (objs s k))))) eq_refl).
  set (s1 := set_objs s _).
  pose proof F as [F1 F2 F3 F4 F5 F6 F7].
  destruct (un_step n own_ f m b t s1 who v') as (t' & h' & own' & who' & E1 & E2 & E3 & E4 & E5 & E6 & E7 & E8); [exact F7|cbn [s1 set_objs hp]; congruence|].
  rewrite (gbind_ok _ _ _ _ _ E1), conclude_ok. cbn [s1 set_objs hp] in E5, E6, E7.
  set (s2 := finish s1 k n t' h' own').
  assert (Hs2 : hp s2 = h') by reflexivity.
  assert (Ok_ : objs s2 k = Obj (Some t) (in2 (objs s k)) (Some t')).
  { unfold s2, finish. cbn. unfold supd. destruct (slot_eqb_spec k k) as [_|N]; [reflexivity|contradiction]. }
  assert (Oo : forall k' y, At x k' y -> objs s2 (under (Some (n, false)) k') = objs s (under (Some (n, false)) k')).
  { intros k' y H. assert (N : under (Some (n, false)) k' <> k).
    { intros E. pose proof (under_in x k' y n H) as U. rewrite E in U. destruct k as [[m' b']|]; [exact (Hk m' b' eq_refl (U m' b' eq_refl))|].
      destruct k'; discriminate E. }
    unfold s2, finish. cbn. unfold supd. destruct (slot_eqb_spec (under (Some (n, false)) k') k) as [E|_]; [contradiction|].
    destruct (slot_eqb_spec (under (Some (n, false)) k') k) as [E|_]; [contradiction|reflexivity]. }
  exists t', s2, who'. split; [reflexivity|].
  assert (Wt : who (ref t) <> OOp n /\ (forall m b, who (ref t) <> OBack m b) /\ (forall v, who (ref t) <> OGrad v)).
  { destruct F6 as [E|(m' & E & Hm)]; rewrite E; (split; [|split; discriminate]); [discriminate|]. intros [= ->]. contradiction. }
  split.
  - constructor.
    + intros k1 y H. destruct (At_under _ _ _ _ _ H) as [[-> ->]|(k' & Hy & ->)].
      * cbn [under GradProofs.reads]. exists v. rewrite Ok_. cbn [in1 out val_opt]. split; [exact F3|].
        split; [rewrite Hs2, (val_of_eq _ _ _ (E7 _ F5 (proj1 Wt))); exact F4|].
        split; [exists t; split; [reflexivity|]; split; [rewrite Hs2; lia|]; rewrite (E6 _ F5); exact (proj2 Wt)|].
        split; [exists t'; split; [reflexivity|]; split; [rewrite Hs2; exact E3|]; rewrite E4; split; discriminate|].
        right. cbn [GraphSpec.eval obind2]. rewrite F3. cbn [obind2]. rewrite Hs2, E2. exact Ef.
      * assert (U : under k (under (Some (n, false)) k') = under (Some (n, false)) k') by (destruct k'; reflexivity). rewrite U.
        refine (reads_kept zero one add mul q (fun m => In m (ids x)) s s2 who who' _ (under (Some (n, false)) k') y (Oo k' y Hy) ltac:(rewrite Hs2; lia) _ _ (F1 k' y Hy)).
        -- intros a Ha B1 B2 B3. rewrite Hs2, (E6 a Ha). split; [|split; assumption]. apply E7; [exact Ha|]. intros W. exact (Hn (B3 n W)).
        -- intros u m' Py Hu W. exact (F2 k' y u m' Hy Py Hu W).
    + intros k1 y u m' H Py Hu W. destruct (At_under _ _ _ _ _ H) as [[-> ->]|(k' & Hy & ->)].
      * cbn [under] in Hu. rewrite Ok_ in Hu. cbn [in1 out] in Hu. destruct Hu as [[= <-]|[[[] _]|[= <-]]].
        -- right. rewrite (E6 _ F5) in W. destruct F6 as [E|(m2 & E & Hm)]; [congruence|]. rewrite E in W. injection W as <-. exact Hm.
        -- left. congruence.
      * assert (U : under k (under (Some (n, false)) k') = under (Some (n, false)) k') by (destruct k'; reflexivity). rewrite U in Hu.
        rewrite (Oo k' y Hy) in Hu. right. refine (F2 k' y u m' Hy Py Hu _). rewrite <- W. symmetry. apply E6.
        destruct (Nat.lt_ge_cases (ref u) (length (hp s))) as [L|L]; [exact L|exfalso].
        assert (Sf : forall o, safe s who o -> o = Some u -> False) by (intros o (u' & E & L' & _) E'; rewrite E' in E; injection E as <-; lia).
        pose proof (F1 k' y Hy) as R. destruct y as [| | | |i [ow g mo bk|g] c|i [|ow g bo bk] l r']; try contradiction; cbn [GradProofs.reads] in R.
        -- destruct R as (w & _ & _ & S1 & S2 & _). destruct Hu as [Hu|[[[] _]|Hu]]; eauto.
        -- destruct R as (a & b' & _ & _ & S1 & _ & S2 & S3 & _). destruct Hu as [Hu|[[_ Hu]|Hu]]; eauto.
    + cbn [GraphSpec.eval]. rewrite F3. exact Ef.
    + now rewrite Hs2.
    + now rewrite Hs2.
    + right. exists n. split; [exact E4|now left].
    + rewrite Hs2. exact E8.
  - constructor; try reflexivity; rewrite ?Hs2; auto.
Qed.


(** ** the sum *)
Variables (n1 p : nat) (r : expr A).
Hypothesis Vr : is_value r = false.
Hypothesis Htree : NoDup (n1 :: ids r).
Hypothesis Zr : sizes_ok zero one add mul q r.
Hypothesis Dr : disciplined zero one add mul q r.
Hypothesis Lr : legible zero one add mul q r.
Notation sum := (EBin n1 BPlus (EHold p) r).
Variables (sh : list nat) (x y : list A) (a0 : nat).
Hypothesis Lx : length x = prod sh.
Hypothesis Nx : x <> [].
Hypothesis Er : eval q r = Some (sh, y).
Notation forward := (forward zero one add mul dbg).

(** the state before: the target is bound, and nothing of the prediction is in its storage *)
Record ready (s : st A) (who : nat -> owner) : Prop := {
  r_env : env_of s = q;
  r_cache : forall n, cache s n = None;
  r_sep : separate r s who;
  r_grad : graded r s;
  r_hold : holders s p = Some (mkT sh a0);
  r_data : nth_error (hp s) a0 = Some x;
  r_who : who a0 = OLeaf;
  r_apart : forall k z u, At r k z -> is_leaf z = true -> loc s z = Some u -> ref u <> a0
}.

(** what the pass changes *)
Record change (s s' : st A) (who who' : nat -> owner) : Prop := {
  g_vars : vars s' = vars s;
  g_hold : holders s' = holders s;
  g_tr : training s' = training s;
  g_len : length (hp s) <= length (hp s');
  g_who : forall a, a < length (hp s) -> who' a = who a;
  g_frame : forall a, a < length (hp s) -> a <> a0 -> (forall n, who a <> OOp n) -> (forall v, who a <> OGrad v) -> nth_error (hp s') a = nth_error (hp s) a;
  g_target : nth_error (hp s') a0 = Some (map2 add x y);
  g_vobj : forall k, trainable (vobjs s' k) = trainable (vobjs s k) /\ l1 (vobjs s' k) = l1 (vobjs s k) /\ l2 (vobjs s' k) = l2 (vobjs s k);
  g_train : training s = true -> forall k v, At r k (EVar v) ->
    nth (ref (vgrad (vars s v))) (hp s') [] = repeat zero (prod (shape (vdata (vars s v)))) /\ synced (vobjs s' (down n1 k)) = false;
  g_test : training s = false -> forall k v, At r k (EVar v) ->
    nth (ref (vgrad (vars s v))) (hp s') [] = nth (ref (vgrad (vars s v))) (hp s) [] /\ synced (vobjs s' (down n1 k)) = synced (vobjs s (down n1 k));
  g_ownb : ownb s' = ownb s
}.

Lemma Vr' : forall c, r <> EVal c. Proof. intros c ->. discriminate. Qed.

Lemma At_sum k z : At sum k z -> (k = None /\ z = sum) \/ (k = Some (n1, false) /\ z = EHold p) \/ exists k', At r k' z /\ k = down n1 k'.
Proof.
  intros H. induction H as [|k n o z H IH|k n o l r' H IH|k n o l r' H IH].
  - auto.
  - destruct IH as [[_ E]|[[_ E]|(k' & Hk & _)]]; try discriminate E.
    right; right. exists (Some (n, false)). split; [exact (At_un _ _ _ _ _ Hk)|reflexivity].
  - destruct IH as [[_ E]|[[_ E]|(k' & Hk & _)]]; try discriminate E; [injection E as -> _ -> _; auto|].
    right; right. exists (Some (n, false)). split; [exact (At_left _ _ _ _ _ _ Hk)|reflexivity].
  - destruct IH as [[_ E]|[[_ E]|(k' & Hk & _)]]; try discriminate E.
    + injection E as -> _ _ ->. right; right. exists None. split; [constructor|reflexivity].
    + right; right. exists (Some (n, true)). split; [exact (At_right _ _ _ _ _ _ Hk)|reflexivity].
Qed.

Lemma down_in k z : At r k z -> forall m b, down n1 k = Some (m, b) -> In m (n1 :: ids r).
Proof.
  intros H m b E. destruct k as [[m' b']|]; cbn [down] in E; [injection E as -> ->; right|injection E as -> _; now left].
  inversion H; subst; match goal with H : At _ _ _ |- _ => apply (ids_At r m); eexists _, _; split; [exact H|reflexivity] end.
Qed.

Notation frame0 := (frame0 zero n1 r).
Notation inv := (GraphProofs2.inv zero one add mul frame0 q).

Definition lock (who : nat -> owner) : nat -> owner := fun a => if a =? a0 then OBack n1 false else who a.
Definition unlock (who : nat -> owner) : nat -> owner := fun a => if a =? a0 then OLeaf else who a.

Lemma At_frame_leaf k z : At frame0 k z -> is_leaf z = true -> exists k', At r k' z.
Proof. intros H L. destruct (At_frame _ _ _ _ _ H) as [[_ ->]|[->|(k' & H' & _)]]; [discriminate L|discriminate L|eauto]. Qed.

Lemma lock_ready s who : ready s who -> inv s (lock who).
Proof.
  intros [R1 R2 R3 R4 R5 R6 R7 R8].
  assert (Ne : forall a, who a <> OLeaf -> lock who a = who a).
  { intros a N. unfold lock. destruct (Nat.eqb_spec a a0) as [->|]; [contradiction|reflexivity]. }
  assert (Nl : forall k z u, At frame0 k z -> is_leaf z = true -> loc s z = Some u -> lock who (ref u) = who (ref u)).
  { intros k z u H L E. destruct (At_frame_leaf k z H L) as (k' & H'). specialize (R8 k' z u H' L E). unfold lock.
    destruct (Nat.eqb_spec (ref u) a0); [contradiction|reflexivity]. }
  constructor.
  - destruct R3 as (S1 & S2 & S3 & S4 & S5). split; [|split; [|split; [|split]]].
    + intros k v H. destruct (At_frame_leaf k _ H eq_refl) as (k' & H'). destruct (S1 k' v H') as (E1 & E2 & E3).
      rewrite (Nl k (EVar v) _ H eq_refl eq_refl). rewrite (Ne (ref (vgrad (vars s v)))) by congruence. auto.
    + intros k p' t H E. destruct (At_frame_leaf k _ H eq_refl) as (k' & H'). rewrite (Nl k (EHold p') t H eq_refl E). eauto.
    + intros k t H. destruct (At_frame_leaf k _ H eq_refl) as (k' & H'). rewrite (Nl k (EConst t) t H eq_refl eq_refl). eauto.
    + intros n t E. destruct (S4 n t E) as [W L]. rewrite Ne by congruence. auto.
    + intros n b t E. destruct (S5 n b t E) as [W L]. rewrite Ne by congruence. auto.
  - intros k v _. now rewrite <- R1.
  - intros k p' H. destruct (At_frame_leaf k _ H eq_refl) as (k' & H'). destruct (Zr k' _ H' ltac:(discriminate)) as (w & Ew & _). cbn in Ew.
    rewrite <- R1 in *. cbn in Ew. destruct (holders s p') as [t|] eqn:E; [|discriminate]. exists t. split; [reflexivity|]. cbn. now rewrite E.
  - intros k t _. now rewrite <- R1.
  - intros n t C. rewrite R2 in C. discriminate.
Qed.

Lemma plus_same : length y = prod sh -> plus_val zero add (sh, x) (sh, y) = Some (sh, map2 add x y).
Proof.
  intros Ly. unfold plus_val. cbn [fst snd]. unfold broadcast_shape. destruct (list_eqb_spec sh sh); [|contradiction]. cbv beta iota.
  do 2 f_equal. apply list_eq_nth; [rewrite tab_length, nth_map2_eq; lia|]. intros i. destruct (lt_dec i (prod sh)) as [Hi|Ni].
  - rewrite nth_error_tab by assumption. cbv beta zeta. rewrite !source_index_self by now apply unoffset_valid. rewrite offset_unoffset by assumption.
    symmetry. apply nth_error_map2; apply nth_error_nth'; lia.
  - rewrite !(proj2 (nth_error_None _ _)); [reflexivity| |]; rewrite ?tab_length, ?nth_map2_eq; lia.
Qed.

Lemma forward_bin k n o l r' s : forward k (EBin n o l r') s =
  gbind (query n) (fun c => gbind (put_out k c) (fun _ => match c with
    | Some t => gret t
    | None => gbind (operand_code zero one add mul dbg k n l r') (fun lr => gbind (bin_forward zero add dbg n o (fst lr) (snd lr)) (fun t =>
        gbind (put_out k (Some t)) (fun _ => gbind (update n t) (fun _ => gbind (modify (fun s => set_ran s (n :: ran s))) (fun _ => gret t)))))
    end)) s.
Proof. reflexivity. Qed.

Lemma sum_finished k s who : ready s who -> (forall m b, k = Some (m, b) -> ~ In m (n1 :: ids r)) ->
  exists t s' who', forward k sum s = Ok (t, s') /\ finished k sum s' who' t (sh, map2 add x y) /\ change s s' who who'.
Proof.
  intros R Hk. pose proof R as [R1 R2 R3 R4 R5 R6 R7 R8].
  destruct (Zr None r (At_root r) Vr') as (w0 & E0 & Ly & _). assert (w0 = (sh, y)) by congruence. subst w0. cbn [fst snd] in Ly. clear E0.
  rewrite forward_bin.
  rewrite (gbind_ok _ _ _ _ _ (miss_query n1 s (R2 n1))).
  set (s1 := set_objs s (supd (objs s) k (Obj (in1 (objs s k)) (in2 (objs s k)) None))).
  rewrite (gbind_ok (put_out k None) _ s tt s1 eq_refl).
  rewrite (operand_code_plain zero one add mul dbg k n1 (EHold p) r eq_refl Vr).
  set (t0 := mkT sh a0) in *.
  set (s2 := set_objs s1 (supd (objs s1) k (Obj (Some t0) (in2 (objs s1 k)) (out (objs s1 k))))).
  assert (Rd : ready s2 who) by (constructor; auto).
  pose proof (lock_ready s2 who Rd) as I.
  destruct (forward_ok zero one add mul dbg frame0 q (tree_consistent frame0 Htree) (frame_sizes zero one add mul n1 r Vr' q Zr)
    (frame_disciplined zero one add mul n1 r Htree q Dr) r (Some (n1, true)) s2 (lock who) (frame_root zero n1 r) Vr I
    (fun m b _ => R2 m)) as (rt & s3 & who3 & F & P).
  pose proof P as [P1 P2 P3 P4 P5 P6 P7].
  assert (Q : forall m, cache s3 m <> None -> In m (ids r)).
  { intros m Hm. destruct (P4 m Hm) as [N|N]; [exfalso; apply N; apply R2|exact N]. }
  assert (Hq : cache s3 n1 = None).
  { destruct (cache s3 n1) eqn:E; [|reflexivity]. exfalso. inversion Htree; subst. apply H1. apply Q. congruence. }
  destruct (operand_good zero one add mul frame0 q (tree_consistent frame0 Htree) (frame_sizes zero one add mul n1 r Vr' q Zr)
    (frame_disciplined zero one add mul n1 r Htree q Dr) s3 who3 (Some (n1, true)) r P1 (frame_root zero n1 r) Vr
    (fun m b E => ltac:(injection E as <- _; exact Hq)) P5) as (rt' & G1 & G2 & G3 & G4).
  assert (rt' = rt) by congruence. subst rt'. assert (Ert : val_of (hp s3) rt = (sh, y)) by congruence.
  assert (L0 : a0 < length (hp s)) by (apply nth_error_Some; congruence).
  assert (W3 : who3 a0 = OBack n1 false).
  { rewrite (x_who _ _ _ _ _ P2) by exact L0. unfold lock. now rewrite Nat.eqb_refl. }
  assert (T3 : nth_error (hp s3) a0 = Some x).
  { rewrite (x_frame _ _ _ _ _ P2); [exact R6|exact L0| |]; intros ?; unfold lock; rewrite Nat.eqb_refl; discriminate. }
  assert (Y3 : nth_error (hp s3) (ref rt) = Some y).
  { unfold val_of in Ert. rewrite (nth_error_nth' _ [] G4). now injection Ert as _ ->. }
  set (s4 := set_objs s3 (supd (objs s3) k (Obj (in1 (objs s3 k)) (Some rt) (out (objs s3 k))))).
  assert (Ops : gbind (forward (Some (n1, false)) (EHold p)) (fun lt => gbind (put_in1 k (Some lt)) (fun _ =>
      gbind (forward (Some (n1, true)) r) (fun rt => gbind (put_in2 k (Some rt)) (fun _ => gret (lt, rt))))) s1 = Ok ((t0, rt), s4)).
  { assert (Hh : forward (Some (n1, false)) (EHold p) s1 = Ok (t0, s1)).
    { cbn [GraphModel.forward]. unfold hold_forward. rewrite (gbind_ok (get (fun s => holders s p)) _ s1 (Some t0) s1); [reflexivity|]. unfold get. cbn [s1 set_objs holders]. now rewrite R5. }
    rewrite (gbind_ok _ _ _ _ _ Hh). rewrite (gbind_ok (put_in1 k (Some t0)) _ s1 tt s2 eq_refl). rewrite (gbind_ok _ _ _ _ _ F). reflexivity. }
  rewrite (gbind_ok _ _ _ _ _ Ops). cbn [fst snd bin_forward].
  set (h' := upd (hp s3) a0 (map2 add x y)).
  assert (Ea : heaply (zip_broadcast zero dbg add t0 rt) s4 = Ok (t0, set_own (set_hp s4 h') (own s4))).
  { unfold heaply. cbn [s4 set_objs hp]. assert (rt = mkT sh (ref rt)) as Ert'.
    { destruct rt as [a b]. unfold val_of in Ert. cbn [shape ref] in *. now injection Ert as -> _. }
    rewrite Ert'. unfold t0. rewrite (zip_same zero add dbg sh a0 (ref rt) (hp s3) x y T3 Y3) by lia. reflexivity. }
  rewrite (gbind_ok _ _ _ _ _ Ea), (conclude_ok k n1).
  set (s5 := finish s4 k n1 t0 h' (own s4)).
  assert (Hs5 : hp s5 = h') by reflexivity.
  assert (L3 : a0 < length (hp s3)) by (apply nth_error_Some; congruence).
  assert (Hlen : length h' = length (hp s3)) by apply upd_length.
  assert (Ut : nth_error h' a0 = Some (map2 add x y)) by (now apply nth_error_upd_same).
  assert (Uo : forall a, a <> a0 -> nth_error h' a = nth_error (hp s3) a) by (intros a Na; apply nth_error_upd_other; congruence).
  assert (Wo : forall a, a <> a0 -> unlock who3 a = who3 a) by (intros a Na; unfold unlock; destruct (Nat.eqb_spec a a0); [contradiction|reflexivity]).
  assert (Wn : forall a, (forall m b, who3 a <> OBack m b) -> a <> a0) by (intros a Hb ->; exact (Hb _ _ W3)).
  exists t0, s5, (unlock who3). split; [reflexivity|]. 
  assert (Ok_ : objs s5 k = Obj (in1 (objs s3 k)) (Some rt) (Some t0)).
  { unfold s5, finish. cbn [set_ran set_cache set_objs set_own set_hp objs]. rewrite !supd_same. cbn [in1 in2 out]. unfold s4. cbn [set_objs objs]. now rewrite !supd_same. }
  assert (Hko : forall k' z, At r k' z -> down n1 k' <> k).
  { intros k' z H E. pose proof (down_in k' z H) as U. rewrite E in U. destruct k as [[m b]|]; [exact (Hk m b eq_refl (U m b eq_refl))|destruct k'; discriminate E]. }
  assert (Oo : forall k', k' <> k -> objs s5 k' = objs s3 k').
  { intros k' N. unfold s5, finish. cbn [set_ran set_cache set_objs set_own set_hp objs]. rewrite !supd_other by exact N. unfold s4. cbn [set_objs objs]. now rewrite supd_other. }
  assert (Hk1 : in1 (objs s3 k) = Some t0).
  { rewrite P6; [unfold s2; cbn [set_objs objs]; now rewrite supd_same| |].
    - intros ->. apply (Hk n1 true eq_refl). now left.
    - intros m b -> Hm. apply (Hk m b eq_refl). now right. }
  assert (Hsub : forall k' z, At r k' z -> forall m, In m (ids z) -> In m (ids r)).
  { intros k' z H m Hm. apply ids_At in Hm. destruct Hm as (k1 & z1 & H1 & E1). destruct (At_trans _ _ _ H _ _ H1) as (k2 & H2 & _). apply ids_At. eauto. }
  assert (Und : forall k', under k (down n1 k') = down n1 k') by (intros [k'|]; reflexivity).
  destruct (i_sep _ _ _ _ _ _ _ _ P1) as (S1 & S2 & S3 & S4 & S5).
  split.
  - constructor.
    + intros k1 z H. destruct (At_sum _ _ H) as [[-> ->]|[[-> ->]|(k' & Hz & ->)]].
      * cbn [under GradProofs.reads]. exists (sh, x), (sh, y). rewrite Ok_, Hk1. cbn [in1 in2 val_opt].
        split; [|split; [reflexivity|rewrite Hs5; unfold val_of; cbn [fst]; unfold val_of in Ert; now injection Ert]].
        apply operands_plain; [reflexivity|exact Vr| |exact Er]. cbn [GraphSpec.eval]. rewrite <- R1. cbn [env_of e_hold]. rewrite R5.
        unfold val_of. cbn [shape ref t0]. now rewrite (nth_error_nth _ _ [] R6).
      * exact Logic.I.
      * rewrite Und. refine (reads_kept zero one add mul q (fun _ => True) s3 s5 who3 (unlock who3) (down n1 k') (down n1 k') z (Oo _ (Hko k' z Hz)) ltac:(rewrite Hs5; lia) _ (fun _ _ _ _ _ => Logic.I)
          (after_node zero one add mul frame0 q Htree (frame_sizes zero one add mul n1 r Vr' q Zr) (frame_legible zero one add mul n1 r q Lr) s3 who3 _ z P1 (frame_At zero n1 r k' z Hz) (fun m Hm => P5 m (Hsub k' z Hz m Hm)))).
        intros a Ha B1 B2 _. rewrite Hs5, (Uo a (Wn a B1)), (Wo a (Wn a B1)). auto.
    + intros k1 z u m H Pz Hu W. destruct (At_sum _ _ H) as [[-> ->]|[[-> ->]|(k' & Hz & ->)]]; [destruct Pz|destruct Pz|].
      rewrite Und, (Oo _ (Hko k' z Hz)) in Hu. cbn [ids app]. right. apply (Hsub k' z Hz).
      refine (slot_owner zero one add mul n1 r Vr' Htree q Zr s3 who3 (down n1 k') z P1 (frame_At zero n1 r k' z Hz) (fun m Hm => P5 m (Hsub k' z Hz m Hm)) Pz u m Hu _).
      unfold unlock in W. destruct (Nat.eqb_spec (ref u) a0); [discriminate|exact W].
    + rewrite eval_bin. rewrite (operands_plain zero one add mul q (EHold p) r (sh, x) (sh, y) eq_refl Vr); [|
        cbn [GraphSpec.eval]; rewrite <- R1; cbn [env_of e_hold]; rewrite R5; unfold val_of; cbn [shape ref t0]; now rewrite (nth_error_nth _ _ [] R6)|exact Er].
      cbn [obind2 fst snd]. now apply plus_same.
    + rewrite Hs5. unfold val_of. cbn [shape ref t0]. now rewrite (nth_error_nth _ _ [] Ut).
    + rewrite Hs5. cbn [ref t0]. lia.
    + left. unfold unlock. cbn [ref t0]. now rewrite Nat.eqb_refl.
    + intros m t E. change (own s5) with (own s3) in E. destruct (S4 m t E) as [W L]. rewrite Hs5, Hlen. rewrite Wo; [auto|]. intros E'. rewrite E' in W. congruence.
  - pose proof (x_vars _ _ _ _ _ P2) as XV. cbn [s2 s1 set_objs vars] in XV.
    destruct R3 as (T1 & _).
    assert (Gn : forall k v, At r k (EVar v) -> ref (vgrad (vars s v)) <> a0 /\ lock who (ref (vgrad (vars s v))) = OGrad v /\ ref (vgrad (vars s v)) < length (hp s)).
    { intros k1 v H. destruct (T1 k1 v H) as (_ & W & L). assert (ref (vgrad (vars s v)) <> a0) by congruence. split; [assumption|]. split; [|exact L].
      unfold lock. destruct (Nat.eqb_spec (ref (vgrad (vars s v))) a0); [contradiction|exact W]. }
    constructor.
    + exact XV.
    + exact (x_hold _ _ _ _ _ P2).
    + exact (x_tr _ _ _ _ _ P2).
    + rewrite Hs5, Hlen. exact (x_len _ _ _ _ _ P2).
    + intros a Ha. unfold unlock. rewrite (x_who _ _ _ _ _ P2) by exact Ha. unfold lock. destruct (Nat.eqb_spec a a0) as [->|]; [now rewrite R7|reflexivity].
    + intros a Ha Na N1 N2. rewrite Hs5, (Uo a Na). apply (x_frame _ _ _ _ _ P2); [exact Ha| |]; intros ?; unfold lock; destruct (Nat.eqb_spec a a0); try contradiction; auto.
    + rewrite Hs5. exact Ut.
    + intros k1. destruct (x_vobj _ _ _ _ _ P2 k1) as (Q1 & Q2 & Q3 & _). auto.
    + intros Tr k1 v H. destruct (Gn k1 v H) as (N & W & L).
      assert (Tr' : training s3 = true) by (rewrite (x_tr _ _ _ _ _ P2); exact Tr). destruct (P7 Tr' k1 v H) as [Q1 Q2]. split.
      * rewrite Hs5, (nth_error_nth_eq _ _ _ (Uo _ N)). unfold gzero in Q1. rewrite XV in Q1.
        assert (Ll : length (nth (ref (vgrad (vars s v))) (hp s3) []) = prod (shape (vdata (vars s v)))).
        { rewrite <- (proj2 (R4 k1 v H)). destruct (x_grad _ _ _ _ _ P2 _ v L W) as [E|[_ E]].
          - now rewrite (nth_error_nth_eq _ _ _ E).
          - rewrite (repeat_len_nth _ _ _ E). now rewrite repeat_length. }
        rewrite <- Ll. clear - Q1. induction (nth (ref (vgrad (vars s v))) (hp s3) []) as [|a l IH]; [reflexivity|]. inversion Q1; subst. cbn. f_equal. auto.
      * destruct k1; exact Q2.
    + intros Tr k1 v H. destruct (Gn k1 v H) as (N & W & L). split.
      * rewrite Hs5, (nth_error_nth_eq _ _ _ (Uo _ N)). destruct (x_grad _ _ _ _ _ P2 _ v L W) as [E|[E _]]; [exact (nth_error_nth_eq _ _ _ E)|].
        cbn [s2 s1 set_objs training] in E. congruence.
      * destruct (x_vobj _ _ _ _ _ P2 (down n1 k1)) as (_ & _ & _ & [E|[E _]]); [exact E|]. cbn [s2 s1 set_objs training] in E. congruence.
    + exact (x_ownb _ _ _ _ _ P2).
Qed.


(** ** operators over the sum *)
Inductive over : expr A -> val A -> Prop :=
| over_sum : over sum (sh, map2 add x y)
| over_un n own_ f m b e v v' : over e v -> f v = Some v' -> over (EUn n (UNew own_ f m b) e) v'.

Lemma change_kept n s s1 s2 who who1 who2 : ready s who -> change s s1 who who1 -> kept n s1 s2 who1 who2 -> change s s2 who who2.
Proof.
  intros [R1 R2 R3 R4 R5 R6 R7 R8] [C1 C2 C3 C4 C5 C6 C7 C8 C9 C10 C11] [K1 K2 K3 K4 K5 K6 K7 K8].
  assert (L0 : a0 < length (hp s)) by (apply nth_error_Some; congruence).
  destruct R3 as (T1 & _).
  assert (Gk : forall k v, At r k (EVar v) -> nth (ref (vgrad (vars s v))) (hp s2) [] = nth (ref (vgrad (vars s v))) (hp s1) []).
  { intros k v H. destruct (T1 k v H) as (_ & W & L). apply nth_error_nth_eq. apply K8; [lia|]. rewrite C5 by exact L. congruence. }
  constructor.
  - congruence.
  - congruence.
  - congruence.
  - lia.
  - intros a Ha. rewrite K7 by lia. now apply C5.
  - intros a Ha Na N1 N2. rewrite K8; [now apply C6|lia|]. rewrite C5 by exact Ha. apply N1.
  - rewrite K8; [exact C7|lia|]. rewrite C5 by exact L0. congruence.
  - intros k. rewrite K5. apply C8.
  - intros Tr k v H. rewrite (Gk k v H), K5. now apply C9.
  - intros Tr k v H. rewrite (Gk k v H), K5. now apply C10.
  - congruence.
Qed.

Lemma over_finished e v : over e v -> NoDup (ids e) -> forall k s who, ready s who -> (forall m b, k = Some (m, b) -> ~ In m (ids e)) ->
  exists t s' who', forward k e s = Ok (t, s') /\ finished k e s' who' t v /\ change s s' who who'.
Proof.
  intros H. induction H as [|n own_ f m b e v v' H IH Ef]; intros T k s who R Hk; [now apply sum_finished|].
  inversion T as [|? ? Hn T']; subst.
  set (s1 := set_objs s (supd (objs s) k (Obj (in1 (objs s k)) (in2 (objs s k)) None))).
  assert (Rd : ready s1 who) by (destruct R; constructor; auto).
  destruct (IH T' (Some (n, false)) s1 who Rd) as (t & s2 & who2 & F & Fi & C).
  { intros m' b' [= <- _]. exact Hn. }
  destruct (step_finished n own_ f m b k e s2 who2 t v v' Fi Hn Hk Ef) as (t' & s3 & who3 & E3 & F3 & K3).
  exists t', s3, who3. split; [|split; [exact F3|apply (change_kept n s s2 s3 who who2 who3 R); [destruct C; constructor; assumption|exact K3]]].
  cbn [GraphModel.forward]. rewrite (gbind_ok _ _ _ _ _ (miss_query n s (r_cache _ _ R n))).
  rewrite (gbind_ok (put_out k None) _ s tt s1 eq_refl). rewrite (gbind_ok _ _ _ _ _ F). exact E3.
Qed.

Lemma over_leaf e v k z : over e v -> At e k z -> is_leaf z = true -> z = EHold p \/ exists k', At r k' z /\ k = down n1 k'.
Proof.
  intros H. revert k z. induction H as [|n own_ f m b e v v' H IH Ef]; intros k z Ha L.
  - destruct (At_sum _ _ Ha) as [[_ ->]|[[_ ->]|Hr]]; [discriminate|now left|now right].
  - destruct (At_under _ _ _ _ _ Ha) as [[_ ->]|(k' & Hz & ->)]; [discriminate|].
    destruct (IH k' z Hz L) as [->|(k2 & H2 & ->)]; [now left|right]. exists k2. split; [exact H2|]. destruct k2; reflexivity.
Qed.

(** A run of such a loss leaves a state in which backward passes are right; the target's storage holds the sum. *)
Theorem over_run e v s who : over e v -> NoDup (ids e) -> ready (set_ran (set_cache s (fun _ => None)) []) who ->
  exists t s' who', run zero one add mul dbg e s = Ok (t, s') /\ eval q e = Some v /\ val_of (hp s') t = v /\
    binv zero one add mul e q s' who' /\ change s s' who who'.
Proof.
  intros H T R. set (s0 := set_ran (set_cache s (fun _ => None)) []) in *.
  destruct (over_finished e v H T None s0 who R ltac:(discriminate)) as (t & s' & who' & F & Fi & C).
  exists t, s', who'. split; [unfold run; rewrite (gbind_ok (modify (fun s => set_ran (set_cache s (fun _ => None)) [])) _ s tt s0 eq_refl); exact F|].
  pose proof Fi as [F1 F2 F3 F4 F5 F6 F7]. pose proof C as [C1 C2 C3 C4 C5 C6 C7 C8 C9 C10 C11]. pose proof R as [R1 R2 R3 R4 R5 R6 R7 R8].
  split; [exact F3|]. split; [exact F4|]. split; [|destruct C; constructor; auto].
  assert (L0 : a0 < length (hp s0)) by (apply nth_error_Some; congruence).
  assert (Live : forall k z u, At r k z -> is_leaf z = true -> loc s0 z = Some u -> ref u < length (hp s0)).
  { intros k z u Hz L E. destruct (Zr k z Hz ltac:(intros c ->; discriminate)) as (w & Ew & _ & Nw). apply (val_live (hp s0)).
    rewrite <- R1 in Ew. destruct z as [v0|p0|t0| | |]; try discriminate; cbn [GraphProofs2.loc GraphSpec.eval env_of e_var e_hold e_const] in *.
    - congruence.
    - rewrite E in Ew. congruence.
    - congruence. }
  assert (Loc : forall z, is_leaf z = true -> loc s' z = loc s0 z).
  { intros z L. destruct z; try discriminate; cbn [GraphProofs2.loc]; rewrite ?C1, ?C2; reflexivity. }
  destruct R3 as (S1 & S2 & S3 & S4 & S5).
  constructor.
  - intros k z u Hz L E. rewrite (Loc z L) in E. destruct (over_leaf e v k z H Hz L) as [->|(k' & H' & _)].
    + cbn [GraphProofs2.loc] in E. rewrite R5 in E. injection E as <-. cbn [ref]. lia.
    + specialize (Live k' z u H' L E). lia.
  - split; [|split; [|split; [|split]]].
    + intros k w Hw. destruct (over_leaf e v k _ H Hw eq_refl) as [E|(k' & H' & _)]; [discriminate E|]. destruct (S1 k' w H') as (W1 & W2 & W3).
      rewrite C1. rewrite !C5; [split; [exact W1|split; [exact W2|lia]]|exact W3|exact (Live k' (EVar w) _ H' eq_refl eq_refl)].
    + intros k p' t' Hp E. rewrite C2 in E. destruct (over_leaf e v k _ H Hp eq_refl) as [[= ->]|(k' & H' & _)].
      * rewrite R5 in E. injection E as <-. cbn [ref]. now rewrite C5.
      * rewrite C5; [eauto|exact (Live k' (EHold p') _ H' eq_refl E)].
    + intros k t' Ht. destruct (over_leaf e v k _ H Ht eq_refl) as [E|(k' & H' & _)]; [discriminate E|].
      rewrite C5; [eauto|exact (Live k' (EConst t') _ H' eq_refl eq_refl)].
    + exact F7.
    + intros n b t' E. rewrite C11 in E. destruct (S5 n b t' E) as [W L]. rewrite C5 by exact L. split; [exact W|lia].
  - intros k z Hz. specialize (F1 k z Hz). now destruct k.
  - intros k w Hw. destruct (over_leaf e v k _ H Hw eq_refl) as [E|(k' & H' & _)]; [discriminate E|]. destruct (S1 k' w H') as (W1 & _).
    rewrite C1, <- R1. cbn [env_of e_var]. apply val_of_eq. apply C6; [exact (Live k' (EVar w) _ H' eq_refl eq_refl)|exact (R8 k' (EVar w) _ H' eq_refl eq_refl)| |]; intros ?; rewrite W1; discriminate.
  - intros k w Hw. destruct (over_leaf e v k _ H Hw eq_refl) as [E|(k' & H' & _)]; [discriminate E|]. destruct (R4 k' w H') as [G1 G2].
    rewrite C1. split; [exact G1|]. destruct (training s0) eqn:Tr.
    + rewrite (proj1 (C9 eq_refl k' w H')). apply repeat_length.
    + rewrite (proj1 (C10 eq_refl k' w H')). exact G2.
Qed.

End Spine.
