(** Properties of the expression graph: C25, C26. *)
From Coq Require Import List Arith Lia Bool PeanoNat ZArith.
From Verif Require Import ListBase TensorModel TensorSpec TensorProofs TensorProofs2 GraphModel GraphSpec GraphProofs GraphProofs2
  GraphProofs3 GraphProofs4.
Import ListNotations.

Section Forward.
Context {A : Type} (zero one : A) (add mul : A -> A -> A).
Variable dbg : bool.
Notation sizes_ok := (sizes_ok zero one add mul).
Notation disciplined := (disciplined zero one add mul).
Notation eval := (eval zero one add mul).
Notation run := (run zero one add mul dbg).

(** A state in which e can be run: every sub-expression has a value, no sum is computed inside a storage that something
    else reads. *)
Definition runnable (e : expr A) (s : st A) : Prop := sizes_ok (env_of s) e /\ disciplined (env_of s) e.

(** C25: a run returns the mathematical value of the expression for the current leaves and runs every operator's forward
    action exactly once, however often the operator occurs. *)
Theorem C25_run_value e s who : (forall c, e <> EVal c) -> consistent e -> runnable e s -> separate e s who ->
  exists t s', run e s = Ok (t, s') /\ eval (env_of s) e = Some (val_of (hp s') t) /\
    NoDup (ran s') /\ (forall n, In n (ran s') <-> In n (ids e)) /\ exists who', separate e s' who'.
Proof.
  intros V C [Z D] S. destruct (run_ok zero one add mul dbg e s who V C Z D S) as (t & s' & who' & R1 & R2 & R3 & R4 & R5 & R6).
  exists t, s'. eauto 8.
Qed.

(** What happens to a model between runs: place holders are bound to new tensors, elements of any tensor are overwritten
    (an optimiser step, weights loaded), the phase changes, and the expression is run. *)
Inductive history (e : expr A) : st A -> st A -> Prop :=
| h_none s : history e s s
| h_bind s s' p sh d : history e s s' ->
    history e s (set_holders (set_hp s' (hp s' ++ [d])) (fupd (holders s') p (Some (mkT sh (length (hp s'))))))
| h_write s s' r d : history e s s' -> history e s (set_hp s' (upd (hp s') r d))
| h_phase s s' b : history e s s' -> history e s (set_training s' b)
| h_run s s' t s'' : history e s s' -> runnable e s' -> run e s' = Ok (t, s'') -> history e s s''.

Lemma history_separate e s s' : (forall c, e <> EVal c) -> consistent e -> (exists who, separate e s who) -> history e s s' ->
  exists who, separate e s' who.
Proof.
  intros V C S H. induction H as [|s s' p sh d H IH|s s' r d H IH|s s' b H IH|s s' t s'' H IH [Z D] R]; auto.
  - destruct (IH S) as (who & S1 & S2 & S3 & S4 & S5).
    assert (forall i, i < length (hp s') -> who_new who (length (hp s')) OLeaf i = who i) as W by (intros; now apply who_new_old).
    assert (forall i, who i = OLeaf -> who_new who (length (hp s')) OLeaf i = OLeaf) as WL.
    { intros i Hi. unfold who_new. destruct (i <? length (hp s')); auto. }
    exists (who_new who (length (hp s')) OLeaf). split; [|split; [|split; [|split]]]; cbn [set_holders set_hp hp vars holders own ownb]; rewrite ?app_length.
    + intros k v Hk. destruct (S1 k v Hk) as (W1 & W2 & L). split; [now apply WL|]. split; [now rewrite W|]. cbn. lia.
    + intros k p' t Hk E. unfold fupd in E. destruct (p' =? p) eqn:Ep.
      * injection E as <-. cbn [ref]. now apply who_new_new.
      * apply WL. now apply (S2 k p' t).
    + intros k t Hk. apply WL. now apply (S3 k t).
    + intros n t E. destruct (S4 n t E). rewrite W by assumption. split; [assumption|cbn; lia].
    + intros n b t E. destruct (S5 n b t E). rewrite W by assumption. split; [assumption|cbn; lia].
  - destruct (IH S) as (who & S1 & S2 & S3 & S4 & S5). exists who.
    split; [|split; [|split; [|split]]]; cbn [set_hp hp vars holders own ownb]; rewrite ?upd_length; assumption.
  - destruct (IH S) as (who & S'). destruct (run_ok zero one add mul dbg e s' who V C Z D S') as (t2 & s2 & who' & R1 & _ & _ & _ & _ & R6).
    rewrite R in R1. injection R1 as _ <-. eauto.
Qed.

(** C25: so after any history the next run is right, too. *)
Theorem C25_run_value_any_history e s s' : (forall c, e <> EVal c) -> consistent e -> (exists who, separate e s who) ->
  history e s s' -> runnable e s' ->
  exists t s'', run e s' = Ok (t, s'') /\ eval (env_of s') e = Some (val_of (hp s'') t).
Proof.
  intros V C S H R. destruct (history_separate e s s' V C S H) as (who & S').
  destruct (C25_run_value e s' who V C R S') as (t & s'' & R1 & R2 & _). eauto.
Qed.

(** C26: a run changes no tensor of the user's: of the storages that exist before the run only operators' results are
    overwritten, and gradients of variables, which are zeroed in the training phase and untouched in prediction.  No
    variable, place holder or constant changes its tensor or its elements. *)
Theorem C26_run_frame e s who : (forall c, e <> EVal c) -> consistent e -> runnable e s -> separate e s who ->
  exists t s', run e s = Ok (t, s') /\ vars s' = vars s /\ holders s' = holders s /\
    (forall r, r < length (hp s) -> (forall n, who r <> OOp n) -> (forall v, who r <> OGrad v) -> nth_error (hp s') r = nth_error (hp s) r) /\
    (forall r v, r < length (hp s) -> who r = OGrad v -> training s = false -> nth_error (hp s') r = nth_error (hp s) r) /\
    (forall k v, At e k (EVar v) -> val_of (hp s') (vdata (vars s' v)) = val_of (hp s) (vdata (vars s v)) /\
                                    (training s = true -> Forall (eq zero) (nth (ref (vgrad (vars s' v))) (hp s') []))) /\
    (forall k p, At e k (EHold p) -> val_opt (hp s') (holders s' p) = val_opt (hp s) (holders s p)) /\
    (forall k t, At e k (EConst t) -> val_of (hp s') t = val_of (hp s) t).
Proof.
  intros V C [Z D] S. destruct (run_ok zero one add mul dbg e s who V C Z D S) as (t & s' & who' & R1 & R2 & R3 & R4 & R5 & R6).
  exists t, s'. split; [exact R1|]. destruct R5 as [P1 P2 P3 P4 P5 P6 P7].
  split; [exact (x_vars _ _ _ _ _ P2)|]. split; [exact (x_hold _ _ _ _ _ P2)|]. split; [exact (x_frame _ _ _ _ _ P2)|].
  split.
  { intros r v Hr Hw T. destruct (x_grad _ _ _ _ _ P2 r v Hr Hw) as [E|[T' _]]; [exact E|]. cbn in T'. congruence. }
  split.
  { intros k v Hk. split; [exact (i_var _ _ _ _ _ _ _ _ P1 k v Hk)|]. intros T.
    assert (T' : training s' = true) by (rewrite (x_tr _ _ _ _ _ P2); exact T).
    exact (proj1 (P7 T' k v Hk)). }
  split.
  { intros k p Hk. destruct (i_hold _ _ _ _ _ _ _ _ P1 k p Hk) as (u & E1 & E2). rewrite E1. cbn [val_opt].
    cbn [env_of e_hold] in E2. destruct (holders s p) as [u'|] eqn:Ep; [|discriminate]. cbn [val_opt]. congruence. }
  exact (i_const _ _ _ _ _ _ _ _ P1).
Qed.

(** C26: k runs one after the other *)
Fixpoint runs (k : nat) (e : expr A) (s : st A) : outcome (st A) :=
  match k with
  | 0 => Ok s
  | S k => match run e s with Ok (_, s') => runs k e s' | Abort => Abort | UB => UB end
  end.

Fixpoint add_times (k : nat) (x y : list A) : list A :=
  match k with 0 => x | S k => add_times k (map2 add x y) y end.

Lemma broadcasts_self sh : Broadcasts sh sh sh.
Proof. apply broadcast_shape_iff. unfold broadcast_shape. now destruct (list_eqb_spec sh sh). Qed.

Lemma padded_self sh : padded (length sh) sh = sh.
Proof. unfold padded. now rewrite Nat.sub_diag. Qed.

Lemma source_index_self sh idx : valid sh idx -> source_index sh idx = idx.
Proof.
  intros H. unfold source_index. rewrite (valid_length _ _ H), Nat.sub_diag. cbn [skipn]. unfold valid in H. revert idx H.
  induction sh as [|d sh IH]; intros idx H; inversion H; subst; [reflexivity|]. cbn [map2]. f_equal; [|now apply IH].
  destruct (Nat.eqb_spec d 1); [lia|reflexivity].
Qed.

(** C26: when the left operand of a sum is a variable of the result's shape, the sum is computed inside the variable: after
    k runs of variable + constant the variable holds x + y + ... + y. *)
Theorem C26_variable_left_of_sum n v u k s x y : training s = false ->
  shape (vdata (vars s v)) = shape u -> ref (vdata (vars s v)) <> ref u ->
  nth_error (hp s) (ref (vdata (vars s v))) = Some x -> nth_error (hp s) (ref u) = Some y ->
  length x = prod (shape u) -> length y = prod (shape u) ->
  exists s', runs k (EBin n BPlus (EVar v) (EConst u)) s = Ok s' /\ vars s' = vars s /\
    nth_error (hp s') (ref (vdata (vars s' v))) = Some (add_times k x y).
Proof.
  revert s x. induction k as [|k IH]; intros s x T Es Nr Ex Ey Lx Ly.
  { exists s. split; [reflexivity|]. split; [reflexivity|exact Ex]. }
  set (e := EBin n BPlus (EVar v) (EConst u)) in *. cbn [runs].
  rewrite <- Es in Ly, Lx.
  pose proof (broadcasts_self (shape (vdata (vars s v)))) as B. rewrite Es in B at 2. rewrite Es in Ly.
  destruct (zip_broadcast_full zero dbg add (vdata (vars s v)) u _ (hp s) x y Ex Lx Ey Ly B) as (t & h' & res & Z1 & Z2 & Z3 & Z4 & Z5 & Z6 & Z7 & Z8).
  specialize (Z6 (padded_self _)).
  assert (Er : res = map2 add x y).
  { apply list_eq_nth; [rewrite map2_length; rewrite Es in Lx, Z4; lia|]. intros p. destruct (lt_dec p (prod (shape u))) as [Hp|Np].
    - rewrite Es in Z5. destruct (Z5 (unoffset (shape u) p) (unoffset_valid _ p Hp)) as (a & b & Y1 & Y2 & Y3).
      rewrite source_index_self in Y1, Y2 by now apply unoffset_valid.
      rewrite offset_unoffset in Y1, Y2, Y3 by assumption. rewrite Y3. symmetry. now apply nth_error_map2.
    - rewrite !(proj2 (nth_error_None _ _)); [reflexivity| |]; rewrite ?map2_length; rewrite ?Es in *; lia. }
  assert (exists t' s1, run e s = Ok (t', s1) /\ vars s1 = vars s /\ hp s1 = h' /\ training s1 = false) as (t' & s1 & R & Ev & Eh & Et).
  { unfold GraphModel.run, e. cbn -[zip_broadcast]. unfold gbind, modify. cbn -[zip_broadcast].
    unfold var_forward, gbind, get, heaply, gret. cbn -[zip_broadcast]. rewrite T. cbn -[zip_broadcast].
    rewrite Z1. cbn -[zip_broadcast]. eexists _, _. split; [reflexivity|]. auto. }
  rewrite R. specialize (IH s1 (map2 add x y)).
  rewrite Ev, Eh in IH. destruct IH as (s' & R' & Ev' & Ex'); auto.
  - rewrite <- Er, <- Z6. exact Z3.
  - rewrite Z8; [exact Ey|apply nth_error_Some; congruence|congruence].
  - rewrite map2_length. rewrite Es in Lx. lia.
  - exists s'. split; [exact R'|]. split; [congruence|exact Ex'].
Qed.

End Forward.

(** every object of an expression with its slot *)
Fixpoint all_at {A} (k : slot) (e : expr A) : list (slot * expr A) :=
  (k, e) :: match e with
            | EUn n _ x => all_at (Some (n, false)) x
            | EBin n _ l r => all_at (Some (n, false)) l ++ all_at (Some (n, true)) r
            | _ => []
            end.

Lemma all_at_self {A} k (e : expr A) : In (k, e) (all_at k e).
Proof. destruct e; left; reflexivity. Qed.

Lemma all_at_trans {A} (x : expr A) : forall k k1 y, In (k1, y) (all_at k x) ->
  match y with
  | EUn n _ z => In (Some (n, false), z) (all_at k x)
  | EBin n _ l r => In (Some (n, false), l) (all_at k x) /\ In (Some (n, true), r) (all_at k x)
  | _ => True
  end.
Proof.
  induction x as [v|p|t|c|n o x IH|n o l IHl r IHr]; intros k k1 y H; cbn [all_at] in H;
  try (destruct H as [[= <- <-]|[]]; exact I).
  - destruct H as [[= <- <-]|H]; [right; apply all_at_self|]. specialize (IH _ _ _ H).
    destruct y; auto; [right; exact IH|destruct IH; split; right; assumption].
  - destruct H as [[= <- <-]|H].
    + split; right; apply in_app_iff; [left|right]; apply all_at_self.
    + apply in_app_iff in H. destruct H as [H|H]; [specialize (IHl _ _ _ H); rename IHl into J|specialize (IHr _ _ _ H); rename IHr into J];
      (destruct y; auto; [right; apply in_app_iff; auto|destruct J; split; right; apply in_app_iff; auto]).
Qed.

Lemma At_all {A} (e : expr A) k x : At e k x -> In (k, x) (all_at None e).
Proof.
  induction 1 as [|k n o x H IH|k n o l r H IH|k n o l r H IH]; [apply all_at_self| | |]; apply all_at_trans in IH; tauto.
Qed.

(** Beside C25 and C26: variables x = [1 2 3], y = [10 20 30]; square(x) * ( (-y) + square(x) ), where square(x) is one operator
    used twice, and the sum is computed inside the buffer of -y. *)
Module Ex.
Open Scope Z_scope.
Definition sq : uop Z := UNew true (fun v => Some (fst v, map (fun a => a * a) (snd v))) IntoOwn (fun i _ g => Some (fst i, snd g)).
Definition neg : uop Z := UNew false (fun v => Some (fst v, map Z.opp (snd v))) IntoNew (fun i _ g => Some (fst i, snd g)).
Definition times : bop Z := BNew true (fun a b => Some (fst a, map2 Z.mul (snd a) (snd b))) true (fun a b _ g => Some (g, g)).
Definition shared : expr Z := EUn 0 sq (EVar 0).
Definition e : expr Z := EBin 3 times shared (EBin 1 BPlus (EUn 2 neg (EVar 1)) shared).
Definition s : st Z :=
  St [[1; 2; 3]; [10; 20; 30]; [5; 5; 5]; [6; 6; 6]] (fun _ => None) (fun _ => Obj None None None) (fun _ => VObj true true 0 0)
     (fun v => match v with 0%nat => VState (mkT [3%nat] 0) (mkT [3%nat] 2) | _ => VState (mkT [3%nat] 1) (mkT [3%nat] 3) end)
     (fun _ => None) (fun _ => None) (fun _ _ => None) true [].
Definition who (r : nat) : owner := match r with 2 => OGrad 0 | 3 => OGrad 1 | _ => OLeaf end%nat.

Ltac at_cases H := apply At_all in H; cbn in H;
  repeat (destruct H as [H|H]; [injection H as <- <-|]); [..|destruct H].

Lemma e_value : forall c, e <> EVal c. Proof. discriminate. Qed.
Lemma e_consistent : consistent e.
Proof. intros k1 k2 x y n H1 H2. at_cases H1; at_cases H2; cbn; congruence. Qed.
Lemma e_runnable : runnable 0 1 Z.add Z.mul e s.
Proof.
  split.
  - intros k x H _. at_cases H; (eexists; split; [reflexivity|]; split; [reflexivity|discriminate]).
  - intros k n l r H _ x Hx. apply At_all in H. cbn in H.
    repeat (destruct H as [H|H]; [try discriminate H; injection H as <- <- <- <-|]); [|destruct H].
    cbn in Hx. destruct Hx as [<-|[]]. split; [reflexivity|]. 
    assert (forall k', At e k' (EUn 2 neg (EVar 1)) -> k' = Some (1%nat, false)) as U.
    { intros k' H'. apply At_all in H'. cbn in H'. repeat (destruct H' as [H'|H']; [congruence|]). destruct H'. }
    intros k1 k2 H1 H2 _. now rewrite (U _ H1), (U _ H2).
Qed.
Lemma e_separate : separate e s who.
Proof.
  split; [|split; [|split; [|split]]].
  - intros k v H. apply At_all in H. cbn in H.
    repeat (destruct H as [H|H]; [try discriminate H; injection H as <- <-; cbn; repeat split; lia|]). destruct H.
  - discriminate.
  - intros k t H. apply At_all in H. cbn in H. repeat (destruct H as [H|H]; [discriminate H|]). destruct H.
  - discriminate.
  - discriminate.
Qed.
Example run_e : match run 0 1 Z.add Z.mul true e s with
                | Ok (t, s') => (val_of (hp s') t, ran s', hp s') = (([3%nat], [-9; -64; -189]), [3; 1; 2; 0]%nat,
                    [[1; 2; 3]; [10; 20; 30]; [0; 0; 0]; [0; 0; 0]; [1; 4; 9]; [-9; -16; -21]; [-9; -64; -189]])
                | _ => False
                end.
Proof. vm_compute. reflexivity. Qed.
Example C25_case : exists t s', run 0 1 Z.add Z.mul true e s = Ok (t, s') /\
  eval 0 1 Z.add Z.mul (env_of s) e = Some (val_of (hp s') t) /\ NoDup (ran s') /\ (forall n, In n (ran s') <-> In n (ids e)) /\
  exists who', separate e s' who'.
Proof. exact (C25_run_value 0 1 Z.add Z.mul true e s who e_value e_consistent e_runnable e_separate). Qed.

(** the discipline is needed: with square(x) as left operand the shared result is overwritten and the product is wrong *)
Definition bad : expr Z := EBin 3 times shared (EBin 1 BPlus shared (EVar 1)).
Example undisciplined_run :
  eval 0 1 Z.add Z.mul (env_of s) bad = Some ([3%nat], [11; 96; 351]) /\
  match run 0 1 Z.add Z.mul true bad s with
  | Ok (t, s') => val_of (hp s') t = ([3%nat], [121; 576; 1521])
  | _ => False
  end.
Proof. vm_compute. split; reflexivity. Qed.
End Ex.

(** C25 without the discipline is false. *)
Theorem C25_any_graph_refuted : exists (e : expr Z) s who, (forall c, e <> EVal c) /\ consistent e /\ sizes_ok 0%Z 1%Z Z.add Z.mul (env_of s) e /\
  separate e s who /\ exists t s', run 0%Z 1%Z Z.add Z.mul true e s = Ok (t, s') /\
    eval 0%Z 1%Z Z.add Z.mul (env_of s) e <> Some (val_of (hp s') t).
Proof.
  exists Ex.bad, Ex.s, Ex.who. split; [discriminate|]. split.
  { intros k1 k2 x y n H1 H2. Ex.at_cases H1; Ex.at_cases H2; cbn; congruence. }
  split.
  { intros k x H _. Ex.at_cases H; (eexists; split; [reflexivity|]; split; [reflexivity|discriminate]). }
  split.
  { split; [|split; [|split; [|split]]].
    - intros k v H. apply At_all in H. cbn in H.
      repeat (destruct H as [H|H]; [try discriminate H; injection H as <- <-; cbn; repeat split; lia|]). destruct H.
    - discriminate.
    - intros k t H. apply At_all in H. cbn in H. repeat (destruct H as [H|H]; [discriminate H|]). destruct H.
    - discriminate.
    - discriminate. }
  assert (H : match run 0%Z 1%Z Z.add Z.mul true Ex.bad Ex.s with
              | Ok (t, s') => eval 0%Z 1%Z Z.add Z.mul (env_of Ex.s) Ex.bad <> Some (val_of (hp s') t) | _ => False end)
    by (vm_compute; discriminate).
  destruct (run 0%Z 1%Z Z.add Z.mul true Ex.bad Ex.s) as [[t s']| |]; [|contradiction|contradiction]. exists t, s'. auto.
Qed.

(** C26: so running a model can change it. *)
Theorem C26_run_changes_nothing_refuted : exists (e : expr Z) s v t s', consistent e /\
  run 0%Z 1%Z Z.add Z.mul true e s = Ok (t, s') /\ training s = false /\
  val_of (hp s') (vdata (vars s' v)) <> val_of (hp s) (vdata (vars s v)).
Proof.
  set (e := EBin 0 BPlus (EVar 0) (EVar 1) : expr Z). set (s := set_training Ex.s false).
  assert (H : match run 0%Z 1%Z Z.add Z.mul true e s with
              | Ok (t, s') => val_of (hp s') (vdata (vars s' 0)) <> val_of (hp s) (vdata (vars s 0)) | _ => False end)
    by (vm_compute; discriminate).
  destruct (run 0%Z 1%Z Z.add Z.mul true e s) as [[t s']| |] eqn:R; [|contradiction|contradiction]. exists e, s, 0, t, s'. split.
  { intros k1 k2 x y n H1 H2. Ex.at_cases H1; Ex.at_cases H2; cbn; congruence. }
  auto.
Qed.

Example C26_case : exists s', runs 0%Z 1%Z Z.add Z.mul true 3 (EBin 0 BPlus (EVar 0) (EConst (mkT [3] 1))) (set_training Ex.s false) = Ok s' /\
  vars s' = vars Ex.s /\ nth_error (hp s') 0 = Some [31; 62; 93]%Z.
Proof.
  destruct (C26_variable_left_of_sum 0%Z 1%Z Z.add Z.mul true 0 0 (mkT [3] 1) 3 (set_training Ex.s false) [1; 2; 3]%Z [10; 20; 30]%Z)
    as (s' & H1 & H2 & H3); try reflexivity; [discriminate|].
  exists s'. split; [exact H1|]. split; [exact H2|]. rewrite H2 in H3. exact H3.
Qed.
Print Assumptions C25_run_value.
Print Assumptions C25_any_graph_refuted.
Print Assumptions C26_run_changes_nothing_refuted.
Print Assumptions C25_run_value_any_history.
Print Assumptions C26_run_frame.
Print Assumptions C26_variable_left_of_sum.
