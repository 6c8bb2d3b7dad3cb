(** Running a loss of a difference again and again without binding the target again. *)
From Coq Require Import List Arith Lia Bool PeanoNat Reals Lra.
From Coquelicot Require Import Rcomplements Hierarchy Derive.
From Verif Require Import ListBase TensorModel TensorSpec TensorProofs TensorProofs2 ArrayModel GraphModel GraphSpec GraphProofs GraphProofs2
  GraphProofs3 GraphProofs4 GradSpec GradProofs GradProofs2 GradProofs3 LayerSpec CalcSpec CalcProofs CalcProofs2 CalcProofs3 GraphProps OpModel OpSpec OpProofs
  OpProofs5 GradProps ComplexModel ComplexRun LossRun LossRun2 LossModel LossSpec LossProofs LossProofs2 LossProofs3.
Import ListNotations.
Local Open Scope nat_scope.

(** ** Expressions depend only on their leaves *)
Section Same.
Context {A : Type} (zero one : A) (add mul : A -> A -> A).
Notation eval := (eval zero one add mul).
Notation operands := (operands zero one add mul).

Definition same_leaves (q q' : env A) (e : expr A) : Prop := forall k x, At e k x -> is_leaf x = true -> eval q' x = eval q x.

Lemma eval_same q q' e : same_leaves q q' e -> forall x k, At e k x -> eval q' x = eval q x.
Proof.
  intros S. induction x as [v|p|t|c|n o x IH|n o l IHl r IHr]; intros k H.
  - exact (S k _ H eq_refl).
  - exact (S k _ H eq_refl).
  - exact (S k _ H eq_refl).
  - reflexivity.
  - cbn [GraphSpec.eval]. now rewrite (IH _ (At_un _ _ _ _ _ H)).
  - cbn [GraphSpec.eval]. now rewrite (IHl _ (At_left _ _ _ _ _ _ H)), (IHr _ (At_right _ _ _ _ _ _ H)).
Qed.

Lemma operands_same q q' e : same_leaves q q' e -> forall l r kl kr, At e kl l -> At e kr r -> operands q' l r = operands q l r.
Proof. intros S l r kl kr Hl Hr. unfold GraphSpec.operands. now rewrite (eval_same q q' e S l kl Hl), (eval_same q q' e S r kr Hr). Qed.

Lemma inplace_same q q' e : same_leaves q q' e -> forall l r kl kr, At e kl l -> At e kr r -> inplace zero one add mul q' l r = inplace zero one add mul q l r.
Proof. intros S l r kl kr Hl Hr. unfold inplace. now rewrite (operands_same q q' e S l r kl kr Hl Hr). Qed.

Lemma path_same q q' e : same_leaves q q' e -> forall x k, At e k x -> path zero one add mul q' x = path zero one add mul q x.
Proof.
  intros S. induction x as [v|p|t|c|n o x IH|n o l IHl r IHr]; intros k H; try reflexivity.
  - cbn [path]. destruct o; [reflexivity|]. now rewrite (IH _ (At_un _ _ _ _ _ H)).
  - cbn [path]. destruct o; [|reflexivity]. rewrite (IHl _ (At_left _ _ _ _ _ _ H)).
    now rewrite (inplace_same q q' e S l r _ _ (At_left _ _ _ _ _ _ H) (At_right _ _ _ _ _ _ H)).
Qed.

Lemma sizes_same q q' e : same_leaves q q' e -> sizes_ok zero one add mul q e -> sizes_ok zero one add mul q' e.
Proof. intros S Z k x H V. rewrite (eval_same q q' e S x k H). exact (Z k x H V). Qed.

Lemma disciplined_same q q' e : same_leaves q q' e -> disciplined zero one add mul q e -> disciplined zero one add mul q' e.
Proof.
  intros S D k n l r H I x Hx. rewrite (path_same q q' e S l _ (At_left _ _ _ _ _ _ H)) in Hx.
  rewrite (inplace_same q q' e S l r _ _ (At_left _ _ _ _ _ _ H) (At_right _ _ _ _ _ _ H)) in I. exact (D k n l r H I x Hx).
Qed.

Lemma legible_same q q' e : same_leaves q q' e -> legible zero one add mul q e -> legible zero one add mul q' e.
Proof.
  intros S D k n l r H I x Hx. rewrite (path_same q q' e S l _ (At_left _ _ _ _ _ _ H)) in Hx.
  rewrite (inplace_same q q' e S l r _ _ (At_left _ _ _ _ _ _ H) (At_right _ _ _ _ _ _ H)) in I. exact (D k n l r H I x Hx).
Qed.
End Same.

Lemma right_same dbg q q' e : same_leaves 0%R 1%R Rplus Rmult q q' e -> right_everywhere dbg q e -> right_everywhere dbg q' e.
Proof.
  intros S [R1 R2]. split.
  - intros k n o x i H Hi. apply (R1 k n o x i H). unfold evalR in *. now rewrite <- (eval_same _ _ _ _ q q' e S x _ (At_un _ _ _ _ _ H)).
  - intros k n o l r a b H Hi. apply (R2 k n o l r a b H). unfold operandsR in *.
    now rewrite <- (operands_same _ _ _ _ q q' e S l r _ _ (At_left _ _ _ _ _ _ H) (At_right _ _ _ _ _ _ H)).
Qed.

Section Again.
Variable dbg : bool.
Notation run := (run 0%R 1%R Rplus Rmult dbg).

(** the target's storage holds x; the model can be run *)
Record standing (out : expr R) (p : nat) (tgt : tensor) (pred x : list R) (s : st R) (who : nat -> owner) : Prop := {
  st_tree : trainable_tree out s;
  st_sep : separate out s who;
  st_grad : graded out s;
  st_hold : holders s p = Some tgt;
  st_who : who (ref tgt) = OLeaf;
  st_aside : aside s out (ref tgt);
  st_data : nth_error (hp s) (ref tgt) = Some x;
  st_len : length x = prod (shape tgt);
  st_pred : evalR (env_of s) out = Some (shape tgt, pred)
}.

Lemma spread_run o own_ h m b f mm bb wgt n p tgt out s who x pred :
  o = UNew own_ (ew h) m b -> (forall i, f i = Some ([1], [wgt i])) ->
  let loss := EUn (3 + n) (UNew false f mm bb) (EUn (2 + n) o (e_minus n (EHold p) out)) in
  NoDup (ids loss) -> standing out p tgt pred x s who ->
  exists t s' who', run loss s = Ok (t, s') /\ val_of (hp s') t = ([1], [wgt (shape tgt, map h (map2 Rminus x pred))]) /\
    standing out p tgt pred (map2 Rminus x pred) s' who' /\
    (forall a, a < length (hp s) -> a <> ref tgt -> who a = OLeaf -> who' a = OLeaf /\ nth_error (hp s') a = nth_error (hp s) a) /\
    length (hp s) <= length (hp s').
Proof.
  intros Eo_ Ef loss Hids [(Vo & To & Zo & Do & Lo) So Go Hh Hw As Ht Lt Ep].
  destruct (Zo None out (At_root out) Vo) as (w & Ew & Lw & Nw). assert (Q : w = (shape tgt, pred)) by (unfold evalR in Ep; congruence). subst w.
  cbn [fst snd] in Lw, Nw.
  set (r := EUn n op_negative out) in *. set (sh := shape tgt) in *. set (d := map2 Rminus x pred) in *.
  assert (Ld : length d = prod sh) by (unfold d; rewrite map2_length; lia).
  assert (Er : evalR (env_of s) r = Some (sh, map Ropp pred)) by (apply neg_value; assumption).
  assert (Zr : sizes_ok 0%R 1%R Rplus Rmult (env_of s) r).
  { apply (sizes_un _ _ _ _ _ _ _ _ (sh, map Ropp pred)); [exact Zo|exact Er|cbn; now rewrite map_length|]. cbn. intros E. apply Nw. now apply map_eq_nil in E. }
  assert (Nr : NoDup (1 + n :: ids r)).
  { assert (I : ids loss = 3 + n :: 2 + n :: 1 + n :: ids r) by reflexivity. rewrite I in Hids.
    now apply NoDup_cons_iff in Hids as [_ Hids]; apply NoDup_cons_iff in Hids as [_ Hids]. }
  assert (I : forall k z, At out k z -> exists k', At loss k' z).
  { intros k z H. pose proof (At_below n op_negative out k z H) as H1. destruct (At_right_in (1 + n) BPlus (EHold p) _ _ _ H1) as (k' & H2).
    eexists. exact (At_below (3 + n) _ _ _ _ (At_below (2 + n) o _ _ _ H2)). }
  destruct (over_run 0%R 1%R Rplus Rmult dbg (env_of s) (1 + n) p r eq_refl Nr Zr (disciplined_un _ _ _ _ _ _ _ _ Do) (legible_un _ _ _ _ _ _ _ _ Lo)
    sh x (map Ropp pred) (ref tgt) Lt Er loss ([1], [wgt (sh, map h d)]) s who) as (t & s' & who' & R1 & E1 & V1 & B1 & C1).
  { unfold loss. apply (over_un _ _ _ _ _ _ _ _ _ _ _ _ _ (sh, map h d)); [|apply Ef]. rewrite Eo_. apply (over_un _ _ _ _ _ _ _ _ _ _ _ _ _ (sh, d)); [|reflexivity].
    unfold e_minus, d. rewrite <- map2_opp. apply over_sum. }
  { exact Hids. }
  { destruct So as (S1 & S2 & S3 & S4 & S5). destruct As as (A1 & A2 & A3).
    assert (J : forall k z, At r k z -> is_leaf z = true -> exists k', At out k' z).
    { intros k z H L. destruct (At_un_inv _ _ _ _ _ H) as [[_ ->]|E]; [discriminate|exact E]. }
    constructor; cbn [set_ran set_cache hp holders vars cache own ownb]; try assumption; try reflexivity.
    - split; [|split; [|split; [|split]]]; try assumption.
      + intros k v H. destruct (J k _ H eq_refl) as (k' & H'). exact (S1 k' v H').
      + intros k u t H. destruct (J k _ H eq_refl) as (k' & H'). exact (S2 k' u t H').
      + intros k t H. destruct (J k _ H eq_refl) as (k' & H'). exact (S3 k' t H').
    - intros k v H. destruct (J k _ H eq_refl) as (k' & H'). exact (Go k' v H').
    - rewrite Hh. destruct tgt. reflexivity.
    - intros k z u H L E. destruct (J k _ H L) as (k' & H'). destruct z; try discriminate; cbn [loc set_ran set_cache holders vars] in E.
      + injection E as <-. exact (A1 k' _ H').
      + exact (A2 k' _ _ H' E).
      + injection E as <-. exact (A3 k' _ H'). }
  destruct C1 as [Cv Ch Ct Cl Cw Cf Cg _ _ _ _]. rewrite map2_opp in Cg. fold d in Cg.
  assert (La : ref tgt < length (hp s)) by (apply nth_error_Some; rewrite Ht; discriminate).
  exists t, s', who'. split; [exact R1|]. split; [exact V1|]. split; [|split; [|exact Cl]].
  2:{ intros a Ha Na Wa. split; [now rewrite Cw|]. apply Cf; try assumption; congruence. }
  (* the model's leaves are as before *)
  assert (Live : forall u, snd (val_of (hp s) u) <> [] -> ref u < length (hp s)).
  { intros u N. destruct (Nat.lt_ge_cases (ref u) (length (hp s))) as [L|L]; [exact L|]. exfalso. apply N. cbn. now rewrite nth_overflow. }
  assert (Keep : forall u, who (ref u) = OLeaf -> ref u <> ref tgt -> snd (val_of (hp s) u) <> [] -> val_of (hp s') u = val_of (hp s) u).
  { intros u W N L. apply val_of_eq. apply Cf; [now apply Live|assumption|congruence|congruence]. }
  destruct So as (S1 & S2 & S3 & S4 & S5). destruct As as (A1 & A2 & A3).
  assert (SL : same_leaves 0%R 1%R Rplus Rmult (env_of s) (env_of s') out).
  { intros k z H L. destruct (Zo k z H) as (w & Ew' & _ & Nw'); [intros c ->; discriminate L|]. destruct z; try discriminate L; cbn [eval env_of e_var e_hold e_const] in Ew' |- *.
    - f_equal. injection Ew' as <-. rewrite Cv. apply Keep; [exact (proj1 (S1 k _ H))|exact (A1 k _ H)|exact Nw'].
    - rewrite Ch. destruct (holders s p0) as [u|] eqn:Eu; [|reflexivity]. f_equal. injection Ew' as <-. apply Keep; [exact (S2 k _ _ H Eu)|exact (A2 k _ _ H Eu)|exact Nw'].
    - f_equal. injection Ew' as <-. apply Keep; [exact (S3 k _ H)|exact (A3 k _ H)|exact Nw']. }
  constructor.
  - split; [exact Vo|]. split; [exact To|]. split; [exact (sizes_same _ _ _ _ _ _ _ SL Zo)|].
    split; [exact (disciplined_same _ _ _ _ _ _ _ SL Do)|exact (legible_same _ _ _ _ _ _ _ SL Lo)].
  - exact (separate_sub loss out s' who' I (b_sep _ _ _ _ _ _ _ _ B1)).
  - exact (graded_sub loss out s' I (b_grad _ _ _ _ _ _ _ _ B1)).
  - now rewrite Ch.
  - now rewrite Cw.
  - split; [|split]; rewrite ?Cv, ?Ch; assumption.
  - exact Cg.
  - exact Ld.
  - unfold evalR. rewrite (eval_same _ _ _ _ _ _ _ SL out None (At_root out)). exact Ep.
Qed.

Notation runs := (runs dbg).

Lemma map2_minus_scale a x y : map2 Rminus (map2 Rminus x (map (Rmult a) y)) y = map2 Rminus x (map (Rmult (a + 1)) y).
Proof. revert y. induction x as [|u x IH]; intros [|v y]; cbn; try reflexivity. rewrite IH. f_equal. ring. Qed.

Lemma runs_ok o own_ h m b f mm bb wgt n p tgt out pred :
  o = UNew own_ (ew h) m b -> (forall i, f i = Some ([1], [wgt i])) ->
  let loss := EUn (3 + n) (UNew false f mm bb) (EUn (2 + n) o (e_minus n (EHold p) out)) in
  NoDup (ids loss) -> forall k j s who target, standing out p tgt pred (map2 Rminus target (map (Rmult (INR j)) pred)) s who ->
  exists s' who', runs k loss s = Ok (map (fun i => ([1], [wgt (shape tgt, map h (map2 Rminus target (map (Rmult (INR (S i))) pred)))])) (seq j k), s') /\
    standing out p tgt pred (map2 Rminus target (map (Rmult (INR (j + k))) pred)) s' who' /\
    (forall a, a < length (hp s) -> a <> ref tgt -> who a = OLeaf -> nth_error (hp s') a = nth_error (hp s) a).
Proof.
  intros Eo Ef loss Hids. induction k as [|k IH]; intros j s who target St.
  - exists s, who. cbn [runs seq map]. split; [reflexivity|]. rewrite Nat.add_0_r. auto.
  - destruct (spread_run o own_ h m b f mm bb wgt n p tgt out s who _ pred Eo Ef Hids St) as (t & s1 & who1 & R1 & V1 & St1 & F1 & L1).
    rewrite map2_minus_scale in V1, St1. replace (INR j + 1)%R with (INR (S j)) in * by apply S_INR.
    destruct (IH (S j) s1 who1 target St1) as (s2 & who2 & R2 & St2 & F2).
    exists s2, who2. split; [|split].
    + cbn [runs]. fold loss in R1. rewrite R1, R2, V1. reflexivity.
    + now rewrite Nat.add_succ_r.
    + intros a Ha Na Wa. destruct (F1 a Ha Na Wa) as [W E]. rewrite F2; [exact E|lia|exact Na|exact W].
Qed.
End Again.
