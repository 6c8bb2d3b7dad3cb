(** squared_loss, mean_squared_error, abs_loss, mean_absolute_error. *)
From Coq Require Import List Arith Lia Bool PeanoNat Reals Lra FunctionalExtensionality.
From Coquelicot Require Import Rcomplements Hierarchy Derive.
From Verif Require Import ListBase TensorModel TensorSpec TensorProofs TensorProofs2 ArrayModel GraphModel GraphSpec GraphProofs GraphProofs2
  GraphProofs3 GraphProofs4 GradSpec GradProofs GradProofs2 GradProofs3 LayerSpec CalcSpec CalcProofs CalcProofs2 CalcProofs3 GraphProps OpModel OpSpec OpProofs
  OpRules OpProofs2 OpProofs5 OpProps GradProps ComplexModel ComplexRun LossRun LossRun2 LossModel LossSpec LossProofs LossProofs2.
Import ListNotations.
Local Open Scope nat_scope.

Lemma map2_opp x y : map2 Rplus x (map Ropp y) = map2 Rminus x y.
Proof. revert y. induction x as [|a x IH]; intros [|b y]; cbn; try reflexivity. now rewrite IH. Qed.

Lemma rsum_map_map2 h x y : rsum (map h (map2 Rminus x y)) = spread h x y.
Proof. unfold spread. revert y. induction x as [|a x IH]; intros [|b y]; cbn; try reflexivity. now rewrite IH. Qed.

Lemma sum_all_rsum l : sum_all l = rsum l.
Proof. rewrite (sum_all_tab l (length l) eq_refl). now rewrite tab_nth. Qed.

Section Values.
Variables (q : env R) (n p : nat) (out : expr R) (sh : list nat) (target pred : list R).
Hypothesis Eh : e_hold q p = Some (sh, target).
Hypothesis Eo : evalR q out = Some (sh, pred).
Hypothesis Lt : length target = prod sh.
Hypothesis Lp : length pred = prod sh.

Lemma no_value : is_value out = false.
Proof. destruct out; try reflexivity. discriminate Eo. Qed.

Lemma neg_value m : evalR q (EUn m op_negative out) = Some (sh, map Ropp pred).
Proof. unfold evalR in *. cbn [eval]. rewrite Eo. reflexivity. Qed.

Lemma minus_operands : operandsR q (EHold p) (EUn n op_negative out) = Some ((sh, target), (sh, map Ropp pred)).
Proof.
  rewrite operandsR_cases by reflexivity. pose proof (neg_value n) as E. unfold evalR in E |- *. cbn [eval] in E |- *. rewrite Eh. cbn [obind2].
  rewrite E. reflexivity.
Qed.

Lemma minus_value : evalR q (e_minus n (EHold p) out) = Some (sh, map2 Rminus target pred).
Proof.
  unfold e_minus. rewrite evalR_bin, minus_operands. cbn [obind2 fst snd apply2]. rewrite plus_same; [now rewrite map2_opp|assumption|now rewrite map_length].
Qed.

Lemma spread_value o h : (forall i, apply1 o i = ew h i) -> evalR q (EUn (2 + n) o (e_minus n (EHold p) out)) = Some (sh, map h (map2 Rminus target pred)).
Proof. intros Ho. pose proof minus_value as E. unfold evalR in *. cbn [eval]. change (2 + n) with (S (S n)). rewrite E. specialize (Ho (sh, map2 Rminus target pred)).
  unfold apply1 in Ho. destruct o; exact Ho. Qed.
End Values.

Section Losses.
Variable dbg : bool.
Variable eps : R.
Notation grads := (grads 0%R 1%R Rplus Rmult dbg).
Notation run := (run 0%R 1%R Rplus Rmult dbg).
Notation backs := (backs 0%R 1%R Rplus Rmult Ropp rleb eps dbg).
Notation sizes_ok := (sizes_ok 0%R 1%R Rplus Rmult).

(** the storages of a loss, seen from the model *)
Lemma separate_sub (e out : expr R) s who : (forall k x, At out k x -> exists k', At e k' x) -> separate e s who -> separate out s who.
Proof.
  intros I (S1 & S2 & S3 & S4 & S5). split; [|split; [|split; [|split]]]; try assumption.
  - intros k v H. destruct (I k _ H) as (k' & H'). exact (S1 k' v H').
  - intros k u t H. destruct (I k _ H) as (k' & H'). exact (S2 k' u t H').
  - intros k t H. destruct (I k _ H) as (k' & H'). exact (S3 k' t H').
Qed.
Lemma graded_sub (e out : expr R) s : (forall k x, At out k x -> exists k', At e k' x) -> graded e s -> graded out s.
Proof. intros I G k v H. destruct (I k _ H) as (k' & H'). exact (G k' v H'). Qed.
Lemma At_right_in n o (l r : expr R) k x : At r k x -> exists k', At (EBin n o l r) k' x.
Proof.
  intros H. induction H as [|k m o' y H [k' IH]|k m o' a b H [k' IH]|k m o' a b H [k' IH]]; eexists.
  - exact (At_right _ _ _ _ _ _ (At_root _)).
  - exact (At_un _ _ _ _ _ IH).
  - exact (At_left _ _ _ _ _ _ IH).
  - exact (At_right _ _ _ _ _ _ IH).
Qed.

Theorem spread_train o own_ h m b wgt c n p tgt out s who target pred :
  o = UNew own_ (ew h) m b ->
  let loss := EUn (3 + n) (UNew false (fun i => Some ([1], [wgt i])) IntoNew (fill_back (fun i => c (fst i)))) (EUn (2 + n) o (e_minus n (EHold p) out)) in
  trainable_tree out s -> separate out s who -> graded out s -> right_everywhere dbg (env_of s) out -> training s = true ->
  NoDup (ids loss) -> holders s p = Some tgt -> who (ref tgt) = OLeaf -> aside s out (ref tgt) ->
  nth_error (hp s) (ref tgt) = Some target -> length target = prod (shape tgt) -> shape tgt <> [] ->
  evalR (env_of s) out = Some (shape tgt, pred) ->
  right1 o (shape tgt, map2 Rminus target pred) ->
  trained dbg eps loss out s who (ref tgt) (wgt (shape tgt, map h (map2 Rminus target pred))) (map2 Rminus target pred)
    (fun y => c (shape tgt) * spread_of h target y)%R exactly.
Proof.
  intros Eo_ loss (Vo & To & Zo & Do & Lo) So Go Ro Tr Hids Hh Hw As Ht Lt Nsh Ep Rh.
  assert (Nv : evalue out = false) by (destruct out; try reflexivity; now destruct (Vo c0)).
  destruct (Zo None out (At_root out) Vo) as (w & Ew & Lw & Nw). assert (Q : w = (shape tgt, pred)) by (unfold evalR in Ep; congruence). subst w.
  cbn [fst snd] in Lw, Nw.
  assert (Eh : e_hold (env_of s) p = Some (shape tgt, target)).
  { cbn [env_of e_hold]. rewrite Hh. unfold val_of. now rewrite (nth_error_nth _ _ _ Ht). }
  set (r := EUn n op_negative out) in *. set (sh := shape tgt) in *. set (d := map2 Rminus target pred) in *.
  assert (Ld : length d = prod sh) by (unfold d; rewrite map2_length; lia).
  assert (Nd : d <> []) by (intros E; apply Nw; apply length_zero_iff_nil; rewrite E in Ld; cbn in Ld; lia).
  assert (Er : evalR (env_of s) r = Some (sh, map Ropp pred)) by (apply neg_value; assumption).
  assert (Ed : evalR (env_of s) (e_minus n (EHold p) out) = Some (sh, d)) by (now apply minus_value).
  set (X := EUn (2 + n) o (e_minus n (EHold p) out)) in *.
  assert (Ex : evalR (env_of s) X = Some (sh, map h d)) by (apply spread_value; try assumption; rewrite Eo_; reflexivity).
  (* sizes *)
  assert (Zr : sizes_ok (env_of s) r).
  { apply (sizes_un _ _ _ _ _ _ _ _ (sh, map Ropp pred)); [exact Zo|exact Er|cbn; now rewrite map_length|]. cbn. intros E. apply Nw. now apply map_eq_nil in E. }
  assert (Zh : sizes_ok (env_of s) (EHold p)).
  { intros k z H _. apply At_all in H. cbn in H. destruct H as [H|[]]. injection H as <- <-. cbn [eval]. exists (sh, target). split; [exact Eh|]. split; [exact Lt|].
    cbn. intros E. apply Nw. apply length_zero_iff_nil. rewrite E in Lt. cbn in Lt. lia. }
  assert (Zd : sizes_ok (env_of s) (e_minus n (EHold p) out)).
  { apply (sizes_bin _ _ _ _ _ _ _ _ _ (sh, d)); assumption. }
  assert (ZX : sizes_ok (env_of s) X).
  { apply (sizes_un _ _ _ _ _ _ _ _ (sh, map h d)); [exact Zd|exact Ex|cbn; now rewrite map_length|]. cbn. intros E. apply Nd. now apply map_eq_nil in E. }
  assert (Zl : forall f mm bb vv, f (sh, map h d) = Some ([1], [vv]) -> sizes_ok (env_of s) (EUn (3 + n) (UNew false f mm bb) X)).
  { intros f mm bb vv E. apply (sizes_un _ _ _ _ _ _ _ _ ([1], [vv])); [exact ZX| |reflexivity|discriminate].
    unfold evalR in Ex. cbn [eval]. rewrite Ex. exact E. }
  (* the rule is right for the sum *)
  set (E' := EUn (3 + n) op_sum_reduce X).
  assert (RX : right_everywhere dbg (env_of s) X).
  { apply right_un.
    - apply right_bin; [apply right_hold| |].
      + apply right_un; [exact Ro|]. intros i Ei. assert (i = (sh, pred)) by congruence. subst i. pose proof (C30_right_everywhere (sh, pred) 0%R Lw) as F. rewrite Forall_forall in F. apply F. cbn; tauto.
      + intros a b0 Hab. rewrite (minus_operands _ n p out sh target pred Eh Ep) in Hab. injection Hab as <- <-.
        assert (Pn : prod sh <> 0) by (intros E; apply Nd; apply length_zero_iff_nil; lia).
        apply (plus_right dbg _ _ sh); try assumption. apply Broadcasts_refl.
    - intros i Ei. assert (i = (sh, d)) by congruence. subst i. exact Rh. }
  assert (RE : right_everywhere dbg (env_of s) E').
  { apply right_un; [exact RX|]. intros i Ei. assert (i = (sh, map h d)) by congruence. subst i. apply sum_reduce_right. unfold sized. cbn. now rewrite map_length. }
  destruct (grads_derive dbg (env_of s) E' eq_refl (Zl _ _ _ _ eq_refl) RE) as (y & Ey & Sy & HG).
  assert (Ey' : evalR (env_of s) E' = Some ([1], [sum_all (map h d)])). { unfold evalR in Ex |- *. unfold E'. cbn [eval]. rewrite Ex. reflexivity. }
  pose proof (eq_trans (eq_sym Ey) Ey') as Q. injection Q as ->. clear Ey'.
  destruct (HG ([1], [c sh]) None eq_refl eq_refl) as (ds & Eds & Fds & HD).
  assert (Gl : grads (env_of s) None loss ([1], [1%R]) = Some ds).
  { rewrite <- Eds. unfold loss, E'. cbn [GradSpec.grads]. unfold evalR in Ex. rewrite Ex. cbn [obind2 GradSpec.local1]. unfold op_sum_reduce. cbn [obind2].
    unfold fill_back. cbn [snd fst]. cbv beta. now replace (1 * 1 * c sh)%R with (1 * c sh * 1)%R by ring. }
  assert (Nr : NoDup (1 + n :: ids r)).
  { assert (I : ids loss = 3 + n :: 2 + n :: 1 + n :: ids r) by reflexivity. rewrite I in Hids.
    now apply NoDup_cons_iff in Hids as [_ Hids]; apply NoDup_cons_iff in Hids as [_ Hids]. }
  destruct (over_train dbg eps (1 + n) p r sh target (map Ropp pred) (ref tgt) loss ([1], [wgt (sh, map h d)]) s who ([1], [1%R]) ds)
    as (t & s1 & s2 & who2 & R1 & R2 & V1 & E1 & S2 & G2 & Vs & Hs & Ts & Ls & Ws & Tg & Fr & Vb & HT).
  { reflexivity. } { exact Nr. } { exact Zr. } { now apply disciplined_un. } { now apply legible_un. } { exact Lt. } { exact Er. }
  { unfold loss. apply (over_un _ _ _ _ _ _ _ _ _ _ _ _ _ (sh, map h d)); [|reflexivity]. unfold X. rewrite Eo_. apply (over_un _ _ _ _ _ _ _ _ _ _ _ _ _ (sh, d)); [|reflexivity].
    unfold e_minus, d. rewrite <- map2_opp. apply over_sum. }
  { exact Hids. } { now apply (Zl _ _ _ (wgt (sh, map h d))). }
  { destruct So as (S1 & S2 & S3 & S4 & S5). destruct As as (A1 & A2 & A3).
    assert (I : forall k z, At r k z -> is_leaf z = true -> exists k', At out k' z).
    { intros k z H L. destruct (At_un_inv _ _ _ _ _ H) as [[_ ->]|E]; [discriminate|exact E]. }
    constructor; cbn [set_ran set_cache hp holders vars cache own ownb]; try assumption; try reflexivity.
    - split; [|split; [|split; [|split]]]; try assumption.
      + intros k v H. destruct (I k _ H eq_refl) as (k' & H'). exact (S1 k' v H').
      + intros k u t H. destruct (I k _ H eq_refl) as (k' & H'). exact (S2 k' u t H').
      + intros k t H. destruct (I k _ H eq_refl) as (k' & H'). exact (S3 k' t H').
    - intros k v H. destruct (I k _ H eq_refl) as (k' & H'). exact (Go k' v H').
    - rewrite Hh. destruct tgt. reflexivity.
    - intros k z u H L E. destruct (I k _ H L) as (k' & H'). destruct z; try discriminate; cbn [loc set_ran set_cache holders vars] in E.
      + injection E as <-. exact (A1 k' _ H').
      + exact (A2 k' _ _ H' E).
      + injection E as <-. exact (A3 k' _ H'). }
  { exact Gl. } { exact Fds. }
  assert (I : forall k z, At out k z -> exists k', At loss k' z).
  { intros k z H. pose proof (At_below n op_negative out k z H) as H1. destruct (At_right_in (1 + n) BPlus (EHold p) _ _ _ H1) as (k' & H2).
    eexists. exact (At_below (3 + n) _ _ _ _ (At_below (2 + n) o _ _ _ H2)). }
  exists t, s1, s2, who2. split; [exact R1|]. split; [exact V1|]. split; [exact R2|]. split.
  2:{ rewrite map2_opp in Tg. split; [exact Tg|]. split; [exact Fr|]. split; [exact Vs|]. split; [exact Hs|]. split; [exact Ts|]. split; [exact Vb|].
      split; [exact (separate_sub loss out s2 who2 I S2)|]. split; [exact (graded_sub loss out s2 I G2)|]. split; assumption. }
  intros k v i Hk Htr Hi x0 Hx. eexists. split; [|reflexivity]. destruct (HT Tr k v Hk) as [_ H']. specialize (H' i Hi). unfold grad_of. rewrite Vs, H'.
  rewrite (arrived_total (vobjs s) v i ds (uses None loss)).
  2:{ exact (grads_uses dbg (env_of s) loss None _ ds Gl). }
  2:{ intros k' Hin. apply Htr. now apply (uses_at loss loss None (At_root loss)). }
  destruct (At_un_inv _ _ _ _ _ Hk) as [[_ E]|(k1 & Hk1)]; [discriminate E|].
  assert (Hout : exists k2, At out k2 (EVar v)).
  { destruct (At_un_inv _ _ _ _ _ Hk1) as [[_ E]|(k2 & Hk2)]; [discriminate E|].
    destruct (At_bin_inv _ _ _ _ _ _ Hk2) as [[_ E]|[(k3 & Hk3)|(k3 & Hk3)]]; [discriminate E| |].
    - apply At_all in Hk3. cbn in Hk3. destruct Hk3 as [E|[]]; discriminate E.
    - destruct (At_un_inv _ _ _ _ _ Hk3) as [[_ E]|(k4 & Hk4)]; [discriminate E|eauto]. }
  destruct Hout as (k2 & Hk2).
  apply (is_derive_plus (K := R_AbsRing) (V := R_NormedModule) (fun x => c sh * spread_of h target (evalR (nudge (env_of s) v i x) out))%R (cost eps (vobjs s) v (uses None loss))).
  - pose proof (HD _ v i (At_below (3 + n) op_sum_reduce X _ _ Hk1) Hi) as D.
    revert D. apply is_derive_ext_loc.
    destruct (nudged_chain dbg (env_of s) out Nv Zo Ro) as (y & Ey' & _ & _ & HC). assert (y = (sh, pred)) by congruence. subst y.
    destruct (HC k2 v i Hk2 Hi) as (dy & T & _). generalize (tan_near _ _ _ _ T). apply filter_imp. intros z (w & Ez & Sw & Zw).
    destruct w as [sw w]. cbn [fst] in Sw. subst sw. unfold sized in Zw. cbn [fst snd] in Zw.
    pose proof (spread_value (nudge (env_of s) v i z) n p out sh target w Eh Ez Lt Zw o h ltac:(rewrite Eo_; reflexivity)) as EX.
    unfold E'. unfold evalR in EX |- *. fold X in EX. cbn [eval]. rewrite EX. cbn [obind2]. unfold op_sum_reduce. cbn [paired snd]. unfold evalR in Ez. rewrite Ez. cbn [spread_of snd].
    rewrite sum_all_rsum, rsum_map_map2. unfold inner. cbn. ring.
  - apply cost_derive.
    + intros k' Hin. apply Htr. now apply (uses_at loss loss None (At_root loss)).
    + intros k' Hin Hle. destruct Hx as [Hx|Hx]; [exact Hx|]. specialize (Hx k' (uses_at loss loss None (At_root loss) k' v Hin)). lra.
Qed.
End Losses.
