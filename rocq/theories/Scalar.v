(** Derivatives of the scalar functions, and points where there is none. *)
From Coq Require Import Reals Lra Lia Psatz.
From Coquelicot Require Import Coquelicot.
Local Open Scope R_scope.

Lemma from_lim (f : R -> R) (x l : R) : derivable_pt_lim f x l -> is_derive f x l.
Proof. apply is_derive_Reals. Qed.

Lemma d_eq (f : R -> R) (x d d' : R) : is_derive f x d -> d = d' -> is_derive f x d'.
Proof. now intros ? <-. Qed.

(** a neighbourhood in plain terms *)
Lemma near_above x a (P : R -> Prop) : a < x -> (forall t, a < t -> P t) -> locally x P.
Proof. intros H HP. apply (locally_interval P x a p_infty); simpl; auto. Qed.
Lemma near_below x b (P : R -> Prop) : x < b -> (forall t, t < b -> P t) -> locally x P.
Proof. intros H HP. apply (locally_interval P x m_infty b); simpl; auto. Qed.
Lemma near_between x a b (P : R -> Prop) : a < x -> x < b -> (forall t, a < t -> t < b -> P t) -> locally x P.
Proof. intros H H' HP. apply (locally_interval P x a b); simpl; auto. Qed.

(** a function that is zero on one side has no derivative but zero *)
Lemma one_sided_right (f : R -> R) (x l d : R) : 0 < d -> (forall t, x <= t < x + d -> f t = 0) -> is_derive f x l -> l = 0.
Proof.
  intros Hd H D. apply is_derive_Reals in D. destruct (Req_dec l 0) as [|N]; [assumption|exfalso].
  destruct (D (Rabs l)) as [e He]; [now apply Rabs_pos_lt|]. pose proof (cond_pos e).
  set (h := Rmin (d / 2) (e / 2)). assert (h <= d / 2) by apply Rmin_l. assert (h <= e / 2) by apply Rmin_r.
  assert (0 < h) by (apply Rmin_glb_lt; lra). specialize (He h). rewrite (H (x + h)), (H x) in He by lra.
  replace ((0 - 0) / h - l) with (- l) in He by (field; lra). rewrite Rabs_Ropp in He. rewrite (Rabs_pos_eq h) in He by lra.
  specialize (He ltac:(lra) ltac:(lra)). lra.
Qed.

Lemma one_sided_left (f : R -> R) (x l d : R) : 0 < d -> (forall t, x - d < t <= x -> f t = 0) -> is_derive f x l -> l = 0.
Proof.
  intros Hd H D. assert (E : - l = 0).
  - apply (one_sided_right (fun t => f (- t)) (- x) (- l) d); [assumption|intros; apply H; lra|].
    apply (d_eq _ _ ((-1) * l)); [|lra]. apply (is_derive_comp f (fun t => - t)).
    + now rewrite Ropp_involutive.
    + auto_derive; auto.
  - lra.
Qed.

(** different derivatives on the two sides: none at all *)
Lemma kink (f u v : R -> R) (x du dv d : R) : 0 < d -> (forall t, x - d < t <= x -> f t = u t) -> (forall t, x <= t < x + d -> f t = v t) ->
  is_derive u x du -> is_derive v x dv -> du <> dv -> forall l, ~ is_derive f x l.
Proof.
  intros Hd Hu Hv Du Dv N l D. apply N.
  assert (l - du = 0).
  { apply (one_sided_left (fun t => f t - u t) x _ d); [assumption|intros; rewrite Hu by assumption; lra|]. now apply @is_derive_minus. }
  assert (l - dv = 0).
  { apply (one_sided_right (fun t => f t - v t) x _ d); [assumption|intros; rewrite Hv by assumption; lra|]. now apply @is_derive_minus. }
  lra.
Qed.

(** ** Smooth functions *)

Lemma d_acos x : -1 < x < 1 -> is_derive acos x (- / sqrt (1 - x * x)).
Proof.
  intros H. apply from_lim. rewrite <- (derive_pt_eq acos x _ (derivable_pt_acos x H)).
  rewrite derive_pt_acos. unfold Rdiv, Rsqr. lra.
Qed.
Lemma d_asin x : -1 < x < 1 -> is_derive asin x (/ sqrt (1 - x * x)).
Proof.
  intros H. apply from_lim. rewrite <- (derive_pt_eq asin x _ (derivable_pt_asin x H)).
  rewrite derive_pt_asin. unfold Rdiv, Rsqr. lra.
Qed.
Lemma d_asinh x : is_derive arcsinh x (/ sqrt (1 + x * x)).
Proof. apply from_lim. replace (1 + x * x) with (x ^ 2 + 1) by ring. apply derivable_pt_lim_arcsinh. Qed.
Lemma d_atan x : is_derive atan x (/ (1 + x * x)).
Proof.
  apply from_lim. rewrite <- (derive_pt_eq atan x _ (derivable_pt_atan x)).
  rewrite derive_pt_atan. unfold Rdiv, Rsqr. rewrite ?Rmult_1_l. reflexivity.
Qed.
Lemma d_cosh x : is_derive cosh x (sinh x).
Proof. apply from_lim, derivable_pt_lim_cosh. Qed.
Lemma d_sinh x : is_derive sinh x (cosh x).
Proof. apply from_lim, derivable_pt_lim_sinh. Qed.
Lemma d_sin x : is_derive sin x (cos x).
Proof. apply is_derive_sin. Qed.
Lemma d_cos x : is_derive cos x (- sin x).
Proof. apply is_derive_cos. Qed.
Lemma d_exp x : is_derive exp x (exp x).
Proof. apply is_derive_exp. Qed.
Lemma d_ln x : 0 < x -> is_derive ln x (/ x).
Proof. intros H. apply from_lim. now apply derivable_pt_lim_ln. Qed.
Lemma d_sqrt x : 0 < x -> is_derive sqrt x (/ (2 * sqrt x)).
Proof. intros H. apply from_lim. now apply derivable_pt_lim_sqrt. Qed.

Lemma cosh_pos x : 0 < cosh x.
Proof. unfold cosh. pose proof (exp_pos x). pose proof (exp_pos (- x)). lra. Qed.
Lemma cosh_sinh x : cosh x * cosh x - sinh x * sinh x = 1.
Proof.
  unfold cosh, sinh. assert (E : exp x * exp (- x) = 1) by (rewrite <- exp_plus, Rplus_opp_r; apply exp_0). nra.
Qed.
Lemma d_tanh x : is_derive tanh x (1 - tanh x * tanh x).
Proof.
  pose proof (cosh_pos x). apply (d_eq _ _ ((cosh x * cosh x - sinh x * sinh x) / (cosh x) ^ 2)).
  - apply (is_derive_div sinh cosh x (cosh x) (sinh x)); [apply d_sinh|apply d_cosh|lra].
  - unfold tanh. field. lra.
Qed.
Lemma d_tan x : cos x <> 0 -> is_derive tan x (1 + tan x * tan x).
Proof.
  intros H. apply (d_eq _ _ ((cos x * cos x - (- sin x) * sin x) / (cos x) ^ 2)).
  - apply (d_eq _ _ ((cos x * cos x - sin x * (- sin x)) / (cos x) ^ 2)); [|field; assumption].
    apply (is_derive_div sin cos x (cos x) (- sin x)); [apply d_sin|apply d_cos|assumption].
  - unfold tan. field. assumption.
Qed.
Lemma d_rpower a x : 0 < x -> is_derive (fun t => Rpower t a) x (a * Rpower x (a - 1)).
Proof.
  intros H. unfold Rpower. auto_derive; [assumption|]. rewrite !Rmult_1_l.
  replace ((a - 1) * ln x) with (a * ln x + - ln x) by ring. rewrite exp_plus, exp_Ropp, exp_ln by assumption. ring.
Qed.
Lemma d_exp2 x : is_derive (fun t => Rpower 2 t) x (ln 2 * Rpower 2 x).
Proof. unfold Rpower. auto_derive; [exact I|]. ring. Qed.
