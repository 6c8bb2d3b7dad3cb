(** Rules that are wrong, and where. *)
From Coq Require Import Reals Lra Lia Psatz.
From Coquelicot Require Import Coquelicot.
From Coq Require Import List Arith Bool PeanoNat.
From Verif Require Import ListBase TensorModel GraphModel OpModel OpSpec Scalar OpRules.
Import ListNotations.
Local Open Scope R_scope.

Lemma sound_unique f h x d : sound_at f h x -> is_derive f x d -> forall g, h g = g * d.
Proof.
  intros (d' & D' & H) D g. rewrite H. f_equal. rewrite <- (is_derive_unique f x d D). symmetry. now apply is_derive_unique.
Qed.

(** ** Steps *)

Lemma floor_bounds x : floorR x <= x < floorR x + 1.
Proof. unfold floorR. destruct (base_Int_part x). lra. Qed.
Lemma floor_same x t : floorR x <= t < floorR x + 1 -> floorR t = floorR x.
Proof. intros H. unfold floorR in *. f_equal. unfold Int_part in *.
  rewrite <- (tech_up t (up x)); [reflexivity|rewrite minus_IZR in H; lra..].
Qed.

Lemma flat_right f x d : 0 < d -> (forall t, x <= t < x + d -> f t = f x) -> ~ sound_at f (fun g => g) x.
Proof.
  intros Hd H (l & D & G). assert (l = 0).
  { apply (one_sided_right (fun t => f t - f x) x l d); [assumption|intros; rewrite H by assumption; lra|].
    apply (d_eq _ _ (l - 0)); [|ring]. apply (is_derive_minus f (fun _ => f x)); [assumption|apply @is_derive_const]. }
  specialize (G 1). subst. lra.
Qed.
Lemma flat_left f x d : 0 < d -> (forall t, x - d < t <= x -> f t = f x) -> ~ sound_at f (fun g => g) x.
Proof.
  intros Hd H (l & D & G). assert (l = 0).
  { apply (one_sided_left (fun t => f t - f x) x l d); [assumption|intros; rewrite H by assumption; lra|].
    apply (d_eq _ _ (l - 0)); [|ring]. apply (is_derive_minus f (fun _ => f x)); [assumption|apply @is_derive_const]. }
  specialize (G 1). subst. lra.
Qed.

Lemma w_floor x : ~ sound_at floorR (fun g => g) x.
Proof.
  pose proof (floor_bounds x). apply (flat_right _ _ (floorR x + 1 - x)); [lra|]. intros t Ht. apply floor_same. lra.
Qed.
Lemma w_ceil x : ~ sound_at ceilR (fun g => g) x.
Proof.
  pose proof (floor_bounds (- x)). apply (flat_left _ _ (floorR (- x) + 1 + x)); [lra|]. intros t Ht. unfold ceilR. f_equal. apply floor_same. lra.
Qed.
Lemma w_trunc x : ~ sound_at truncR (fun g => g) x.
Proof.
  pose proof (floor_bounds x). pose proof (floor_bounds (- x)). unfold truncR. destruct (Rlt_dec x 0).
  - apply (flat_left _ _ (floorR (- x) + 1 + x)); [lra|]. intros t Ht. rewrite !above_true by lra. unfold ceilR. f_equal. apply floor_same. lra.
  - apply (flat_right _ _ (floorR x + 1 - x)); [lra|]. intros t Ht. rewrite !above_false by lra. apply floor_same. lra.
Qed.
Lemma w_round x : ~ sound_at roundR (fun g => g) x.
Proof.
  pose proof (floor_bounds (x + / 2)). pose proof (floor_bounds (- x + / 2)). unfold roundR. destruct (Rlt_dec x 0).
  - apply (flat_left _ _ (floorR (- x + / 2) + 1 - (- x + / 2))); [lra|]. intros t Ht. rewrite !above_true by lra. f_equal. apply floor_same. lra.
  - apply (flat_right _ _ (floorR (x + / 2) + 1 - (x + / 2))); [lra|]. intros t Ht. rewrite !above_false by lra. apply floor_same. lra.
Qed.

(** ** Formulas *)

Lemma w_log1p x : -1 < x -> x <> 0 -> ~ sound_at (fun x => ln (1 + x)) (fun g => g / x) x.
Proof.
  intros H N S. assert (D : is_derive (fun x => ln (1 + x)) x (/ (1 + x))) by (auto_derive; [lra|field; lra]).
  pose proof (sound_unique _ _ _ _ S D 1) as E. cbv beta in E. apply (f_equal (fun z => z * (x * (1 + x)))) in E.
  field_simplify in E; lra.
Qed.

Lemma w_softplus x : x <> 0 -> ~ sound_at (fun x => ln (1 + exp x)) (fun g => g / (1 - exp (- x))) x.
Proof.
  intros N S. pose proof (exp_pos x) as P. pose proof (exp_pos (- x)) as P'.
  assert (Nz : 1 - exp (- x) <> 0). { intros E. assert (E' : exp (- x) = exp 0) by (rewrite exp_0; lra). apply exp_inv in E'. lra. }
  assert (D : is_derive (fun x => ln (1 + exp x)) x (/ (1 + exp (- x)))).
  { auto_derive; [lra|]. rewrite exp_Ropp. field. lra. }
  pose proof (sound_unique _ _ _ _ S D 1) as E. cbv beta in E. apply (f_equal (fun z => z * ((1 - exp (- x)) * (1 + exp (- x))))) in E.
  field_simplify in E; lra.
Qed.

(** where elu's formula is right *)
Definition elu_f (a x : R) : R := if above x 0 then x else a * (exp x - 1).
Lemma w_elu a x : a <> 0 -> (sound_at (elu_f a) (fun g => if above 0 x then a * exp g else g) x <-> 0 < x \/ (x = 0 /\ a = 1)).
Proof.
  intros Ha. split.
  - intros S. destruct (Rtotal_order x 0) as [L|[->|G]]; [exfalso|right; split; [reflexivity|]|now left].
    + destruct S as (d & _ & H). specialize (H 0). rewrite above_true in H by assumption. rewrite exp_0 in H. lra.
    + destruct (Req_dec a 1) as [|N]; [assumption|exfalso]. destruct S as (d & D & _). revert D.
      apply (kink (elu_f a) (fun t => a * (exp t - 1)) (fun t => t) 0 a 1 1); try lra.
      * intros t Ht. unfold elu_f. now rewrite above_false by lra.
      * intros t Ht. unfold elu_f. destruct (above_spec t 0); [reflexivity|]. replace t with 0 by lra. rewrite exp_0. lra.
      * auto_derive; [exact I|]. rewrite exp_0. ring.
      * apply @is_derive_id.
  - intros [G|[-> ->]].
    + exists 1. split; [|intros g; rewrite above_false by lra; ring]. apply (is_derive_ext_loc (fun t => t)); [|apply @is_derive_id].
      apply (near_above x 0); [assumption|]. intros t Ht. unfold elu_f. now rewrite above_true.
    + destruct (s_selu 1 1 0) as (d & D & H); [now right|]. exists d. split.
      * apply (is_derive_ext (fun x => if above 0 x then 1 * 1 * (exp x - 1) else 1 * x)); [|assumption]. intros t. unfold elu_f.
        destruct (above_spec t 0), (above_spec 0 t); try lra; try (match goal with |- ?a = ?b => change (@eq R a b) end; lra).
        replace t with 0 by lra. match goal with |- ?a = ?b => change (@eq R a b) end. rewrite exp_0. lra.
      * intros g. specialize (H g). rewrite above_false in * by lra. lra.
Qed.

Lemma tanh_0' : tanh 0 = 0.
Proof. unfold tanh, sinh. rewrite Ropp_0, Rminus_eq_0. unfold Rdiv. now rewrite !Rmult_0_l. Qed.
Lemma w_gelu x : ~ sound_at gelu_f gelu_d x.
Proof.
  intros (d & _ & H). specialize (H 0). unfold gelu_d in H. rewrite !Rmult_0_r, !Rmult_0_l, tanh_0' in H. lra.
Qed.

(** where inverse's formula is right *)
Definition inverse_f (eps x : R) : R := if above x 0 then 1 / Rmax eps x else 1 / Rmin (- eps) x.
Lemma w_inverse eps x : 0 < eps < 1 -> (sound_at (inverse_f eps) (fun g => - g / Rmax (x * x) eps) x <-> eps <= x * x).
Proof.
  intros He. split.
  - intros S. destruct (Rle_dec eps (x * x)) as [|N]; [assumption|exfalso]. apply Rnot_le_lt in N.
    rewrite Rmax_right in S by lra. destruct S as (d & D & H). specialize (H 1). assert (Ed : d = - 1 / eps) by lra.
    assert (Nd : d <> 0). { subst d. intros E. apply Rmult_eq_compat_r with (r := eps) in E. field_simplify in E; lra. }
    assert (Far : is_derive (inverse_f eps) x (- / (x * x)) -> x <> 0 -> False).
    { intros D' Nx. apply is_derive_unique in D. apply is_derive_unique in D'. rewrite D in D'. subst d.
      assert (X : -1 / eps * (eps * (x * x)) = - / (x * x) * (eps * (x * x))) by congruence.
      replace (-1 / eps * (eps * (x * x))) with (- (x * x)) in X by (field; lra).
      replace (- / (x * x) * (eps * (x * x))) with (- eps) in X by (field; assumption). lra. }
    destruct (Rlt_dec x (- eps)) as [C1|C1]; [|destruct (Rlt_dec x 0) as [C2|C2]; [|destruct (Rle_dec x eps) as [C3|C3]]].
    + apply Far; [|lra]. apply (is_derive_ext_loc Rinv); [|auto_derive; [lra|field; lra]].
      apply (near_below x (- eps)); [assumption|]. intros t Ht. unfold inverse_f. rewrite above_false by lra. rewrite Rmin_right by lra. unfold Rdiv. now rewrite Rmult_1_l.
    + apply Nd. apply (one_sided_right (fun t => inverse_f eps t - inverse_f eps x) x d (- x)); [lra| |].
      * intros t Ht. unfold inverse_f. rewrite !above_false by lra. rewrite !Rmin_left by lra. lra.
      * apply (d_eq _ _ (d - 0)); [|ring]. apply (is_derive_minus (inverse_f eps) (fun _ => inverse_f eps x)); [assumption|apply @is_derive_const].
    + apply Nd. apply (one_sided_left (fun t => inverse_f eps t - inverse_f eps x) x d (if Rlt_dec 0 x then x else eps)); [destruct (Rlt_dec 0 x); lra| |].
      * intros t Ht. unfold inverse_f. destruct (Rlt_dec 0 x).
        -- rewrite !above_true by lra. rewrite !Rmax_left by lra. lra.
        -- rewrite !above_false by lra. rewrite !Rmin_left by lra. lra.
      * apply (d_eq _ _ (d - 0)); [|ring]. apply (is_derive_minus (inverse_f eps) (fun _ => inverse_f eps x)); [assumption|apply @is_derive_const].
    + apply Far; [|lra]. apply (is_derive_ext_loc Rinv); [|auto_derive; [lra|field; lra]].
      apply (near_above x eps); [lra|]. intros t Ht. unfold inverse_f. rewrite above_true by lra. rewrite Rmax_right by lra. unfold Rdiv. now rewrite Rmult_1_l.
  - intros H. assert (Nx : x <> 0) by nra.
    exists (- / (x * x)). split; [|intros g; rewrite Rmax_left by assumption; field; assumption].
    apply (is_derive_ext_loc Rinv).
    + destruct (Rdichotomy _ _ Nx) as [L|G].
      * apply (near_below x (- eps)); [nra|]. intros t Ht. unfold inverse_f. rewrite above_false by lra. rewrite Rmin_right by lra. unfold Rdiv. now rewrite Rmult_1_l.
      * apply (near_above x eps); [nra|]. intros t Ht. unfold inverse_f. rewrite above_true by lra. rewrite Rmax_right by lra. unfold Rdiv. now rewrite Rmult_1_l.
    + auto_derive; [assumption|field; assumption].
Qed.
