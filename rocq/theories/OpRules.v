(** The operators' rules on single elements. *)
From Coq Require Import Reals Lra Lia Psatz.
From Coquelicot Require Import Coquelicot.
From Coq Require Import List Arith Bool PeanoNat.
From Verif Require Import ListBase TensorModel GraphModel OpModel OpSpec Scalar.
Import ListNotations.
Local Open Scope R_scope.

Lemma above_true a b : b < a -> above a b = true.
Proof. intros. unfold above. destruct (Rlt_dec b a); [reflexivity|lra]. Qed.
Lemma above_false a b : a <= b -> above a b = false.
Proof. intros. unfold above. destruct (Rlt_dec b a); [lra|reflexivity]. Qed.
Lemma above_spec a b : Bool.reflect (b < a) (above a b).
Proof. unfold above. destruct (Rlt_dec b a); constructor; assumption. Qed.

Ltac rring := match goal with |- ?a = ?b => change (@eq R a b) end; ring.
Ltac sound D := eexists; split; [apply D; try lra; try assumption|intros g; first [reflexivity|ring|unfold Rdiv; ring|field; lra]].

(** a rule agrees with another function nearby *)
Lemma sound_ext f f' (h : R -> R) x : locally x (fun t => f' t = f t) -> sound_at f' h x -> sound_at f h x.
Proof. intros E (d & D & H). exists d. split; [now apply (is_derive_ext_loc f')|assumption]. Qed.

Lemma s_sin x : sound_at sin (fun g => g * cos x) x. Proof. sound d_sin. Qed.
Lemma s_cos x : sound_at cos (fun g => - g * sin x) x. Proof. sound d_cos. Qed.
Lemma s_cosh x : sound_at cosh (fun g => g * sinh x) x. Proof. sound d_cosh. Qed.
Lemma s_sinh x : sound_at sinh (fun g => g * cosh x) x. Proof. sound d_sinh. Qed.
Lemma s_exp x : sound_at exp (fun g => g * exp x) x. Proof. sound d_exp. Qed.
Lemma s_asin x : -1 < x < 1 -> sound_at asin (fun g => g / sqrt (1 - x * x)) x. Proof. intros. sound d_asin. Qed.
Lemma s_acos x : -1 < x < 1 -> sound_at acos (fun g => - g / sqrt (1 - x * x)) x. Proof. intros. sound d_acos. Qed.
Lemma s_asinh x : sound_at arcsinh (fun g => g / sqrt (1 + x * x)) x. Proof. intros. sound d_asinh. Qed.
Lemma s_atan x : sound_at atan (fun g => g / (1 + x * x)) x. Proof. intros. sound d_atan. Qed.
Lemma s_tan x : cos x <> 0 -> sound_at tan (fun g => g * (1 + tan x * tan x)) x. Proof. intros. sound d_tan. Qed.
Lemma s_tanh x : sound_at tanh (fun g => g * (1 - tanh x * tanh x)) x. Proof. intros. sound d_tanh. Qed.
Lemma s_exp2 x : sound_at (fun x => Rpower 2 x) (fun g => ln 2 * g * Rpower 2 x) x. Proof. sound d_exp2. Qed.
Lemma s_expm1 x : sound_at (fun x => exp x - 1) (fun g => g * (exp x - 1 + 1)) x.
Proof. exists (exp x). split; [auto_derive; [exact I|ring]|intros; ring]. Qed.
Lemma s_log x : 0 < x -> sound_at ln (fun g => g / x) x. Proof. intros. sound d_ln. Qed.
Lemma s_log10 x : 0 < x -> sound_at (fun x => ln x / ln 10) (fun g => g / (ln 10 * x)) x.
Proof.
  intros. assert (0 < ln 10) by (rewrite <- ln_1; apply ln_increasing; lra).
  exists (/ (ln 10 * x)). split; [auto_derive; [assumption|field; lra]|intros; reflexivity].
Qed.
Lemma s_log2 x : 0 < x -> sound_at (fun x => ln x / ln 2) (fun g => g / (ln 2 * x)) x.
Proof.
  intros. assert (0 < ln 2) by (rewrite <- ln_1; apply ln_increasing; lra).
  exists (/ (ln 2 * x)). split; [auto_derive; [assumption|field; lra]|intros; reflexivity].
Qed.
Lemma s_sqrt x : 0 < x -> sound_at sqrt (fun g => g / (sqrt x + sqrt x)) x.
Proof. intros H. pose proof (sqrt_lt_R0 x H). sound d_sqrt. Qed.
Lemma s_pow a x : 0 < x -> sound_at (fun x => Rpower x a) (fun g => a * g * Rpower x (a - 1)) x.
Proof. intros H. sound d_rpower. Qed.
Lemma s_acosh x : 1 < x -> sound_at acoshR (fun g => g / sqrt (x * x - 1)) x.
Proof.
  intros H. assert (0 < x * x - 1) by nra. pose proof (sqrt_lt_R0 _ H0). exists (/ sqrt (x * x - 1)). split; [|reflexivity].
  unfold acoshR. auto_derive; replace (x * x + - (1)) with (x * x - 1) by ring.
  - split; [assumption|split; [lra|exact I]].
  - field. split; lra.
Qed.
Lemma s_atanh x : -1 < x < 1 -> sound_at atanhR (fun g => g / (1 - x * x)) x.
Proof.
  intros H. exists (/ (1 - x * x)). split; [|reflexivity].
  unfold atanhR. auto_derive; [|field; nra]. split; [lra|split; [|exact I]]. apply Rdiv_lt_0_compat; lra.
Qed.
Lemma s_square x : sound_at (fun x => x * x) (fun g => x * g * 2) x.
Proof. exists (2 * x). split; [auto_derive; [exact I|ring]|intros; ring]. Qed.
Lemma s_neg x : sound_at Ropp (fun g => - g) x.
Proof. exists (- 1). split; [auto_derive; [exact I|ring]|intros; ring]. Qed.
Lemma s_shift a x : sound_at (fun x => x + a) (fun g => g) x.
Proof. exists 1. split; [auto_derive; [exact I|ring]|intros; ring]. Qed.
Lemma s_scale a x : sound_at (fun x => x * a) (fun g => g * a) x.
Proof. exists a. split; [auto_derive; [exact I|ring]|intros; ring]. Qed.
Lemma s_sigmoid x : sound_at (fun x => 1 / (1 + exp (- x))) (fun g => g * (1 / (1 + exp (- x))) * (1 - 1 / (1 + exp (- x)))) x.
Proof.
  pose proof (exp_pos (- x)). exists (1 / (1 + exp (- x)) * (1 - 1 / (1 + exp (- x)))). split; [|intros; ring].
  auto_derive; [lra|]. field. lra.
Qed.
Lemma s_erf x : sound_at erfR (fun g => 2 / sqrt PI * g * exp (- x * x)) x.
Proof.
  exists (2 / sqrt PI * exp (- (x * x))). split; [|intros g; replace (- x * x) with (- (x * x)) by ring; ring].
  unfold erfR. apply is_derive_scal. apply (is_derive_RInt (fun t => exp (- (t * t))) (fun x => RInt (fun t => exp (- (t * t))) 0 x) 0 x).
  - apply filter_forall. intros t. apply @RInt_correct. apply ex_RInt_continuous. intros z _. apply @ex_derive_continuous. auto_derive. exact I.
  - apply @ex_derive_continuous. auto_derive. exact I.
Qed.
Lemma s_erfc x : sound_at (fun x => 1 - erfR x) (fun g => - (2 / sqrt PI) * g * exp (- x * x)) x.
Proof.
  destruct (s_erf x) as (d & D & H). exists (- d). split.
  - apply (d_eq _ _ (0 - d)); [|ring]. apply (is_derive_minus (fun _ => 1) erfR); [apply @is_derive_const|assumption].
  - intros g. specialize (H g). lra.
Qed.

(** functions in pieces *)
Lemma s_abs x : x <> 0 -> sound_at Rabs (fun g => g * (if above x 0 then 1 else if above 0 x then -1 else 0)) x.
Proof.
  intros H. destruct (above_spec x 0) as [P|P].
  - exists 1. split; [|intros; ring]. apply (is_derive_ext_loc (fun t => t)); [|apply @is_derive_id].
    apply (near_above x 0); [assumption|]. intros t Ht. now rewrite Rabs_pos_eq by lra.
  - rewrite above_true by lra. exists (-1). split; [|intros; ring]. apply (is_derive_ext_loc (fun t => - t)).
    + apply (near_below x 0); [lra|]. intros t Ht. now rewrite Rabs_left by lra.
    + auto_derive; [exact I|ring].
Qed.
Lemma n_abs l : ~ is_derive Rabs 0 l.
Proof.
  apply (kink Rabs (fun t => - t) (fun t => t) 0 (-1) 1 1); try lra.
  - intros. now rewrite Rabs_left1 by lra.
  - intros. now rewrite Rabs_pos_eq by lra.
  - auto_derive; [exact I|ring].
  - apply @is_derive_id.
Qed.

Lemma s_cbrt x : x <> 0 -> sound_at cbrtR (fun g => g / (3 * cbrtR x * cbrtR x)) x.
Proof.
  assert (C : forall x, 0 < x -> sound_at cbrtR (fun g => g / (3 * cbrtR x * cbrtR x)) x).
  { clear x. intros x H. exists (/ 3 * Rpower x (/ 3 - 1)). split.
    - apply (is_derive_ext_loc (fun t => Rpower t (/ 3))); [|now apply d_rpower].
      apply (near_above x 0); [assumption|]. intros t Ht. unfold cbrtR. now rewrite above_true.
    - intros g. unfold cbrtR. rewrite above_true by assumption. pose proof (exp_pos (/ 3 * ln x)) as P. fold (Rpower x (/ 3)) in P.
      assert (E : Rpower x (/ 3 - 1) * (Rpower x (/ 3) * Rpower x (/ 3)) = 1).
      { rewrite <- !Rpower_plus. replace (/ 3 - 1 + (/ 3 + / 3)) with 0 by field. now apply Rpower_O. }
      replace (Rpower x (/ 3 - 1)) with (/ (Rpower x (/ 3) * Rpower x (/ 3))); [field; lra|].
      apply (Rmult_eq_reg_r (Rpower x (/ 3) * Rpower x (/ 3))); [|nra]. rewrite E. field. lra. }
  intros H. destruct (Rlt_dec 0 x); [now apply C|].
  destruct (C (- x)) as (d & D & HG); [lra|]. exists d.
  assert (O : forall t, cbrtR (- t) = - cbrtR t).
  { intros t. unfold cbrtR. destruct (above_spec (- t) 0), (above_spec 0 t), (above_spec t 0), (above_spec 0 (- t)); try lra.
    - now rewrite Ropp_involutive. }
  split.
  - apply (is_derive_ext (fun t => - cbrtR (- t))); [intros t; rewrite O; apply Ropp_involutive|].
    apply (d_eq _ _ (- (- d))); [|ring]. apply (is_derive_opp (fun t => cbrtR (- t)) x (- d)). apply (d_eq _ _ ((-1) * d)); [|change ((-1) * d = - d); ring].
    apply (is_derive_comp cbrtR Ropp); [assumption|]. auto_derive; [exact I|ring].
  - intros g. rewrite <- HG, O. replace (3 * - cbrtR x * - cbrtR x) with (3 * cbrtR x * cbrtR x) by ring. reflexivity.
Qed.

Lemma s_relu x : x <> 0 -> sound_at (fun x => Rmax x 0) (fun g => g * (if above x 0 then 1 else 0)) x.
Proof.
  intros H. destruct (above_spec x 0) as [P|P].
  - exists 1. split; [|intros; ring]. apply (is_derive_ext_loc (fun t => t)); [|apply @is_derive_id].
    apply (near_above x 0); [assumption|]. intros t Ht. now rewrite Rmax_left by lra.
  - exists 0. split; [|intros; ring]. apply (is_derive_ext_loc (fun _ => 0)); [|apply @is_derive_const].
    apply (near_below x 0); [lra|]. intros t Ht. now rewrite Rmax_right by lra.
Qed.
Lemma n_relu l : ~ is_derive (fun x => Rmax x 0) 0 l.
Proof.
  apply (kink (fun x => Rmax x 0) (fun t => 0) (fun t => t) 0 0 1 1); try lra.
  - intros. now rewrite Rmax_right by lra.
  - intros. now rewrite Rmax_left by lra.
  - apply @is_derive_const.
  - apply @is_derive_id.
Qed.

Lemma s_relu6 x : x <> 0 -> x <> 6 -> sound_at (fun x => Rmin 6 (Rmax x 0)) (fun g => if above x 0 then if above 6 x then g else 0 else 0) x.
Proof.
  intros H H6. destruct (above_spec x 0) as [P|P]; [destruct (above_spec 6 x) as [Q|Q]|].
  - exists 1. split; [|intros; ring]. apply (is_derive_ext_loc (fun t => t)); [|apply @is_derive_id].
    apply (near_between x 0 6); [assumption..|]. intros t Ht Hu. rewrite Rmax_left by lra. now rewrite Rmin_right by lra.
  - exists 0. split; [|intros; ring]. apply (is_derive_ext_loc (fun _ => 6)); [|apply @is_derive_const].
    apply (near_above x 6); [lra|]. intros t Ht. rewrite Rmax_left by lra. now rewrite Rmin_left by lra.
  - exists 0. split; [|intros; ring]. apply (is_derive_ext_loc (fun _ => 0)); [|apply @is_derive_const].
    apply (near_below x 0); [lra|]. intros t Ht. rewrite Rmax_right by lra. now rewrite Rmin_right by lra.
Qed.
Lemma n_relu6 x l : x = 0 \/ x = 6 -> ~ is_derive (fun x => Rmin 6 (Rmax x 0)) x l.
Proof.
  intros [->| ->].
  - apply (kink _ (fun t => 0) (fun t => t) 0 0 1 1); try lra; try apply @is_derive_const; try apply @is_derive_id.
    + intros. rewrite Rmax_right by lra. now rewrite Rmin_right by lra.
    + intros. rewrite Rmax_left by lra. now rewrite Rmin_right by lra.
  - apply (kink _ (fun t => t) (fun t => 6) 6 1 0 1); try lra; try apply @is_derive_const; try apply @is_derive_id.
    + intros. rewrite Rmax_left by lra. now rewrite Rmin_right by lra.
    + intros. rewrite Rmax_left by lra. now rewrite Rmin_left by lra.
Qed.

Lemma s_leaky a x : 0 < a < 1 -> x <> 0 -> sound_at (fun x => Rmax x (a * x)) (fun g => if above x 0 then g else a * g) x.
Proof.
  intros A H. destruct (above_spec x 0) as [P|P].
  - exists 1. split; [|intros; ring]. apply (is_derive_ext_loc (fun t => t)); [|apply @is_derive_id].
    apply (near_above x 0); [assumption|]. intros t Ht. now rewrite Rmax_left by nra.
  - exists a. split; [|intros; ring]. apply (is_derive_ext_loc (fun t => a * t)); [|auto_derive; [exact I|ring]].
    apply (near_below x 0); [lra|]. intros t Ht. now rewrite Rmax_right by nra.
Qed.
Lemma n_leaky a l : 0 < a < 1 -> ~ is_derive (fun x => Rmax x (a * x)) 0 l.
Proof.
  intros A. apply (kink _ (fun t => a * t) (fun t => t) 0 a 1 1); try lra; try apply @is_derive_id.
  - intros. now rewrite Rmax_right by nra.
  - intros. now rewrite Rmax_left by nra.
  - auto_derive; [exact I|ring].
Qed.

Lemma s_clip lo up x : lo < up -> x <> lo -> x <> up ->
  sound_at (fun x => Rmax lo (Rmin up x)) (fun g => if above lo x then 0 else if above x up then 0 else g) x.
Proof.
  intros L H H'. destruct (above_spec lo x) as [P|P]; [|destruct (above_spec x up) as [Q|Q]].
  - exists 0. split; [|intros; ring]. apply (is_derive_ext_loc (fun t => lo)); [|apply @is_derive_const].
    apply (near_below x lo); [assumption|]. intros t Ht. rewrite Rmin_right by lra. now rewrite Rmax_left by lra.
  - exists 0. split; [|intros; ring]. apply (is_derive_ext_loc (fun t => up)); [|apply @is_derive_const].
    apply (near_above x up); [assumption|]. intros t Ht. rewrite Rmin_left by lra. now rewrite Rmax_right by lra.
  - exists 1. split; [|intros; ring]. apply (is_derive_ext_loc (fun t => t)); [|apply @is_derive_id].
    apply (near_between x lo up); [lra..|]. intros t Ht Hu. rewrite Rmin_right by lra. now rewrite Rmax_right by lra.
Qed.
Lemma n_clip lo up x l : lo < up -> x = lo \/ x = up -> ~ is_derive (fun x => Rmax lo (Rmin up x)) x l.
Proof.
  intros L [->| ->].
  - apply (kink _ (fun t => lo) (fun t => t) lo 0 1 (up - lo)); try lra; try apply @is_derive_const; try apply @is_derive_id.
    + intros. rewrite Rmin_right by lra. now rewrite Rmax_left by lra.
    + intros. rewrite Rmin_right by lra. now rewrite Rmax_right by lra.
  - apply (kink _ (fun t => t) (fun t => up) up 1 0 (up - lo)); try lra; try apply @is_derive_const; try apply @is_derive_id.
    + intros. rewrite Rmin_right by lra. now rewrite Rmax_right by lra.
    + intros. rewrite Rmin_left by lra. now rewrite Rmax_right by lra.
Qed.

Lemma s_hard x : x <> 1 -> x <> -1 ->
  sound_at (fun x => if above x 1 then 1 else if above (-1) x then 0 else (x + 1) / 2) (fun g => if above x 1 || above (-1) x then 0 else g / 2) x.
Proof.
  intros H H'. destruct (above_spec x 1) as [P|P]; [|destruct (above_spec (-1) x) as [Q|Q]]; cbn [orb].
  - exists 0. split; [|intros; ring]. apply (is_derive_ext_loc (fun t => 1)); [|apply @is_derive_const].
    apply (near_above x 1); [assumption|]. intros t Ht. now rewrite above_true.
  - exists 0. split; [|intros; ring]. apply (is_derive_ext_loc (fun t => 0)); [|apply @is_derive_const].
    apply (near_below x (-1)); [assumption|]. intros t Ht. rewrite above_false by lra. now rewrite above_true.
  - exists (/ 2). split; [|intros; field]. apply (is_derive_ext_loc (fun t => (t + 1) / 2)); [|auto_derive; [exact I|field]].
    apply (near_between x (-1) 1); [lra..|]. intros t Ht Hu. now rewrite !above_false by lra.
Qed.
Lemma n_hard x l : x = 1 \/ x = -1 -> ~ is_derive (fun x => if above x 1 then 1 else if above (-1) x then 0 else (x + 1) / 2) x l.
Proof.
  intros [->| ->].
  - apply (kink _ (fun t => (t + 1) / 2) (fun t => 1) 1 (/ 2) 0 1); try lra; try apply @is_derive_const.
    + intros. now rewrite !above_false by lra.
    + intros t Ht. destruct (above_spec t 1); [reflexivity|]. rewrite above_false by lra. lra.
    + auto_derive; [exact I|field].
  - apply (kink _ (fun t => 0) (fun t => (t + 1) / 2) (-1) 0 (/ 2) 1); try lra; try apply @is_derive_const.
    + intros t Ht. rewrite above_false by lra. destruct (above_spec (-1) t); [reflexivity|]. lra.
    + intros. now rewrite !above_false by lra.
    + auto_derive; [exact I|field].
Qed.

Lemma s_selu la al x : x <> 0 \/ al = 1 ->
  sound_at (fun x => if above 0 x then la * al * (exp x - 1) else la * x) (fun g => if above 0 x then g * la * al * exp x else g * la) x.
Proof.
  intros H. destruct (above_spec 0 x) as [P|P].
  - exists (la * al * exp x). split; [|intros; ring]. apply (is_derive_ext_loc (fun t => la * al * (exp t - 1))); [|auto_derive; [exact I|ring]].
    apply (near_below x 0); [assumption|]. intros t Ht. now rewrite above_true.
  - exists la. split; [|intros; ring].
    assert (C : 0 < x \/ (x = 0 /\ al = 1)) by (destruct H; lra). clear H. destruct C as [C|[-> ->]].
    + apply (is_derive_ext_loc (fun t => la * t)); [|auto_derive; [exact I|ring]].
      apply (near_above x 0); [assumption|]. intros t Ht. now rewrite above_false by lra.
    + apply (is_derive_ext (fun t => la * ((if above 0 t then exp t - 1 else t)))).
      { intros t. destruct (above 0 t); rring. }
      apply (d_eq _ _ (la * 1)); [|ring]. apply is_derive_scal. apply is_derive_Reals. intros e He.
      assert (De : is_derive exp 0 1). { apply (d_eq _ _ (exp 0)); [apply d_exp|apply exp_0]. }
      apply is_derive_Reals in De. destruct (De e He) as [dl Hdl]. exists dl. intros h Hh Hs. specialize (Hdl h Hh Hs).
      rewrite Rplus_0_l in *. rewrite (above_false 0 0) by lra. rewrite exp_0 in Hdl. destruct (above_spec 0 h).
      * replace (exp h - 1 - 0) with (exp h - 1) by ring. assumption.
      * replace ((h - 0) / h - 1) with 0 by (field; lra). now rewrite Rabs_R0.
Qed.
Lemma n_selu la al l : la <> 0 -> al <> 1 -> ~ is_derive (fun x => if above 0 x then la * al * (exp x - 1) else la * x) 0 l.
Proof.
  intros A B. apply (kink _ (fun t => la * al * (exp t - 1)) (fun t => la * t) 0 (la * al) la 1); try lra.
  - intros t Ht. destruct (above_spec 0 t); [reflexivity|]. replace t with 0 by lra. rewrite exp_0. ring.
  - intros t Ht. now rewrite above_false by lra.
  - auto_derive; [exact I|]. rewrite exp_0. ring.
  - auto_derive; [exact I|ring].
  - intros E. apply B. apply (Rmult_eq_reg_l la); lra.
Qed.

Lemma s_softsign x : sound_at (fun x => x / (1 + Rabs x)) (fun g => g / ((1 + Rabs x) * (1 + Rabs x))) x.
Proof.
  exists (/ ((1 + Rabs x) * (1 + Rabs x))). split; [|reflexivity].
  destruct (Rtotal_order x 0) as [L|[->|G]].
  - apply (is_derive_ext_loc (fun t => t / (1 - t))).
    + apply (near_below x 0); [assumption|]. intros t Ht. rewrite Rabs_left by assumption. reflexivity.
    + rewrite Rabs_left by assumption. auto_derive; [lra|field; lra].
  - rewrite Rabs_R0. apply is_derive_Reals. intros e He. assert (P : 0 < e / 2) by lra. exists (mkposreal _ P). intros h Hh Hs. cbn in Hs.
    rewrite Rplus_0_l, Rabs_R0. pose proof (Rabs_pos h).
    replace ((h / (1 + Rabs h) - 0 / (1 + 0)) / h - / ((1 + 0) * (1 + 0))) with (- (Rabs h / (1 + Rabs h))) by (field; lra).
    rewrite Rabs_Ropp, Rabs_pos_eq by (apply Rle_div_r; lra). apply Rle_lt_trans with (Rabs h); [|lra].
    apply Rle_div_l; nra.
  - apply (is_derive_ext_loc (fun t => t / (1 + t))).
    + apply (near_above x 0); [assumption|]. intros t Ht. now rewrite Rabs_pos_eq by lra.
    + rewrite Rabs_pos_eq by lra. auto_derive; [lra|field; lra].
Qed.

Lemma s_sign x : x <> 0 -> sound_at (fun x => (if above x 0 then 1 else 0) - (if above 0 x then 1 else 0)) (fun g => 0) x.
Proof.
  intros H. exists 0. split; [|intros; ring]. destruct (Rdichotomy _ _ H) as [L|G].
  - apply (is_derive_ext_loc (fun _ => 0 - 1)); [|apply @is_derive_const]. apply (near_below x 0); [assumption|].
    intros t Ht. rewrite above_false by lra. now rewrite above_true.
  - apply (is_derive_ext_loc (fun _ => 1 - 0)); [|apply @is_derive_const]. apply (near_above x 0); [lra|].
    intros t Ht. rewrite above_true by lra. now rewrite above_false by lra.
Qed.
