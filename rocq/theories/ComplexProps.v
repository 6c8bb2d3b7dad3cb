(** C46: complex expressions. *)
From Coq Require Import Reals List Arith Lia Lra Bool PeanoNat.
From Verif Require Import ListBase TensorModel TensorSpec TensorProofs GraphModel GraphSpec GraphProps CalcSpec LayerSpec LayerProofs BcastAdjoint CalcProofs OpModel OpSpec OpProofs4.
From Verif Require Import ComplexModel ComplexSpec ComplexProofs ComplexRun.
Import ListNotations.
Open Scope R_scope.

(** C46.  Sum, difference, negation and conjugate, and sum and difference with a real expression on the right (and sum with one on the
    left), have the value of the complex operation element by element. *)
Theorem C46_linear : forall (q : env R) id z w e m n f g h, shows q z m n f -> shows q w m n g -> has q e m n h ->
  shows q (c_plus id z w) m n (fun i j => cadd (f i j) (g i j)) /\
  shows q (c_minus id z w) m n (fun i j => csub (f i j) (g i j)) /\
  shows q (c_neg id z) m n (fun i j => copp (f i j)) /\
  shows q (c_conj id z) m n (fun i j => cconj (f i j)) /\
  shows q (c_plus_e id z e) m n (fun i j => cadd (f i j) (cofr (h i j))) /\
  shows q (e_plus_c id e z) m n (fun i j => cadd (cofr (h i j)) (f i j)) /\
  shows q (c_minus_e id z e) m n (fun i j => csub (f i j) (cofr (h i j))).
Proof.
  intros q id z w e m n f g h [Hr Hi] [Gr Gi] He.
  split; [split; cbn [c_plus real imag]; now apply has_plus|].
  split; [split; cbn [c_minus real imag]; now apply has_minus|].
  split; [split; cbn [c_neg real imag]; now apply has_neg|].
  split; [split; cbn [c_conj real imag]; [exact Hr|now apply has_neg]|].
  split.
  { split; cbn [c_plus_e real imag]; [now apply has_plus|]. eapply has_ext; [|exact Hi]. intros i j _ _. cbn. ring. }
  split.
  { split; cbn [e_plus_c c_plus_e real imag].
    - eapply has_ext; [|apply has_plus; [exact Hr|exact He]]. intros i j _ _. cbn. ring.
    - eapply has_ext; [|exact Hi]. intros i j _ _. cbn. ring. }
  split; cbn [c_minus_e real imag]; [now apply has_minus|]. eapply has_ext; [|exact Hi]. intros i j _ _. cbn. ring.
Qed.
Print Assumptions C46_linear.

(** C46.  The product built from three real products has the value of the product of the complex matrices; so has the product with a
    real matrix on the right. *)
Theorem C46_product : forall (q : env R) id z w m n k f g, shows q z m n f -> shows q w n k g ->
  shows q (c_times id z w) m k (cmatmul n f g).
Proof.
  intros q id z w m n k f g [Hr Hi] [Gr Gi]. unfold c_times. split; cbn [real imag].
  - eapply has_ext; [|apply has_minus; apply has_matmul; eassumption]. intros i j _ _. cbv beta. unfold cmatmul. rewrite csum_rsum. cbn [fst].
    rewrite <- rsum_minus. reflexivity.
  - eapply has_ext; [|apply has_minus; [apply has_minus|]; apply has_matmul; try eassumption; apply has_plus; eassumption].
    intros i j _ _. cbv beta. unfold cmatmul. rewrite csum_rsum. cbn [snd]. rewrite <- !rsum_minus. apply rsum_tab_ext. intros l _.
    unfold cmul. cbn [fst snd]. ring.
Qed.
Print Assumptions C46_product.

Theorem C46_product_real_factor : forall (q : env R) id z e m n k f h, shows q z m n f -> has q e n k h ->
  shows q (c_times_e id z e) m k (cmatmul n f (fun i j => cofr (h i j))).
Proof.
  intros q id z e m n k f h [Hr Hi] He. unfold c_times_e. split; cbn [real imag];
  (eapply has_ext; [|apply has_matmul; eassumption]); intros i j _ _; cbv beta; unfold cmatmul; rewrite csum_rsum; cbn [fst snd];
  apply rsum_tab_ext; intros l _; cbn; ring.
Qed.
Print Assumptions C46_product_real_factor.

(** C46.  A real expression minus a complex one is built as their sum; it has the right value exactly if the complex matrix is zero. *)
Theorem C46_reversed_difference_refuted : forall (q : env R) id z e m n f h, shows q z m n f -> has q e m n h ->
  shows q (e_minus_c id e z) m n (fun i j => cadd (f i j) (cofr (h i j))) /\
  (shows q (e_minus_c id e z) m n (fun i j => csub (cofr (h i j)) (f i j)) <-> forall i j, (i < m)%nat -> (j < n)%nat -> f i j = (0, 0)).
Proof.
  intros q id z e m n f h Hz He. destruct (C46_linear q id z z e m n f f h Hz Hz He) as (_ & _ & _ & _ & S & _ & _).
  change (c_plus_e id z e) with (e_minus_c id e z) in S. split; [exact S|]. split.
  - intros [Tr Ti] i j Hi Hj. destruct S as [Sr Si]. pose proof (has_det q _ m n _ _ Sr Tr i j Hi Hj) as E1. pose proof (has_det q _ m n _ _ Si Ti i j Hi Hj) as E2.
    cbn in E1, E2. destruct (f i j) as [x y]. cbn [fst snd] in *. f_equal; lra.
  - intros Z. destruct S as [Sr Si]. split; (eapply has_ext; [|eassumption]); intros i j Hi Hj; cbv beta; rewrite (Z i j Hi Hj); cbn; ring.
Qed.
Print Assumptions C46_reversed_difference_refuted.

(** C46.  A real matrix times a complex one is built with the factors exchanged; for square matrices it has the right value exactly if
    the two matrices commute. *)
Theorem C46_reversed_product_refuted : forall (q : env R) id z e n f h, shows q z n n f -> has q e n n h ->
  let hc := fun i j => cofr (h i j) in
  shows q (e_times_c id e z) n n (cmatmul n f hc) /\
  (shows q (e_times_c id e z) n n (cmatmul n hc f) <-> forall i j, (i < n)%nat -> (j < n)%nat -> cmatmul n hc f i j = cmatmul n f hc i j).
Proof.
  intros q id z e n f h Hz He hc. pose proof (C46_product_real_factor q id z e n n n f h Hz He) as S.
  change (c_times_e id z e) with (e_times_c id e z) in S. split; [exact S|]. destruct S as [Sr Si]. split.
  - intros [Tr Ti] i j Hi Hj. pose proof (has_det q _ n n _ _ Sr Tr i j Hi Hj) as E1. pose proof (has_det q _ n n _ _ Si Ti i j Hi Hj) as E2.
    fold hc in E1, E2. symmetry. apply injective_projections; [exact E1|exact E2].
  - intros Z. split; (eapply has_ext; [|eassumption]); intros i j Hi Hj; cbv beta; rewrite (Z i j Hi Hj); reflexivity.
Qed.
Print Assumptions C46_reversed_product_refuted.

(** C46.  abs, norm, and polar: modulus, squared modulus, and the number with given modulus and angle. *)
Theorem C46_modulus : forall dbg (q : env R) id z m n f, (m * n <> 0)%nat -> shows q z m n f ->
  has q (c_norm dbg id z) m n (fun i j => cnorm (f i j)) /\ has q (c_abs id z) m n (fun i j => sqrt (cnorm (f i j))).
Proof.
  intros dbg q id z m n f N [Hr Hi]. split.
  - unfold c_norm. eapply has_ext; [|apply has_plus; apply has_product; eassumption]. reflexivity.
  - unfold c_abs, e_hypot.
    pose proof (has_ew q id op_square _ m n _ (fun x => x * x) (fun _ => eq_refl) Hr) as H1.
    pose proof (has_ew q (1 + id) op_square _ m n _ (fun x => x * x) (fun _ => eq_refl) Hi) as H2.
    exact (has_ew q (3 + id) op_sqrt _ m n _ sqrt (fun _ => eq_refl) (has_plus q (2 + id) _ _ m n _ _ H1 H2)).
Qed.
Print Assumptions C46_modulus.

Lemma above_spec a b : above a b = true <-> b < a.
Proof. unfold above. destruct (Rlt_dec b a); split; auto; discriminate. Qed.
Lemma above_not a b : above a b = false <-> ~ b < a.
Proof. unfold above. destruct (Rlt_dec b a); split; auto; try discriminate. contradiction. Qed.

Lemma sqrt_ratio x y : 0 < x -> sqrt (x * x + y * y) = x * sqrt (1 + (y / x) * (y / x)).
Proof.
  intros H. replace (x * x + y * y) with (x * x * (1 + y / x * (y / x))) by (field; lra).
  rewrite sqrt_mult; [|nra|]. 2:{ assert (0 <= (y / x) * (y / x)) by nra. lra. }
  rewrite sqrt_square by lra. reflexivity.
Qed.

Lemma polar_right x y : 0 < x -> sqrt (x * x + y * y) * cos (atan (y / x)) = x /\ sqrt (x * x + y * y) * sin (atan (y / x)) = y.
Proof.
  intros H. rewrite (sqrt_ratio x y H), cos_atan, sin_atan.
  assert (0 < sqrt (1 + y / x * (y / x))) as S by (apply sqrt_lt_R0; nra).
  replace (Rsqr (y / x)) with (y / x * (y / x)) by reflexivity. unfold Rsqr. split; field; lra.
Qed.

Lemma polar_atan2 x y : sqrt (x * x + y * y) * cos (atan2R y x) = x /\ sqrt (x * x + y * y) * sin (atan2R y x) = y.
Proof.
  unfold atan2R. destruct (above x 0) eqn:A1; [apply above_spec in A1; now apply polar_right|]. apply above_not in A1.
  destruct (above 0 x) eqn:A2.
  - apply above_spec in A2. destruct (polar_right (- x) (- y) ltac:(lra)) as [P1 P2].
    replace (- x * - x + - y * - y) with (x * x + y * y) in P1, P2 by ring. replace (- y / - x) with (y / x) in P1, P2 by (field; lra).
    assert (cos (atan (y / x) - PI) = - cos (atan (y / x)) /\ sin (atan (y / x) - PI) = - sin (atan (y / x))) as [M1 M2].
    { rewrite cos_minus, sin_minus, cos_PI, sin_PI. split; ring. }
    destruct (above 0 y); [rewrite M1, M2|rewrite neg_cos, neg_sin]; split; lra.
  - apply above_not in A2. assert (x = 0) as -> by lra. replace (0 * 0 + y * y) with (y * y) by ring.
    destruct (above y 0) eqn:A3.
    + apply above_spec in A3. rewrite cos_PI2, sin_PI2, sqrt_square by lra. split; ring.
    + apply above_not in A3. destruct (above 0 y) eqn:A4.
      * apply above_spec in A4. rewrite cos_neg, sin_neg, cos_PI2, sin_PI2. replace (y * y) with (- y * - y) by ring. rewrite sqrt_square by lra. split; ring.
      * apply above_not in A4. assert (y = 0) as -> by lra. rewrite Rmult_0_l, sqrt_0. split; ring.
Qed.

(** C46.  polar gives the numbers with the given modulus and angle; polar( abs( z ), arg( z ) ) is z, for every z including zero. *)
Theorem C46_polar : forall dbg (q : env R) id id1 id2 em ep z m n r t f, (m * n <> 0)%nat -> has q em m n r -> has q ep m n t -> shows q z m n f ->
  shows q (c_polar dbg id em ep) m n (fun i j => (r i j * cos (t i j), r i j * sin (t i j))) /\
  shows q (c_polar dbg id (c_abs id1 z) (c_arg id2 z)) m n f.
Proof.
  intros dbg q id id1 id2 em ep z m n r t f N Hr Ht Hz.
  assert (forall em ep r t, has q em m n r -> has q ep m n t -> shows q (c_polar dbg id em ep) m n (fun i j => (r i j * cos (t i j), r i j * sin (t i j)))) as P.
  { clear - N. intros em ep r t Hr Ht. unfold c_polar. split; cbn [real imag]; (apply has_product; [exact N|exact Hr|]).
    - exact (has_ew q id op_cos _ m n _ cos (fun _ => eq_refl) Ht).
    - exact (has_ew q (2 + id) op_sin _ m n _ sin (fun _ => eq_refl) Ht). }
  split; [now apply P|]. destruct (C46_modulus dbg q id1 z m n f N Hz) as [_ Ha]. destruct Hz as [Zr Zi].
  assert (has q (c_arg id2 z) m n (fun i j => atan2R (snd (f i j)) (fst (f i j)))) as Hg.
  { unfold c_arg, has. rewrite (eval_bin q id2 op_atan2 _ _ _ _ Zi Zr). apply ew2_mat. }
  destruct (P _ _ _ _ Ha Hg) as [Q1 Q2].
  split; (eapply has_ext; [|eassumption]); intros i j _ _; cbn [fst snd]; unfold cnorm; apply polar_atan2.
Qed.
Print Assumptions C46_polar.

Notation run := (run 0 1 Rplus Rmult).

(** an operator's id is not among those done so far *)
Ltac new_id :=
  repeat (match goal with |- context [c_cache ?x] => is_var x; unfold x | |- context [c_own ?x] => is_var x; unfold x end; cbn [c_cache c_own done owns with_hp]);
  unfold fupd; cbv beta; repeat match goal with |- context [Nat.eqb ?x ?y] => replace (Nat.eqb x y) with false by (symmetry; apply Nat.eqb_neq; lia) end; auto.

(** C46.  The real part of a product, run by itself on any operands for which runs give values (C25), is the real part of the product
    of the complex matrices. *)
Theorem C46_product_real_run : forall dbg id z w s who m n k f g, shows (env_of s) z m n f -> shows (env_of s) w n k g ->
  let e := real (c_times id z w) in
  consistent e -> runnable 0 1 Rplus Rmult e s -> separate e s who ->
  exists t s', run dbg e s = Ok (t, s') /\ val_of (hp s') t = mat m k (fun i j => fst (cmatmul n f g i j)).
Proof.
  intros dbg id z w s who m n k f g Hz Hw e C Rn S.
  destruct (C25_run_value 0 1 Rplus Rmult dbg e s who ltac:(discriminate) C Rn S) as (t & s' & R1 & R2 & _).
  exists t, s'. split; [exact R1|]. destruct (C46_product (env_of s) id z w m n k f g Hz Hw) as [P _]. unfold has, evalR in P. fold e in P. congruence.
Qed.
Print Assumptions C46_product_real_run.

Lemma val_of_nth (h : list (list R)) sh r x : nth_error h r = Some x -> val_of h (mkT sh r) = (sh, x).
Proof. intros E. unfold val_of. cbn [shape ref]. now rewrite (nth_error_nth _ _ _ E). Qed.

Lemma nv_bin n o (l r : expr R) : no_value (EBin n o l r). Proof. intros c; discriminate. Qed.
Lemma nv_un n o (e : expr R) : no_value (EUn n o e). Proof. intros c; discriminate. Qed.

Lemma y_matmul dbg id l r c m n k p c1 q c2 f g : no_value l -> no_value r -> c_cache c id = None ->
  yields 0 1 Rplus Rmult dbg l c (mkT [m; n] p) c1 -> yields 0 1 Rplus Rmult dbg r c1 (mkT [n; k] q) c2 ->
  nth_error (c_hp c2) p = Some (tab2 m n f) -> nth_error (c_hp c2) q = Some (tab2 n k g) -> c_own c2 id = None ->
  let t := mkT [m; k] (length (c_hp c2)) in
  yields 0 1 Rplus Rmult dbg (EBin id op_matmul l r) c t
    (done (owns (with_hp c2 (c_hp c2 ++ [tab2 m k (fun i j => rsum (tab n (fun l => f i l * g l j)))])) id t) id t).
Proof.
  intros Vl Vr N Hl Hr Hp Hq Ho. eapply (y_new 0 1 Rplus Rmult dbg id _ _ _ l r c _ c1 _ c2 (mat m k (fun i j => rsum (tab n (fun l => f i l * g l j)))));
    try eassumption. rewrite (val_of_nth _ _ _ _ Hp), (val_of_nth _ _ _ _ Hq). exact (matmul_mat m n k f g).
Qed.

Lemma y_neg dbg id e c m n p c1 f : c_cache c id = None -> yields 0 1 Rplus Rmult dbg e c (mkT [m; n] p) c1 ->
  nth_error (c_hp c1) p = Some (tab2 m n f) ->
  let t := mkT [m; n] (length (c_hp c1)) in
  yields 0 1 Rplus Rmult dbg (EUn id op_negative e) c t (done (with_hp c1 (c_hp c1 ++ [tab2 m n (fun i j => - f i j)])) id t).
Proof.
  intros N He Hp. apply (y_un 0 1 Rplus Rmult dbg id false _ _ _ e c (mkT [m; n] p) c1 (mat m n (fun i j => - f i j))); try assumption; [|now left].
  rewrite (val_of_nth _ _ _ _ Hp). exact (ew_mat Ropp m n f).
Qed.

(** C46.  The imaginary part of a product of complex leaves, run for the first time, in prediction, is not the imaginary part of the
    product: a + b is computed inside a and c + d inside c before a*c is, so that the two products cancel and -b*d is left.  The run
    also replaces a by a+b and c by c+d. *)
Theorem C46_product_imaginary_refuted : forall dbg id s ea eb ec ed ta tb tc td m n k a b c d, training s = false ->
  stands_for s ea ta -> stands_for s eb tb -> stands_for s ec tc -> stands_for s ed td ->
  holds s ta m n a -> holds s tb m n b -> holds s tc n k c -> holds s td n k d ->
  NoDup [ref ta; ref tb; ref tc; ref td] -> (forall i, own s (i + id)%nat = None) ->
  exists t s', run dbg (imag (c_times id (Complex ea eb) (Complex ec ed))) s = Ok (t, s') /\
    val_of (hp s') t = mat m k (fun i j => - rsum (tab n (fun l => b i l * d l j))) /\
    val_of (hp s') ta = mat m n (fun i j => a i j + b i j) /\ val_of (hp s') tb = mat m n b /\
    val_of (hp s') tc = mat n k (fun i j => c i j + d i j) /\ val_of (hp s') td = mat n k d /\
    vars s' = vars s /\ holders s' = holders s.
Proof.
  intros dbg id s ea eb ec ed ta tb tc td m n k a b c d T Sa Sb Sc Sd [La Va] [Lb Vb] [Lc Vc] [Ld Vd] ND Ow.
  destruct ta as [sa ra], tb as [sb rb], tc as [sc rc], td as [sd rd]. cbn [ref] in *.
  assert (sa = [m; n]) as -> by exact (f_equal fst Va). assert (sb = [m; n]) as -> by exact (f_equal fst Vb).
  assert (sc = [n; k]) as -> by exact (f_equal fst Vc). assert (sd = [n; k]) as -> by exact (f_equal fst Vd).
  assert (ra <> rb /\ ra <> rc /\ ra <> rd /\ rb <> rc /\ rb <> rd /\ rc <> rd) as (D1 & D2 & D3 & D4 & D5 & D6).
  { repeat (match goal with H : NoDup _ |- _ => apply NoDup_cons_iff in H; destruct H as [?N H] end). cbn [In] in *. intuition. }
  assert (forall r m n f, (r < length (hp s))%nat -> val_of (hp s) (mkT [m; n] r) = mat m n f -> nth_error (hp s) r = Some (tab2 m n f)) as NE.
  { intros r m0 n0 f0 Hr E. injection E as E. rewrite <- E. now apply nth_error_nth'. }
  apply NE in Va; [|assumption]. apply NE in Vb; [|assumption]. apply NE in Vc; [|assumption]. apply NE in Vd; [|assumption]. clear NE.
  set (c0 := Core (hp s) (fun _ => None) (own s) (vars s) (holders s) (training s)).
  assert (forall c e t, c_training c = false -> c_vars c = vars s -> c_holders c = holders s -> stands_for s e t -> yields 0 1 Rplus Rmult dbg e c t c) as Leaf.
  { intros c1 e t T1 V1 H1 S1. apply y_leaf; [exact T1|]. destruct e; cbn [stands_for leaf] in *; try contradiction; congruence. }
  assert (forall e t, stands_for s e t -> no_value e) as NV by (intros e t S1 v ->; contradiction).
  pose proof (NV _ _ Sa) as Na. pose proof (NV _ _ Sb) as Nb. pose proof (NV _ _ Sc) as Nc. pose proof (NV _ _ Sd) as Nd.
  unfold c_times, e_minus. cbn [real imag].
  assert (forall m n (f g : nat -> nat -> R), length (tab2 m n f) = length (tab2 m n g)) as LL by (intros; now rewrite !tab2_length).
  assert (forall m n (f g : nat -> nat -> R), map2 Rplus (tab2 m n f) (tab2 m n g) = tab2 m n (fun i j => f i j + g i j)) as M2 by (intros; now rewrite !tab2_tab, map2_tab).
  set (N := length (hp s)) in *.
  (* a + b, inside a *)
  pose proof (y_plus 0 1 Rplus Rmult dbg (2 + id) ea eb c0 [m; n] ra c0 rb c0 _ _ Na Nb eq_refl
                (Leaf c0 ea _ T eq_refl eq_refl Sa) (Leaf c0 eb _ T eq_refl eq_refl Sb) Va Vb (LL _ _ _ _)) as Y1.
  rewrite M2 in Y1. cbn [c_hp c0] in Y1.
  set (h1 := upd (hp s) ra (tab2 m n (fun i j => a i j + b i j))) in *.
  assert (length h1 = N) as N1 by apply upd_length.
  assert (nth_error h1 ra = Some (tab2 m n (fun i j => a i j + b i j))) as A1 by now apply nth_error_upd_same.
  assert (nth_error h1 rb = Some (tab2 m n b)) as B1 by (unfold h1; rewrite nth_error_upd_other; assumption).
  assert (nth_error h1 rc = Some (tab2 n k c)) as C1 by (unfold h1; rewrite nth_error_upd_other; assumption).
  assert (nth_error h1 rd = Some (tab2 n k d)) as E1 by (unfold h1; rewrite nth_error_upd_other; assumption).
  clearbody h1.
  match type of Y1 with yields _ _ _ _ _ _ _ _ ?x => set (c1 := x) in * end.
  (* c + d, inside c *)
  pose proof (y_plus 0 1 Rplus Rmult dbg (3 + id) ec ed c1 [n; k] rc c1 rd c1 _ _ Nc Nd ltac:(new_id)
                (Leaf c1 ec _ T eq_refl eq_refl Sc) (Leaf c1 ed _ T eq_refl eq_refl Sd) C1 E1 (LL _ _ _ _)) as Y2.
  rewrite M2 in Y2. cbn [c_hp c1 done with_hp] in Y2.
  set (h2 := upd h1 rc (tab2 n k (fun i j => c i j + d i j))) in *.
  assert (length h2 = N) as N2 by (unfold h2; now rewrite upd_length).
  assert (nth_error h2 rc = Some (tab2 n k (fun i j => c i j + d i j))) as C2 by (apply nth_error_upd_same; lia).
  assert (nth_error h2 ra = Some (tab2 m n (fun i j => a i j + b i j))) as A2 by (unfold h2; rewrite nth_error_upd_other; auto).
  assert (nth_error h2 rb = Some (tab2 m n b)) as B2 by (unfold h2; rewrite nth_error_upd_other; auto).
  assert (nth_error h2 rd = Some (tab2 n k d)) as E2 by (unfold h2; rewrite nth_error_upd_other; auto).
  clearbody h2. clear A1 B1 C1 E1.
  match type of Y2 with yields _ _ _ _ _ _ _ _ ?x => set (c2 := x) in * end.
  (* their product, in a new buffer *)
  set (P := fun i j => rsum (tab n (fun l => (a i l + b i l) * (c l j + d l j)))).
  pose proof (y_matmul dbg (4 + id) _ _ c0 m n k ra c1 rc c2 _ _ (nv_bin _ _ _ _) (nv_bin _ _ _ _) eq_refl Y1 Y2 A2 C2 (Ow 4%nat)) as Y3.
  cbn [c_hp c2 done with_hp] in Y3. rewrite N2 in Y3. fold P in Y3.
  set (h3 := h2 ++ [tab2 m k P]) in *.
  assert (length h3 = S N) as N3 by (unfold h3; rewrite app_length; cbn [length]; lia).
  assert (forall r x, nth_error h2 r = Some x -> nth_error h3 r = Some x) as U3 by (intros r x Hr; unfold h3; rewrite nth_error_app1; [exact Hr|apply nth_error_Some; congruence]).
  assert (nth_error h3 N = Some (tab2 m k P)) as P3 by (unfold h3; rewrite nth_error_app2, N2, Nat.sub_diag by lia; reflexivity).
  clearbody h3. match type of Y3 with yields _ _ _ _ _ _ _ _ ?x => set (c3 := x) in * end.
  (* a * c: the same product *)
  pose proof (y_matmul dbg id ea ec c3 m n k ra c3 rc c3 _ _ Na Nc ltac:(new_id)
                (Leaf c3 ea _ T eq_refl eq_refl Sa) (Leaf c3 ec _ T eq_refl eq_refl Sc) (U3 _ _ A2) (U3 _ _ C2) ltac:(new_id; exact (Ow 0%nat))) as Y4.
  cbn [c_hp c3 done with_hp owns] in Y4. rewrite N3 in Y4. fold P in Y4.
  set (h4 := h3 ++ [tab2 m k P]) in *.
  assert (length h4 = S (S N)) as N4 by (unfold h4; rewrite app_length; cbn [length]; lia).
  assert (forall r x, nth_error h3 r = Some x -> nth_error h4 r = Some x) as U4 by (intros r x Hr; unfold h4; rewrite nth_error_app1; [exact Hr|apply nth_error_Some; congruence]).
  assert (nth_error h4 (S N) = Some (tab2 m k P)) as P4 by (unfold h4; rewrite nth_error_app2, N3, Nat.sub_diag by lia; reflexivity).
  clearbody h4. match type of Y4 with yields _ _ _ _ _ _ _ _ ?x => set (c4 := x) in * end.
  (* its negation *)
  pose proof (y_neg dbg (7 + id) _ c3 m k (S N) c4 P ltac:(new_id) Y4 P4) as Y5.
  cbn [c_hp c4 done with_hp owns] in Y5. rewrite N4 in Y5.
  set (h5 := h4 ++ [tab2 m k (fun i j => - P i j)]) in *.
  assert (length h5 = S (S (S N))) as N5 by (unfold h5; rewrite app_length; cbn [length]; lia).
  assert (forall r x, nth_error h4 r = Some x -> nth_error h5 r = Some x) as U5 by (intros r x Hr; unfold h5; rewrite nth_error_app1; [exact Hr|apply nth_error_Some; congruence]).
  assert (nth_error h5 (S (S N)) = Some (tab2 m k (fun i j => - P i j))) as P5 by (unfold h5; rewrite nth_error_app2, N4, Nat.sub_diag by lia; reflexivity).
  clearbody h5. match type of Y5 with yields _ _ _ _ _ _ _ _ ?x => set (c5 := x) in * end.
  (* the difference of the two products, in the buffer of the first *)
  pose proof (y_plus 0 1 Rplus Rmult dbg (8 + id) _ _ c0 [m; k] N c3 (S (S N)) c5 _ _ (nv_bin _ _ _ _) (nv_un _ _ _) eq_refl Y3 Y5
                (U5 _ _ (U4 _ _ P3)) P5 (LL _ _ _ _)) as Y6.
  rewrite M2 in Y6. cbn [c_hp c5 done with_hp owns] in Y6.
  set (h6 := upd h5 N (tab2 m k (fun i j => P i j + - P i j))) in *.
  assert (length h6 = S (S (S N))) as N6 by (unfold h6; now rewrite upd_length).
  assert (forall r x, r <> N -> nth_error h5 r = Some x -> nth_error h6 r = Some x) as U6 by (intros r x Nr Hr; unfold h6; rewrite nth_error_upd_other; auto).
  assert (nth_error h6 N = Some (tab2 m k (fun i j => P i j + - P i j))) as P6 by (apply nth_error_upd_same; lia).
  clearbody h6. match type of Y6 with yields _ _ _ _ _ _ _ _ ?x => set (c6 := x) in * end.
  assert (forall r x, (r < N)%nat -> nth_error h2 r = Some x -> nth_error h6 r = Some x) as V6 by (intros r x Hr Hx; apply U6; [lia|auto]).
  (* b * d *)
  set (Q := fun i j => rsum (tab n (fun l => b i l * d l j))).
  pose proof (y_matmul dbg (1 + id) eb ed c6 m n k rb c6 rd c6 _ _ Nb Nd ltac:(new_id)
                (Leaf c6 eb _ T eq_refl eq_refl Sb) (Leaf c6 ed _ T eq_refl eq_refl Sd) (V6 _ _ Lb B2) (V6 _ _ Ld E2) ltac:(new_id; exact (Ow 1%nat))) as Y7.
  cbn [c_hp c6 done with_hp owns] in Y7. rewrite N6 in Y7. fold Q in Y7.
  set (h7 := h6 ++ [tab2 m k Q]) in *.
  assert (length h7 = S (S (S (S N)))) as N7 by (unfold h7; rewrite app_length; cbn [length]; lia).
  assert (forall r x, nth_error h6 r = Some x -> nth_error h7 r = Some x) as U7 by (intros r x Hr; unfold h7; rewrite nth_error_app1; [exact Hr|apply nth_error_Some; congruence]).
  assert (nth_error h7 (S (S (S N))) = Some (tab2 m k Q)) as P7 by (unfold h7; rewrite nth_error_app2, N6, Nat.sub_diag by lia; reflexivity).
  clearbody h7. match type of Y7 with yields _ _ _ _ _ _ _ _ ?x => set (c7 := x) in * end.
  pose proof (y_neg dbg (9 + id) _ c6 m k (S (S (S N))) c7 Q ltac:(new_id) Y7 P7) as Y8.
  cbn [c_hp c7 done with_hp owns] in Y8. rewrite N7 in Y8.
  set (h8 := h7 ++ [tab2 m k (fun i j => - Q i j)]) in *.
  assert (forall r x, nth_error h7 r = Some x -> nth_error h8 r = Some x) as U8 by (intros r x Hr; unfold h8; rewrite nth_error_app1; [exact Hr|apply nth_error_Some; congruence]).
  assert (nth_error h8 (S (S (S (S N)))) = Some (tab2 m k (fun i j => - Q i j))) as P8 by (unfold h8; rewrite nth_error_app2, N7, Nat.sub_diag by lia; reflexivity).
  assert (N < length h8)%nat as N8 by (unfold h8; rewrite app_length; lia).
  clearbody h8. match type of Y8 with yields _ _ _ _ _ _ _ _ ?x => set (c8 := x) in * end.
  pose proof (y_plus 0 1 Rplus Rmult dbg (10 + id) _ _ c0 [m; k] N c6 (S (S (S (S N)))) c8 _ _ (nv_bin _ _ _ _) (nv_un _ _ _) eq_refl Y6 Y8
                (U8 _ _ (U7 _ _ P6)) P8 (LL _ _ _ _)) as Y9.
  rewrite M2 in Y9. cbn [c_hp c8 done with_hp owns] in Y9.
  destruct (y_run 0 1 Rplus Rmult dbg _ s _ _ Y9) as (s' & R & C).
  exists (mkT [m; k] N), s'. split; [exact R|].
  pose proof (f_equal c_hp C) as Hh. cbn [core_of c_hp done with_hp] in Hh. rewrite Hh.
  assert (forall sh r x, (r < N)%nat -> nth_error h2 r = Some x ->
            val_of (upd h8 N (tab2 m k (fun i j => P i j + - P i j + - Q i j))) (mkT sh r) = (sh, x)) as V9.
  { intros sh r x Hr Hx. apply val_of_nth. rewrite nth_error_upd_other by lia. auto. }
  split.
  { rewrite (val_of_nth _ _ _ (tab2 m k (fun i j => P i j + - P i j + - Q i j))) by now apply nth_error_upd_same.
    unfold mat. f_equal. apply tab2_ext. intros i j _ _. unfold Q. ring. }
  split; [now apply V9|]. split; [now apply V9|]. split; [now apply V9|]. split; [now apply V9|].
  split; [exact (f_equal c_vars C)|exact (f_equal c_holders C)].
Qed.
Print Assumptions C46_product_imaginary_refuted.

(** C46.  So the run has the right result exactly if a*d + b*c + b*d is zero. *)
Theorem C46_product_imaginary_iff : forall dbg id s ea eb ec ed ta tb tc td m n k a b c d, training s = false ->
  stands_for s ea ta -> stands_for s eb tb -> stands_for s ec tc -> stands_for s ed td ->
  holds s ta m n a -> holds s tb m n b -> holds s tc n k c -> holds s td n k d ->
  NoDup [ref ta; ref tb; ref tc; ref td] -> (forall i, own s (i + id)%nat = None) ->
  forall t s', run dbg (imag (c_times id (Complex ea eb) (Complex ec ed))) s = Ok (t, s') ->
  (val_of (hp s') t = mat m k (fun i j => snd (cmatmul n (fun i l => (a i l, b i l)) (fun l j => (c l j, d l j)) i j)) <->
   forall i j, (i < m)%nat -> (j < k)%nat -> rsum (tab n (fun l => a i l * d l j + b i l * c l j + b i l * d l j)) = 0).
Proof.
  intros dbg id s ea eb ec ed ta tb tc td m n k a b c d T Sa Sb Sc Sd Ha Hb Hc Hd ND Ow t s' R.
  destruct (C46_product_imaginary_refuted dbg id s ea eb ec ed ta tb tc td m n k a b c d T Sa Sb Sc Sd Ha Hb Hc Hd ND Ow) as (t1 & s1 & R1 & V & _).
  assert (t1 = t /\ s1 = s') as [-> ->] by (split; congruence). rewrite V.
  assert (forall i j, rsum (tab n (fun l => a i l * d l j + b i l * c l j + b i l * d l j)) =
    snd (cmatmul n (fun i l => (a i l, b i l)) (fun l j => (c l j, d l j)) i j) + rsum (tab n (fun l => b i l * d l j))) as X.
  { intros i j. unfold cmatmul. rewrite csum_rsum. cbn [snd]. rewrite <- rsum_tab_plus. reflexivity. }
  split.
  - intros E i j Hi Hj. apply (f_equal snd) in E. cbn [snd mat] in E. apply (f_equal (fun l => nth (i * k + j) l 0)) in E.
    rewrite !nth_tab2 in E by assumption. rewrite X, <- E. ring.
  - intros Z. apply mat_ext. intros i j Hi Hj. specialize (Z i j Hi Hj). rewrite X in Z. lra.
Qed.
Print Assumptions C46_product_imaginary_iff.

(** A case: 1x1 matrices, (1 + 2i) * (3 + 4i), with variables 1, 2, 3 and 4. *)
Module Case.
Definition s : st R :=
  St [[1]; [2]; [3]; [4]; [0]; [0]; [0]; [0]] (fun _ => None) (fun _ => Obj None None None) (fun _ => VObj false true 0 0)
     (fun v => VState (mkT [1; 1]%nat v) (mkT [1; 1]%nat (4 + v))) (fun _ => None) (fun _ => None) (fun _ _ => None) false [].
Example hypotheses : training s = false /\ (forall v, (v < 4)%nat -> stands_for s (EVar v) (mkT [1; 1]%nat v)) /\
  holds s (mkT [1; 1]%nat 0) 1 1 (fun _ _ => 1) /\ holds s (mkT [1; 1]%nat 1) 1 1 (fun _ _ => 2) /\
  holds s (mkT [1; 1]%nat 2) 1 1 (fun _ _ => 3) /\ holds s (mkT [1; 1]%nat 3) 1 1 (fun _ _ => 4) /\ (forall i, own s (i + 7)%nat = None).
Proof.
  split; [reflexivity|]. split; [reflexivity|]. unfold holds. cbn [ref hp s length].
  split; [split; [lia|reflexivity]|]. split; [split; [lia|reflexivity]|]. split; [split; [lia|reflexivity]|]. split; [split; [lia|reflexivity]|]. reflexivity.
Qed.
Example imaginary : exists t s', run true (imag (c_times 7 (Complex (EVar 0) (EVar 1)) (Complex (EVar 2) (EVar 3)))) s = Ok (t, s') /\
  val_of (hp s') t = ([1; 1]%nat, [-8]) /\ val_of (hp s') (mkT [1; 1]%nat 0) = ([1; 1]%nat, [3]).
Proof.
  destruct hypotheses as (H1 & H2 & H3 & H4 & H5 & H6 & H7).
  destruct (C46_product_imaginary_refuted true 7 s (EVar 0) (EVar 1) (EVar 2) (EVar 3) _ _ _ _ 1 1 1 _ _ _ _ H1 (H2 0%nat ltac:(lia)) (H2 1%nat ltac:(lia))
     (H2 2%nat ltac:(lia)) (H2 3%nat ltac:(lia)) H3 H4 H5 H6) as (t & s' & R & V & Va & _); [|exact H7|].
  { cbn [ref]. repeat constructor; cbn [In]; intuition discriminate. }
  exists t, s'. split; [exact R|]. rewrite V, Va. unfold mat. cbn [tab2 tab seq map flat_map app rsum]. split; f_equal; f_equal; ring.
Qed.
(** the value the expression stands for is 1*4 + 2*3 = 10 *)
Example value : shows (env_of s) (c_times 7 (Complex (EVar 0) (EVar 1)) (Complex (EVar 2) (EVar 3))) 1 1 (fun _ _ => (-5, 10)).
Proof.
  assert (shows (env_of s) (Complex (EVar 0) (EVar 1)) 1 1 (fun _ _ => (1, 2))) as H1 by (split; reflexivity).
  assert (shows (env_of s) (Complex (EVar 2) (EVar 3)) 1 1 (fun _ _ => (3, 4))) as H2 by (split; reflexivity).
  destruct (C46_product _ 7 _ _ 1 1 1 _ _ H1 H2) as [P1 P2].
  split; (eapply has_ext; [|eassumption]); intros i j _ _; unfold cmatmul, cmul; cbn; ring.
Qed.
(** the real part, run by itself, is 1*3 - 2*4 *)
Definition re : expr R := real (c_times 7 (Complex (EVar 0) (EVar 1)) (Complex (EVar 2) (EVar 3))).
Definition who (r : nat) : owner := if (r <? 4)%nat then OLeaf else OGrad (r - 4).
Ltac at_cases H := apply At_all in H; cbn [re real c_times e_minus imag all_at app Nat.add In] in H;
  repeat (destruct H as [H|H]; [injection H as <- <-|]); [..|destruct H].
Example real_part : exists t s', run true re s = Ok (t, s') /\ val_of (hp s') t = ([1; 1]%nat, [-5]).
Proof.
  assert (shows (env_of s) (Complex (EVar 0) (EVar 1)) 1 1 (fun _ _ => (1, 2))) as H1 by (split; reflexivity).
  assert (shows (env_of s) (Complex (EVar 2) (EVar 3)) 1 1 (fun _ _ => (3, 4))) as H2 by (split; reflexivity).
  destruct (C46_product_real_run true 7 _ _ s who 1 1 1 _ _ H1 H2) as (t & s' & R & V).
  - intros k1 k2 x y n A1 A2. at_cases A1; at_cases A2; cbn [node_id]; congruence.
  - split.
    + unfold sizes_ok; intros kk x A _. at_cases A; (eexists; split; [reflexivity|]; split; [reflexivity|discriminate]).
    + intros kk n l r A _ x Hx. apply At_all in A. cbn [real c_times e_minus imag all_at app Nat.add In] in A.
      repeat (destruct A as [A|A]; [try discriminate A; injection A as <- <- <- <-|]); [|destruct A].
      cbn in Hx. destruct Hx as [<-|[]]. split; [reflexivity|].
      assert (forall k', At re k' (EBin 7 op_matmul (EVar 0) (EVar 2)) -> k' = Some (13%nat, false)) as U.
      { intros k' A'. apply At_all in A'. cbn [re real c_times e_minus imag all_at app Nat.add In] in A'. repeat (destruct A' as [A'|A']; [congruence|]). destruct A'. }
      intros k1 k2 A1 A2 _. now rewrite (U _ A1), (U _ A2).
  - split; [|split; [|split; [|split]]].
    + intros kk v A. apply At_all in A. cbn [real c_times e_minus imag all_at app Nat.add In] in A.
      repeat (destruct A as [A|A]; [try discriminate A; injection A as <- <-; (split; [reflexivity|]; split; [reflexivity|]; apply Nat.ltb_lt; reflexivity)|]). destruct A.
    + discriminate.
    + intros kk t A. apply At_all in A. cbn [real c_times e_minus imag all_at app Nat.add In] in A. repeat (destruct A as [A|A]; [discriminate A|]). destruct A.
    + discriminate.
    + discriminate.
  - exists t, s'. split; [exact R|]. rewrite V. unfold mat, cmatmul, cmul, tab2, tab. cbn. do 2 f_equal. ring.
Qed.
(** 4 - (1 + 2i) comes out as 5 + 2i *)
Example reversed : shows (env_of s) (e_minus_c 7 (EVar 3) (Complex (EVar 0) (EVar 1))) 1 1 (fun _ _ => (5, 2)) .
Proof.
  assert (shows (env_of s) (Complex (EVar 0) (EVar 1)) 1 1 (fun _ _ => (1, 2))) as H1 by (split; reflexivity).
  assert (has (env_of s) (EVar 3) 1 1 (fun _ _ => 4)) as H2 by reflexivity.
  destruct (C46_reversed_difference_refuted _ 7 _ _ 1 1 _ _ H1 H2) as [[P1 P2] _].
  split; (eapply has_ext; [|eassumption]); intros i j _ _; cbn; ring.
Qed.
End Case.
