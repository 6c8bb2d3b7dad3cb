(** maximum, minimum, atan2, the element-wise product and the matrix product. *)
From Coq Require Import List Arith Lia Bool PeanoNat Reals Lra.
From Coquelicot Require Import Rcomplements Hierarchy Continuity Derive.
From Verif Require Import ListBase TensorModel TensorSpec TensorProofs TensorProps ArrayModel GraphModel GraphSpec GradSpec LayerSpec LayerProofs LayerProofs4
  GradProofs BcastAdjoint CalcSpec CalcProofs CalcProofs2 CalcProofs3 OpModel OpSpec OpProofs Scalar OpRules OpRules2 OpProofs2 OpProofs3.
Import ListNotations.
Local Open Scope nat_scope.

Lemma stays_above (u v : R -> R) t0 du dv : is_derive u t0 du -> is_derive v t0 dv -> (v t0 < u t0)%R -> locally t0 (fun t => (v t < u t)%R).
Proof.
  intros Du Dv H. assert (C : continuous (fun t => u t - v t)%R t0).
  { apply @ex_derive_continuous. exists (du - dv)%R. now apply @is_derive_minus. }
  assert (L : locally (u t0 - v t0)%R (fun z => 0 < z)%R). { apply (near_above _ 0%R); [lra|auto]. }
  specialize (C _ L). unfold filtermap in C. revert C. apply filter_imp. intros t Ht. lra.
Qed.

Lemma s_max x y : x <> y ->
  sound2_at (fun l r => if above l r then l else r) (fun g => if above x y then g else 0%R) (fun g => if above x y then 0%R else g) x y.
Proof.
  intros H. destruct (above_spec x y) as [P|P].
  - exists 1%R, 0%R. split; [|intros; split; ring]. intros u v t0 du dv Eu Ev Du Dv.
    apply (is_derive_ext_loc u).
    + assert (L : (v t0 < u t0)%R) by lra. generalize (stays_above u v t0 du dv Du Dv L). apply filter_imp. intros t Ht. now rewrite above_true.
    + apply (d_eq _ _ du); [assumption|rring].
  - exists 0%R, 1%R. split; [|intros; split; ring]. intros u v t0 du dv Eu Ev Du Dv.
    apply (is_derive_ext_loc v).
    + assert (L : (u t0 < v t0)%R) by lra. generalize (stays_above v u t0 dv du Dv Du L). apply filter_imp. intros t Ht. now rewrite above_false by lra.
    + apply (d_eq _ _ dv); [assumption|rring].
Qed.

Lemma n_max y l : ~ is_derive (fun t => if above t y then t else y) y l.
Proof.
  apply (kink _ (fun _ => y) (fun t => t) y 0 1 1); try lra; try apply @is_derive_const; try apply @is_derive_id.
  - intros t Ht. now rewrite above_false by lra.
  - intros t Ht. destruct (above_spec t y); [reflexivity|lra].
Qed.
Lemma n_min y l : ~ is_derive (fun t => if above t y then y else t) y l.
Proof.
  apply (kink _ (fun t => t) (fun _ => y) y 1 0 1); try lra; try apply @is_derive_const; try apply @is_derive_id.
  - intros t Ht. now rewrite above_false by lra.
  - intros t Ht. destruct (above_spec t y); [reflexivity|lra].
Qed.

Lemma maximum_right_iff dbg a b : sized a -> sized b -> fst a = fst b ->
  (right2 dbg op_maximum a b <-> forall p, p < prod (fst a) -> nth p (snd a) 0%R <> nth p (snd b) 0%R).
Proof.
  intros Ha Hb E. split.
  - intros HR p Hp Eq. destruct (op2_right_exists dbg _ _ _ a b p Ha Hb E HR Hp) as [d D]. rewrite Eq in D. now apply n_max in D.
  - intros H. apply op2_right; try assumption. intros p Hp x y. now apply s_max, H.
Qed.

Lemma minimum_wrong dbg a b : sized a -> sized b -> fst a = fst b -> prod (fst a) <> 0 -> ~ right2 dbg op_minimum a b.
Proof.
  intros Ha Hb E Hp HR. set (x := nth 0 (snd a) 0%R). set (y := nth 0 (snd b) 0%R).
  assert (K : forall d, is_derive (fun t => if above t y then y else t) x d -> forall c, (if above x y then c else 0)%R = (c * d)%R).
  { intros d D c. apply (op2_right_l dbg _ _ _ a b 0 d Ha Hb E HR ltac:(lia) D c). }
  destruct (Rtotal_order x y) as [L|[Q|G]].
  - specialize (K 1%R). rewrite above_false in K by lra. assert (X : (0 = 1 * 1)%R); [|lra]. apply K.
    apply (is_derive_ext_loc (fun t => t)); [|apply @is_derive_id]. apply (near_below x y); [assumption|]. intros t Ht. now rewrite above_false by lra.
  - destruct (op2_right_exists dbg _ _ _ a b 0 Ha Hb E HR ltac:(lia)) as [d D]. fold x y in D. rewrite Q in D. now apply n_min in D.
  - specialize (K 0%R). rewrite above_true in K by lra. assert (X : (1 = 1 * 0)%R); [|lra]. apply K.
    apply (is_derive_ext_loc (fun t => y)); [|apply @is_derive_const]. apply (near_above x y); [assumption|]. intros t Ht. now rewrite above_true by lra.
Qed.

Lemma atan2_wrong dbg a b p : sized a -> sized b -> fst a = fst b -> p < prod (fst a) -> (0 < nth p (snd b) 0)%R -> ~ right2 dbg op_atan2 a b.
Proof.
  intros Ha Hb E Hp H HR. set (x := nth p (snd a) 0%R) in *. set (y := nth p (snd b) 0%R) in *.
  assert (D : is_derive (fun t => atan2R t y) x (y / (x * x + y * y))%R).
  { apply (is_derive_ext (fun t => atan (t / y))); [intros t; unfold atan2R; now rewrite above_true|].
    replace (y / (x * x + y * y))%R with (/ y * / (1 + (x / y) * (x / y)))%R by (field; split; nra).
    apply (is_derive_comp atan (fun t => (t / y)%R)); [apply d_atan|].
    apply (is_derive_ext (fun t => / y * t)%R); [intros t; unfold Rdiv; apply Rmult_comm|].
    apply (d_eq _ _ (/ y * 1)%R); [|ring]. apply is_derive_scal. apply @is_derive_id. }
  pose proof (op2_right_l dbg _ _ _ a b p _ Ha Hb E HR Hp D 1%R) as X. cbv beta in X. fold x y in X.
  assert (P : (0 < y / (x * x + y * y))%R) by (apply Rdiv_lt_0_compat; nra).
  replace (- (1) * y / (x * x + y * y))%R with (- (y / (x * x + y * y)))%R in X by (field; nra). lra.
Qed.

(** ** The element-wise product *)

Lemma product_val_big dbg (a b : val R) : sized a -> sized b -> prod (fst b) <> 0 -> prod (fst b) <= prod (fst a) -> (exists q, prod (fst a) = q * prod (fst b)) ->
  product_val dbg a b = Some (fst a, tab (prod (fst a)) (fun p => nth p (snd a) 0 * nth (p mod prod (fst b)) (snd b) 0)%R).
Proof.
  intros Ha Hb N Hle Hq. unfold sized in *. unfold product_val, pure2.
  pose proof (C17_elementwise_product R 0%R dbg Rmult (mkT (fst a) 0) (mkT (fst b) 1) [snd a; snd b] (snd a) (snd b) eq_refl Ha eq_refl Hb) as H.
  cbv zeta in H. replace (length (snd a) <? length (snd b)) with false in H by (symmetry; apply Nat.ltb_ge; lia).
  destruct H as (_ & H & _). rewrite H by (rewrite ?Ha, ?Hb; assumption). cbn [val_of shape ref nth]. unfold val_of. cbn [shape ref length app nth].
  now rewrite Ha, Hb.
Qed.

Lemma product_val_small dbg (a b : val R) : sized a -> sized b -> prod (fst a) <> 0 -> prod (fst a) < prod (fst b) -> (exists q, prod (fst b) = q * prod (fst a)) ->
  product_val dbg a b = Some (fst b, tab (prod (fst b)) (fun p => nth p (snd b) 0 * nth (p mod prod (fst a)) (snd a) 0)%R).
Proof.
  intros Ha Hb N Hle Hq. unfold sized in *. unfold product_val, pure2.
  pose proof (C17_elementwise_product R 0%R dbg Rmult (mkT (fst a) 0) (mkT (fst b) 1) [snd a; snd b] (snd a) (snd b) eq_refl Ha eq_refl Hb) as H.
  cbv zeta in H. replace (length (snd a) <? length (snd b)) with true in H by (symmetry; apply Nat.ltb_lt; lia).
  destruct H as (_ & H & _). rewrite H by (rewrite ?Ha, ?Hb; assumption). unfold val_of. cbn [shape ref length app nth].
  now rewrite Ha, Hb.
Qed.

(** u is repeated along leading axes to give U *)
Lemma tail_source u U p : Stretches u U -> TailOf u U -> p < prod U -> offset u (source_index u (unoffset U p)) = p mod prod u.
Proof.
  intros St T Hp. rewrite <- (proj2 (C17_tiling_is_broadcasting_iff u U St ltac:(lia)) T) by now apply unoffset_valid.
  f_equal. now apply offset_unoffset.
Qed.

Lemma tail_refl U : TailOf U U.
Proof. exists 0. cbn [repeat skipn app]. unfold padded. rewrite Nat.sub_diag. reflexivity. Qed.
Lemma stretches_refl U : Stretches U U.
Proof. split; [lia|]. auto. Qed.

Lemma tail_prod u U : TailOf u U -> prod u <> 0 -> exists q, prod U = q * prod u.
Proof.
  intros [k E] N. exists (prod (firstn k U)). rewrite <- (prod_padded (length U) u), E. rewrite prod_app.
  rewrite prod_repeat_1.
  rewrite Nat.mul_1_l. rewrite <- prod_app. now rewrite firstn_skipn.
Qed.

Section Product.
Variable dbg : bool.

Lemma product_right_big a b : sized a -> sized b -> fst a <> [] -> fst b <> [] -> prod (fst a) <> 0 -> prod (fst b) <> 0 -> Stretches (fst b) (fst a) -> TailOf (fst b) (fst a) ->
  right2 dbg (op_product dbg) a b.
Proof.
  intros Ha Hb Na Nb Pa Pb St T. destruct (tail_prod _ _ T Pb) as [q Hq]. assert (Hle : prod (fst b) <= prod (fst a)) by (destruct q; [lia|rewrite Hq; cbn [Nat.mul]; lia]).
  set (m := prod (fst b)).
  apply (right2_intro dbg _ a b (fst a) (fun u v p => nth p u 0 * nth (p mod m) v 0)%R
           (fun da db p => nth p da 0 * nth (p mod m) (snd b) 0 + nth p (snd a) 0 * nth (p mod m) db 0)%R); try assumption.
  - intros wa wb Sa Za Sb Zb. cbn [apply2 op_product]. rewrite product_val_big by (try assumption; rewrite ?Sa, ?Sb; eauto). rewrite Sa, Sb. reflexivity.
  - intros u v t0 da db Eu Ev La Lb Da Db p Hp. rewrite <- Eu, <- Ev.
    apply (is_derive_mult (fun t => nth p (u t) 0%R) (fun t => nth (p mod m) (v t) 0%R)); [now apply Da|apply Db; now apply Nat.mod_upper_bound].
  - intros g Lg. cbn [local2 op_product]. rewrite product_val_big by eauto. cbn [obind2].
    assert (Sg : sized (fst a, g)) by assumption.
    rewrite (product_val_big dbg (fst a, g) b) by (cbn [fst]; eauto). cbn [fst snd].
    rewrite (product_val_big dbg (fst a, g) a) by (cbn [fst]; try assumption; try lia; exists 1; lia). cbn [fst snd].
    destruct (unbroadcast_adjoint dbg (fst a) (fst a) (tab (prod (fst a)) (fun p => nth p g 0 * nth (p mod prod (fst b)) (snd b) 0)%R)) as (ua & E1 & L1 & H1);
      [assumption|apply stretches_refl|assumption|apply tab_length|].
    destruct (unbroadcast_adjoint dbg (fst b) (fst a) (tab (prod (fst a)) (fun p => nth p g 0 * nth (p mod prod (fst a)) (snd a) 0)%R)) as (ub & E2 & L2 & H2);
      [assumption|assumption|assumption|apply tab_length|].
    rewrite E1, E2. exists ua, ub. split; [reflexivity|]. split; [assumption|]. split; [assumption|]. intros da db La Lb.
    rewrite H1, H2 by assumption. rewrite <- rsum_tab_plus. apply rsum_tab_ext. intros p Hp. rewrite !nth_tab by assumption.
    rewrite (tail_source (fst a)) by (assumption || apply stretches_refl || apply tail_refl). rewrite (tail_source (fst b)) by assumption. fold m.
    rewrite (Nat.mod_small p (prod (fst a))) by assumption. ring.
Qed.

Lemma product_right_small a b : sized a -> sized b -> fst a <> [] -> fst b <> [] -> prod (fst a) <> 0 -> prod (fst a) < prod (fst b) -> Stretches (fst a) (fst b) -> TailOf (fst a) (fst b) ->
  right2 dbg (op_product dbg) a b.
Proof.
  intros Ha Hb Na Nb Pa Pb St T. destruct (tail_prod _ _ T Pa) as [q Hq]. assert (Pb' : prod (fst b) <> 0) by lia.
  set (m := prod (fst a)) in *.
  apply (right2_intro dbg _ a b (fst b) (fun u v p => nth p v 0 * nth (p mod m) u 0)%R
           (fun da db p => nth p db 0 * nth (p mod m) (snd a) 0 + nth p (snd b) 0 * nth (p mod m) da 0)%R); try assumption.
  - intros wa wb Sa Za Sb Zb. cbn [apply2 op_product]. rewrite product_val_small by (try assumption; rewrite ?Sa, ?Sb; eauto). rewrite Sa, Sb. reflexivity.
  - intros u v t0 da db Eu Ev La Lb Da Db p Hp. rewrite <- Eu, <- Ev.
    apply (is_derive_mult (fun t => nth p (v t) 0%R) (fun t => nth (p mod m) (u t) 0%R)); [now apply Db|apply Da; now apply Nat.mod_upper_bound].
  - intros g Lg. cbn [local2 op_product]. rewrite product_val_small by eauto. cbn [obind2].
    assert (Sg : sized (fst b, g)) by assumption.
    rewrite (product_val_big dbg (fst b, g) b) by (cbn [fst]; try assumption; try lia; exists 1; lia). cbn [fst snd].
    rewrite (product_val_big dbg (fst b, g) a) by (cbn [fst]; try assumption; try (fold m; lia); eauto). cbn [fst snd].
    destruct (unbroadcast_adjoint dbg (fst a) (fst b) (tab (prod (fst b)) (fun p => nth p g 0 * nth (p mod prod (fst b)) (snd b) 0)%R)) as (ua & E1 & L1 & H1);
      [assumption|assumption|assumption|apply tab_length|].
    destruct (unbroadcast_adjoint dbg (fst b) (fst b) (tab (prod (fst b)) (fun p => nth p g 0 * nth (p mod prod (fst a)) (snd a) 0)%R)) as (ub & E2 & L2 & H2);
      [assumption|apply stretches_refl|assumption|apply tab_length|].
    rewrite E1, E2. exists ua, ub. split; [reflexivity|]. split; [assumption|]. split; [assumption|]. intros da db La Lb.
    rewrite H1, H2 by assumption. rewrite <- rsum_tab_plus. apply rsum_tab_ext. intros p Hp. rewrite !nth_tab by assumption.
    rewrite (tail_source (fst b)) by (assumption || apply stretches_refl || apply tail_refl). rewrite (tail_source (fst a)) by assumption. fold m.
    rewrite (Nat.mod_small p (prod (fst b))) by assumption. ring.
Qed.
End Product.

(** ** The matrix product *)

Lemma dot_rsum n x y : dot 0%R Rplus Rmult n x y = rsum (tab n (fun i => x i * y i)%R).
Proof.
  unfold dot. induction n as [|n IH]; [reflexivity|]. rewrite seq_S, fold_left_app. cbn [fold_left Nat.add]. rewrite IH, tab_snoc, rsum_app. cbn [rsum]. ring.
Qed.

Lemma gemm_val_ok a ta b tb m n k : length a = m * n -> length b = n * k ->
  gemm_val a ta b tb m n k = Some (tab2 m k (fun r j => rsum (tab n (fun i => op_entry 0%R a ta m n r i * op_entry 0%R b tb n k i j)%R))).
Proof.
  intros La Lb. unfold gemm_val. destruct (C15_gemm R 0%R Rplus Rmult a ta b tb m n k (repeat 0%R (m * k)) La Lb) as (c & E & L & H & _); [now rewrite repeat_length|].
  rewrite E. f_equal. rewrite repeat_length in L. apply (list_eq_nth_d 0%R); rewrite L; [now rewrite tab2_length|]. intros p Hp.
  assert (Hk : k <> 0) by lia. pose proof (Nat.div_mod p k Hk) as Q. pose proof (Nat.mod_upper_bound p k Hk) as M.
  assert (D : p / k < m) by (apply Nat.div_lt_upper_bound; lia).
  replace p with (p / k * k + p mod k) by lia. rewrite nth_tab2 by assumption. erewrite nth_error_nth; [|apply H; assumption]. apply dot_rsum.
Qed.

Lemma pure2_multiply (a b : val R) m n k : sized a -> sized b -> fst a = [m; n] -> fst b = [n; k] ->
  pure2 (multiply 0%R true Rplus Rmult) a b =
    Some ([m; k], tab2 m k (fun r j => rsum (tab n (fun i => nth (r * n + i) (snd a) 0 * nth (i * k + j) (snd b) 0)%R))).
Proof.
  intros Ha Hb Ea Eb. unfold sized in *. unfold pure2.
  destruct (C16_matrix_product R 0%R true Rplus Rmult (mkT (fst a) 0) (mkT (fst b) 1) [snd a; snd b] m n k (snd a) (snd b)) as (t & c & E & St & W & H);
    try assumption; try reflexivity; [exists (snd a); auto|exists (snd b); auto|].
  rewrite E. unfold val_of. rewrite St. do 2 f_equal. destruct W as (d & Ed & Ld). rewrite St in Ld. cbn [prod fold_right] in Ld.
  rewrite (nth_error_nth _ _ _ Ed). apply (list_eq_nth_d 0%R); rewrite Ld, ?tab2_length; [lia|]. intros p Hp.
  assert (Hk : k <> 0) by lia. pose proof (Nat.div_mod p k Hk) as Q. pose proof (Nat.mod_upper_bound p k Hk) as M.
  assert (D : p / k < m) by (apply Nat.div_lt_upper_bound; lia).
  specialize (H _ _ D M). unfold elem in H. rewrite Ed, St in H. cbn [offset prod fold_right] in H.
  replace (p / k * (k * 1) + (p mod k * 1 + 0)) with p in H by lia.
  rewrite (nth_error_nth _ _ _ H), dot_rsum, tab2_tab, nth_tab by lia. reflexivity.
Qed.

Lemma rsum_scal c n f : (c * rsum (tab n f))%R = rsum (tab n (fun i => c * f i)%R).
Proof. induction n; [cbn; ring|]. rewrite !tab_snoc, !rsum_app. cbn [rsum]. rewrite <- IHn. ring. Qed.

Lemma matmul_right dbg a b m n k : sized a -> sized b -> fst a = [m; n] -> fst b = [n; k] -> right2 dbg op_matmul a b.
Proof.
  intros Ha Hb Ea Eb. unfold sized in Ha, Hb. assert (La := Ha). assert (Lb := Hb). rewrite Ea in La. rewrite Eb in Lb. cbn [prod fold_right] in La, Lb. rewrite Nat.mul_1_r in *.
  set (F := fun u v p => rsum (tab n (fun i => nth (p / k * n + i) u 0 * nth (i * k + p mod k) v 0)%R)).
  set (DF := fun da db p => rsum (tab n (fun i => nth (p / k * n + i) da 0 * nth (i * k + p mod k) (snd b) 0 + nth (p / k * n + i) (snd a) 0 * nth (i * k + p mod k) db 0)%R)).
  apply (right2_intro dbg _ a b [m; k] F DF); try assumption.
  - intros wa wb Sa Za Sb Zb. cbn [apply2 op_matmul]. rewrite Sa, Sb, Ea, Eb. rewrite (pure2_multiply _ _ m n k) by congruence.
    do 2 f_equal. cbn [prod fold_right]. rewrite Nat.mul_1_r. now rewrite tab2_tab.
  - cbn [prod fold_right]. rewrite Nat.mul_1_r. intros u v t0 da db Eu Ev Lda Ldb Da Db p Hp. unfold F, DF.
    assert (Hk : k <> 0) by lia. pose proof (Nat.mod_upper_bound p k Hk) as M. assert (D : p / k < m) by (apply Nat.div_lt_upper_bound; lia).
    rewrite Ea, Eb in *. cbn [prod fold_right] in *. rewrite Nat.mul_1_r in *.
    apply (is_derive_rsum_tab n (fun i t => nth (p / k * n + i) (u t) 0 * nth (i * k + p mod k) (v t) 0)%R). intros i Hi. rewrite <- Eu, <- Ev.
    apply (is_derive_mult (fun t => nth (p / k * n + i) (u t) 0%R) (fun t => nth (i * k + p mod k) (v t) 0%R)); [apply Da; nia|apply Db; nia].
  - cbn [prod fold_right]. rewrite Nat.mul_1_r. intros g Lg. cbn [local2 op_matmul]. rewrite Ea, Eb. rewrite (pure2_multiply a b m n k) by assumption. cbn [obind2 fst snd].
    rewrite (gemm_val_ok g false (snd b) true m k n) by lia. rewrite (gemm_val_ok (snd a) true g false n m k) by lia.
    eexists _, _. split; [reflexivity|]. rewrite !tab2_length. cbn [prod fold_right]. rewrite !Nat.mul_1_r. split; [reflexivity|]. split; [reflexivity|]. intros da db Lda Ldb.
    unfold op_entry, TensorSpec.entry.
    (* left: sum over rows, columns, inner index *)
    transitivity (rsum (tab m (fun r => rsum (tab k (fun j => rsum (tab n (fun i =>
        nth (r * k + j) g 0 * (nth (r * n + i) da 0 * nth (i * k + j) (snd b) 0 + nth (r * n + i) (snd a) 0 * nth (i * k + j) db 0))%R)))))).
    { rewrite <- rsum_tab2. rewrite tab2_tab. apply rsum_tab_ext. intros p Hp. assert (Hk : k <> 0) by lia.
      assert (X : p / k * k + p mod k = p) by (rewrite Nat.mul_comm; symmetry; now apply Nat.div_mod).
      unfold DF. rewrite rsum_scal. apply rsum_tab_ext. intros i Hi. cbv beta. now rewrite X. }
    assert (XA : inner (tab2 m n (fun r j => rsum (tab k (fun i => nth (r * k + i) g 0 * nth (j * k + i) (snd b) 0)%R))) da =
                 rsum (tab m (fun r => rsum (tab n (fun i => rsum (tab k (fun j => nth (r * k + j) g 0 * nth (r * n + i) da 0 * nth (i * k + j) (snd b) 0)%R)))))).
    { rewrite (inner_rsum (m * n)) by (rewrite ?tab2_length; auto). rewrite tab_mul, rsum_tab2. apply rsum_tab_ext. intros r Hr. apply rsum_tab_ext. intros i Hi.
      rewrite nth_tab2 by assumption. rewrite Rmult_comm, rsum_scal. apply rsum_tab_ext. intros j Hj. ring. }
    assert (XB : inner (tab2 n k (fun r j => rsum (tab m (fun i => nth (i * n + r) (snd a) 0 * nth (i * k + j) g 0)%R))) db =
                 rsum (tab m (fun r => rsum (tab k (fun j => rsum (tab n (fun i => nth (r * k + j) g 0 * nth (r * n + i) (snd a) 0 * nth (i * k + j) db 0)%R)))))).
    { rewrite (inner_rsum (n * k)) by (rewrite ?tab2_length; auto). rewrite tab_mul, rsum_tab2.
      transitivity (rsum (tab n (fun i => rsum (tab k (fun j => rsum (tab m (fun r => nth (r * k + j) g 0 * nth (r * n + i) (snd a) 0 * nth (i * k + j) db 0)%R)))))).
      { apply rsum_tab_ext. intros i Hi. apply rsum_tab_ext. intros j Hj. rewrite nth_tab2 by assumption. rewrite Rmult_comm, rsum_scal. apply rsum_tab_ext. intros r Hr. ring. }
      rewrite (rsum_tab_ext n _ (fun i => rsum (tab m (fun r => rsum (tab k (fun j => nth (r * k + j) g 0 * nth (r * n + i) (snd a) 0 * nth (i * k + j) db 0)%R)))))
        by (intros; apply rsum_tab_swap).
      rewrite rsum_tab_swap. apply rsum_tab_ext. intros r Hr. apply rsum_tab_swap. }
    rewrite XA, XB. rewrite <- rsum_tab_plus. apply rsum_tab_ext. intros r Hr.
    rewrite (rsum_tab_swap n k). rewrite <- rsum_tab_plus. apply rsum_tab_ext. intros j Hj. rewrite <- rsum_tab_plus. apply rsum_tab_ext. intros i Hi. ring.
Qed.
