(** Values of complex expressions. *)
From Coq Require Import Reals List Arith Lia Lra Bool PeanoNat.
From Verif Require Import ListBase TensorModel TensorSpec TensorProofs GraphModel GraphSpec GraphProps CalcSpec LayerSpec LayerProofs BcastAdjoint CalcProofs OpModel OpProofs4 ComplexModel ComplexSpec.
Import ListNotations.
Open Scope R_scope.

Lemma eval_bin (q : env R) n o l r a b : evalR q l = Some a -> evalR q r = Some b -> evalR q (EBin n o l r) = apply2 o a b.
Proof.
  unfold evalR. intros El Er. destruct l; try (cbn [eval] in El; discriminate El); destruct r; try (cbn [eval] in Er; discriminate Er);
  cbn [eval] in *; rewrite El, Er; cbn [obind2 fst snd]; destruct o; reflexivity.
Qed.

Lemma eval_un (q : env R) n o e a : evalR q e = Some a -> evalR q (EUn n o e) = apply1 o a.
Proof. unfold evalR. intros E. cbn [eval]. rewrite E. cbn [obind2]. destruct o; reflexivity. Qed.

Lemma mat_ext m n f g : (forall i j, (i < m)%nat -> (j < n)%nat -> f i j = g i j) -> mat m n f = mat m n g.
Proof. intros H. unfold mat. f_equal. now apply tab2_ext. Qed.

Lemma mat_sized m n f : sized (mat m n f).
Proof. unfold sized, mat. cbn [fst snd prod fold_right]. rewrite tab2_length. lia. Qed.

Lemma plus_mat m n f g : plus_val 0 Rplus (mat m n f) (mat m n g) = Some (mat m n (fun i j => f i j + g i j)).
Proof.
  unfold plus_val, mat. cbn [fst snd]. unfold broadcast_shape. destruct (list_eqb_spec [m; n] [m; n]); [|contradiction].
  cbv beta iota. apply (f_equal (fun l => Some ([m; n], l))). rewrite !tab2_tab. cbn [prod fold_right]. rewrite Nat.mul_1_r. apply tab_ext. intros p Hp. cbv beta zeta.
  assert (p < prod [m; n])%nat as Hp' by (cbn [prod fold_right]; lia).
  rewrite !source_index_self by now apply unoffset_valid. rewrite offset_unoffset by assumption. rewrite !nth_tab by lia. reflexivity.
Qed.

Lemma ew_mat h m n f : ew h (mat m n f) = Some (mat m n (fun i j => h (f i j))).
Proof. unfold ew, mat. cbn [fst snd]. do 2 f_equal. now rewrite !tab2_tab, map_tab. Qed.

Lemma ew2_mat h m n f g : ew2 h (mat m n f) (mat m n g) = Some (mat m n (fun i j => h (f i j) (g i j))).
Proof.
  unfold ew2, mat. cbn [fst snd]. destruct (list_eqb_spec [m; n] [m; n]); [|contradiction]. do 2 f_equal. now rewrite !tab2_tab, map2_tab.
Qed.

Lemma product_mat dbg m n f g : (m * n <> 0)%nat -> product_val dbg (mat m n f) (mat m n g) = Some (mat m n (fun i j => f i j * g i j)).
Proof.
  intros N. rewrite product_val_big by (try apply mat_sized; unfold mat; cbn [fst prod fold_right]; try lia; exists 1%nat; lia).
  unfold mat. cbn [fst snd prod fold_right]. rewrite Nat.mul_1_r, !tab2_tab. apply (f_equal (fun l => Some ([m; n], l))). apply tab_ext. intros p Hp.
  rewrite Nat.mod_small by lia. rewrite !nth_tab by lia. reflexivity.
Qed.

Lemma matmul_mat m n k f g : apply2 op_matmul (mat m n f) (mat n k g) = Some (mat m k (fun i j => rsum (tab n (fun l => f i l * g l j)))).
Proof.
  cbn [apply2 op_matmul]. unfold mat at 1 2. cbn [fst]. rewrite (pure2_multiply _ _ m n k) by (apply mat_sized || reflexivity).
  apply (f_equal (fun l => Some ([m; k], l))). apply tab2_ext. intros i j Hi Hj. apply rsum_tab_ext. intros l Hl. unfold mat. cbn [snd]. now rewrite !nth_tab2.
Qed.

Section Values.
Variable q : env R.

Lemma has_ext e m n f g : (forall i j, (i < m)%nat -> (j < n)%nat -> f i j = g i j) -> has q e m n f -> has q e m n g.
Proof. unfold has. intros H ->. f_equal. now apply mat_ext. Qed.

Lemma has_plus id l r m n f g : has q l m n f -> has q r m n g -> has q (EBin id BPlus l r) m n (fun i j => f i j + g i j).
Proof. unfold has. intros H1 H2. rewrite (eval_bin q id BPlus l r _ _ H1 H2). cbn [apply2]. apply plus_mat. Qed.

Lemma has_neg id e m n f : has q e m n f -> has q (EUn id op_negative e) m n (fun i j => - f i j).
Proof. unfold has. intros H. rewrite (eval_un q id op_negative e _ H). apply ew_mat. Qed.

Lemma has_ew id o e m n f h : (forall a, apply1 o a = ew h a) -> has q e m n f -> has q (EUn id o e) m n (fun i j => h (f i j)).
Proof. unfold has. intros Ho H. rewrite (eval_un q id o e _ H), Ho. apply ew_mat. Qed.

Lemma has_minus id l r m n f g : has q l m n f -> has q r m n g -> has q (e_minus id l r) m n (fun i j => f i j - g i j).
Proof.
  intros H1 H2. unfold e_minus. apply (has_ext _ m n (fun i j => f i j + - g i j)); [intros; ring|]. apply has_plus; [exact H1|]. now apply has_neg.
Qed.

Lemma has_matmul id l r m n k f g : has q l m n f -> has q r n k g -> has q (EBin id op_matmul l r) m k (fun i j => rsum (tab n (fun t => f i t * g t j))).
Proof. unfold has. intros H1 H2. rewrite (eval_bin q id op_matmul l r _ _ H1 H2). apply matmul_mat. Qed.

Lemma has_product dbg id l r m n f g : (m * n <> 0)%nat -> has q l m n f -> has q r m n g -> has q (EBin id (op_product dbg) l r) m n (fun i j => f i j * g i j).
Proof. unfold has. intros N H1 H2. rewrite (eval_bin q id _ l r _ _ H1 H2). now apply product_mat. Qed.

Lemma has_det e m n f g : has q e m n f -> has q e m n g -> forall i j, (i < m)%nat -> (j < n)%nat -> f i j = g i j.
Proof.
  unfold has. intros -> [= E] i j Hi Hj. apply (f_equal (fun l => nth (i * n + j) l 0)) in E. now rewrite !nth_tab2 in E.
Qed.

Lemma rsum_minus n f g : rsum (tab n (fun i => f i - g i)) = rsum (tab n f) - rsum (tab n g).
Proof. induction n; [cbn; ring|]. rewrite !tab_snoc, !rsum_app, IHn. cbn [rsum]. ring. Qed.

Lemma csum_rsum n (z : nat -> R * R) : csum (tab n z) = (rsum (tab n (fun i => fst (z i))), rsum (tab n (fun i => snd (z i)))).
Proof.
  induction n as [|n IH] in z |- *; [reflexivity|]. rewrite !tab_S. cbn [csum rsum]. rewrite IH. reflexivity.
Qed.

End Values.
