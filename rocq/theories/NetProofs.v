(** Networks of layers: every operator that a well formed network applies has a result, of a shape known beforehand. *)
From Coq Require Import List Arith Lia Bool PeanoNat NArith ZArith Reals.
From Verif Require Import ListBase Loops TensorModel TensorSpec TensorProofs TensorProofs2 ArrayModel ArrayProofs LayerModel LayerProofs LayerProofs2 LayerProofs3 LayerProofs4
  ConvProofs GraphModel OpModel CalcSpec OpProofs4 LossModel ArgModel BcastOpModel ConcatModel DeclModel DeclSpec DeclProofs DeclProofs2 NetModel NetSpec ValueModel.
Import ListNotations.
Local Open Scope nat_scope.

(** ** Operators that surely work *)

Definition can1 (o : op1) (s t : list nat) : Prop := forall eps x, wf x -> ashape x = s -> exists y, run1 true eps o x y /\ ashape y = t.
Definition can2 (o : op2) (s s' t : list nat) : Prop :=
  forall x y, wf x -> ashape x = s -> wf y -> ashape y = s' -> exists z, forward2 true o x y z /\ ashape z = t.

Definition zeros (s : list nat) : arr R := Arr s (repeat 0%R (prod s)).
Lemma zeros_wf s : wf (zeros s). Proof. apply repeat_length. Qed.

Lemma can1_gives o s t : can1 o s t -> right1 o s -> gives1 true o s t.
Proof.
  intros C Rt. destruct (C 0%R (zeros s) (zeros_wf s) eq_refl) as (y & F & <-). apply run1_forward1 in F. destruct (forward1_gives _ _ _ _ F (zeros_wf s) Rt) as [_ G]. exact G.
Qed.
Lemma can2_gives o s s' t : can2 o s s' t -> gives2 true o s s' t.
Proof.
  intros C. destruct (C (zeros s) (zeros s') (zeros_wf s) eq_refl (zeros_wf s') eq_refl) as (y & F & <-).
  destruct (forward2_gives _ _ _ _ _ F (zeros_wf s) (zeros_wf s')) as [_ G]. exact G.
Qed.

Lemma gives1_mono dbg o s t : gives1 true o s t -> gives1 dbg o s t.
Proof. destruct o; cbn [gives1]; try (intros G; exact G). intros (r & c & u & E & U & T). exists r, c, u. auto. Qed.
Lemma gives2_mono dbg o s s' t : gives2 true o s s' t -> gives2 dbg o s s' t.
Proof. destruct o; cbn [gives2]; try (intros G; exact G). intros G. apply broadcast_shape_iff in G. now apply broadcast_shape_ok. Qed.

(** ** Shapes of expressions *)

Definition narrow (o : op1) : bool :=
  match o with Map _ | Softmax | Flip _ | Reshape _ _ | Flatten | ExpandDims _ | Squeeze (Some _) | Transpose | Img2col _ | MaxPool _ | AvgPool _ | UpSample _ | Spread _ _ _ _ _ => true | _ => false end.

Lemma gives1_fun dbg o s t t' : narrow o = true -> right1 o s -> gives1 true o s t -> gives1 dbg o s t' -> t' = t.
Proof.
  intros N Rt. destruct o; try discriminate; cbn [gives1 right1] in *.
  - congruence.
  - congruence.
  - intros A B. rewrite A, B; auto.
  - destruct batch; [|congruence]. intros [_ ->] [_ ->]. reflexivity.
  - intros (b & r & -> & _ & ->) (b' & r' & E & _ & ->). now injection E as <- <-.
  - cbv zeta. intros [_ ->] [_ ->]. reflexivity.
  - destruct axis; [|discriminate]. intros [_ ->] [_ ->]. reflexivity.
  - intros (r & c & u & -> & _ & ->) (r' & c' & u' & E & _ & ->). now injection E as <- <- _.
  - intros (bs & r & c & ch & orow & ocol & -> & E1 & E2 & ->) (bs' & r' & c' & ch' & orow' & ocol' & E & E1' & E2' & ->). injection E as <- <- <- <-. congruence.
  - intros (_ & bs & r & c & ch & -> & ->) (_ & bs' & r' & c' & ch' & E & ->). now injection E as <- <- <- <-.
  - intros (_ & bs & r & c & ch & -> & ->) (_ & bs' & r' & c' & ch' & E & ->). now injection E as <- <- <- <-.
  - intros (bs & r & c & ch & -> & ->) (bs' & r' & c' & ch' & E & ->). now injection E as <- <- <- <-.
  - intros (bs & r & c & ch & -> & ->) (bs' & r' & c' & ch' & E & ->). now injection E as <- <- <- <-.
Qed.

Lemma gives2_fun dbg o l r t t' : gives2 true o l r t -> gives2 dbg o l r t' -> t' = t.
Proof.
  destruct o; cbn [gives2].
  - intros A B. apply broadcast_shape_iff in A. apply (broadcast_shape_ok dbg) in A. congruence.
  - congruence.
  - intros (a & b & d & -> & -> & ->) (a' & b' & d' & E1 & E2 & ->). injection E1 as <- <-. now injection E2 as <-.
  - cbv zeta. intros (_ & _ & ->) (_ & _ & ->). reflexivity.
  - intros [_ ->] [_ ->]. reflexivity.
  - intros [_ ->] [_ ->]. reflexivity.
  - intros [_ ->] [_ ->]. reflexivity.
  - congruence.
Qed.

(** an expression over leaves of the shapes ls surely has a value, of shape s *)
Inductive J (ls : nat -> list nat) : ex -> list nat -> Prop :=
| J_leaf n : ls n <> [] -> fits (ls n) -> J ls (Leaf n) (ls n)
| J_un o e s t : J ls e s -> narrow o = true -> can1 o s t -> right1 o s -> fits t -> J ls (Un o e) t
| J_bin o l r s s' t : J ls l s -> J ls r s' -> can2 o s s' t -> right2 o s s' -> fits t -> J ls (Bin o l r) t.

Lemma J_leaf' ls n s : ls n = s -> s <> [] -> fits s -> J ls (Leaf n) s.
Proof. intros <- N F. now constructor. Qed.

Lemma J_ext ls ls' e s : (forall n, ls n <> [] -> ls' n = ls n) -> J ls e s -> J ls' e s.
Proof.
  intros E. induction 1 as [n Hn F|o e s t He IH N C Rt F|o l r s s' t Hl IHl Hr IHr C Rt F].
  - apply J_leaf'; auto.
  - now apply (J_un _ o e s t).
  - now apply (J_bin _ o l r s s' t).
Qed.

Lemma J_fits ls e s : J ls e s -> fits s. Proof. destruct 1; assumption. Qed.

Lemma J_announced ls e s dbg leaf : J ls e s -> (forall n, leaf n = shape_N (ls n)) -> announced dbg leaf e = Ok (shape_N s).
Proof.
  intros Je L. induction Je as [n Hn F|o e s t He IH N C Rt F|o l r s s' t Hl IHl Hr IHr C Rt F].
  - cbn [announced]. now rewrite L.
  - cbn [announced]. rewrite IH. cbn [obind]. apply calc1_gives; [now apply gives1_mono, can1_gives|assumption|now apply (J_fits _ _ _ He)|assumption].
  - assert (A : announced dbg leaf (Bin o l r) = obind (announced dbg leaf l) (fun a => obind (announced dbg leaf r) (calc2 dbg o a))).
    { destruct l; [| inversion Hl | |]; destruct r; try reflexivity; inversion Hr. }
    rewrite A, IHl. cbn [obind]. rewrite IHr. cbn [obind]. apply calc2_gives; [now apply gives2_mono, can2_gives|assumption|assumption].
Qed.

Lemma J_exists ls e s eps leaf : J ls e s -> (forall n, ls n <> [] -> wf (leaf n) /\ ashape (leaf n) = ls n) -> exists y, computes true eps leaf e y /\ wf y /\ ashape y = s.
Proof.
  intros Je L. induction Je as [n Hn F|o e s t He IH N C Rt F|o l r s s' t Hl IHl Hr IHr C Rt F].
  - exists (leaf n). destruct (L n Hn) as [W E]. split; [constructor|]. auto.
  - destruct IH as (x & Ex & Wx & Sx). destruct (C eps x Wx Sx) as (y & Fy & Sy). exists y. split; [now apply (co_un _ _ _ o e x y)|]. split; [|assumption].
    rewrite <- Sx in Rt. now destruct (forward1_gives _ _ _ _ (run1_forward1 _ _ _ _ _ Fy) Wx Rt).
  - destruct IHl as (x & Ex & Wx & Sx). destruct IHr as (y & Ey & Wy & Sy). destruct (C x y Wx Sx Wy Sy) as (z & Fz & Sz). exists z.
    split; [now apply (co_bin _ _ _ o l r x y z)|]. split; [|assumption]. now destruct (forward2_gives _ _ _ _ _ Fz Wx Wy).
Qed.

Lemma J_all ls e s leaf dbg y : J ls e s -> (forall n, ls n <> [] -> wf (leaf n) /\ ashape (leaf n) = ls n) -> evaluates dbg leaf e y -> wf y /\ ashape y = s.
Proof.
  intros Je L. revert y. induction Je as [n Hn F|o e s t He IH N C Rt F|o l r s s' t Hl IHl Hr IHr C Rt F]; intros y Ev.
  - inversion Ev; subst. now apply L.
  - inversion Ev as [|? ? x ? Ex Fy| | |]; subst. destruct (IH _ Ex) as [Wx Sx]. rewrite <- Sx in *. destruct (forward1_gives _ _ _ _ Fy Wx Rt) as [Wy G].
    split; [assumption|]. exact (gives1_fun _ _ _ _ _ N Rt (can1_gives _ _ _ C Rt) G).
  - assert (B : exists a b, evaluates dbg leaf l a /\ evaluates dbg leaf r b /\ forward2 dbg o a b y).
    { inversion Ev; subst; [eauto|inversion Hl|inversion Hr]. }
    destruct B as (a & b & Ea & Eb & Fy). destruct (IHl _ Ea) as [Wa Sa]. destruct (IHr _ Eb) as [Wb Sb]. rewrite <- Sa, <- Sb in *.
    destruct (forward2_gives _ _ _ _ _ Fy Wa Wb) as [Wy G]. split; [assumption|]. exact (gives2_fun _ _ _ _ _ _ (can2_gives _ _ _ _ C) G).
Qed.

(** ** The operators *)

Lemma can_map f s : can1 (Map f) s s.
Proof. intros eps x W <-. eexists. split; [reflexivity|reflexivity]. Qed.

Lemma last_pos (s : list nat) n l : prod s <> 0 -> rev s = n :: l -> n <> 0.
Proof. intros P E Z. assert (Es : s = rev l ++ [n]) by (rewrite <- (rev_involutive s), E; reflexivity). rewrite Es, prod_app in P. subst n. cbn in P. lia. Qed.

Lemma can_softmax s : s <> [] -> prod s <> 0 -> can1 Softmax s s.
Proof.
  intros N P eps x W <-. cbn [run1 forward1]. unfold wf in W. unfold softmax. rewrite W. destruct (Nat.eqb_spec (prod (ashape x)) 0); [contradiction|]. cbn [negb check].
  destruct (rev (ashape x)) as [|k l] eqn:E.
  - apply (f_equal (@rev nat)) in E. rewrite rev_involutive in E. contradiction.
  - destruct (Nat.eqb_spec k 0) as [Z|Z]; [now apply last_pos in E|]. eexists. split; reflexivity.
Qed.

Lemma can_flip s p n q ax : s = p ++ n :: q -> length s <= 4 -> prod s <> 0 -> ax = Z.of_nat (length p) -> can1 (Flip ax) s s.
Proof.
  intros Es L P -> eps x W E. cbn [run1 forward1]. rewrite <- E in *. eexists. split; [eexists; apply (flip_ok _ _ _ _ p n q W P L Es); now left|reflexivity].
Qed.

Lemma can_reshape s new b : prod new <> 0 -> prod s = b * prod new -> can1 (Reshape new true) s (b :: new).
Proof.
  intros N P eps x W E. cbn [run1 forward1]. unfold reshape_op. unfold wf in W. rewrite W, E, P, Nat.div_mul by assumption.
  destruct (Nat.eqb_spec (prod new) 0); [contradiction|]. rewrite Nat.eqb_refl. cbn [check]. eexists. split; reflexivity.
Qed.

Lemma can_flatten b t : t <> [] -> b <> 0 -> can1 Flatten (b :: t) [b; prod t].
Proof.
  intros N B eps x W E. cbn [run1 forward1]. unfold flatten_op. unfold wf in W. rewrite W, E. destruct t as [|n t]; [contradiction|]. cbn [length Nat.ltb Nat.leb check].
  destruct (Nat.eqb_spec b 0); [contradiction|]. rewrite (prod_cons b), (Nat.mul_comm b), Nat.div_mul by assumption. eexists. split; reflexivity.
Qed.

Lemma can_expand s a : a <= length s -> can1 (ExpandDims (Some a)) s (firstn a s ++ 1 :: skipn a s).
Proof.
  intros L eps x W E. cbn [run1 forward1]. unfold expand_dims_op. rewrite E. destruct (Nat.ltb_spec (length s) a); [lia|]. eexists. split; reflexivity.
Qed.

Lemma can_squeeze p q : p <> [] -> can1 (Squeeze (Some (length p))) (p ++ 1 :: q) (p ++ q).
Proof.
  intros N eps x W E. cbn [run1 forward1]. unfold squeeze_op. rewrite E.
  assert (L : length p < length (p ++ 1 :: q)) by (rewrite app_length; cbn [length]; lia).
  destruct (Nat.ltb_spec (length p) (length (p ++ 1 :: q))); [|lia]. destruct (Nat.leb_spec (length (p ++ 1 :: q)) (length p)); [lia|].
  rewrite app_nth2, Nat.sub_diag by lia. cbn [nth Nat.eqb check].
  rewrite firstn_app, firstn_all, Nat.sub_diag. cbn [firstn]. rewrite app_nil_r. rewrite skipn_app, skipn_all2 by lia.
  replace (S (length p) - length p) with 1 by lia. cbn [skipn app]. destruct p as [|n p]; [contradiction|]. cbn [app]. eexists. split; reflexivity.
Qed.

Lemma can_transpose r c : can1 Transpose [r; c] [c; r].
Proof.
  intros eps x W E. cbn [run1 forward1]. destruct (transpose_ok 0%R true [] x r c W E) as (d & H & _). eexists. split; [exists [], d; exact H|reflexivity].
Qed.

Lemma can_img2col a bs r c ch orow ocol : (Z.of_nat (prod [bs; r; c; ch]) <= 4294967295)%Z ->
  conv_extent r (prow a) (krow a) (srow a) (drow a) = Some orow -> conv_extent c (pcol a) (kcol a) (scol a) (dcol a) = Some ocol ->
  can1 (Img2col a) [bs; r; c; ch] [krow a * kcol a * ch; bs * orow * ocol].
Proof.
  intros B E1 E2 eps x W E. cbn [run1 forward1]. destruct (img2col_fwd_ok 0%R true a [] x bs r c ch orow ocol W E B E1 E2 (or_introl eq_refl)) as (d & H & _).
  eexists. split; [exists []; eexists; split; [constructor|exact H]|reflexivity].
Qed.

Lemma can_max n bs r c k : n <> 0 -> can1 (MaxPool n) [bs; r; c; k] [bs; r / n; c / n; k].
Proof.
  intros N eps x W E. cbn [run1 forward1]. eexists. split.
  - exists (Pool [] [] []). eexists. unfold max_fwd. rewrite (with4_ok _ _ _ _ _ _ _ W E). destruct (Nat.eqb_spec n 0); [contradiction|]. reflexivity.
  - reflexivity.
Qed.

Lemma can_avg n bs r c k : n <> 0 -> can1 (AvgPool n) [bs; r; c; k] [bs; r / n; c / n; k].
Proof.
  intros N eps x W E. cbn [run1 forward1]. destruct (avg_fwd_ok 0%R true Rplus Rmult (/ (INR n * INR n))%R n x bs r c k W E N) as (d & H & _).
  eexists. split; [exact H|reflexivity].
Qed.

Lemma can_up n bs r c k : can1 (UpSample n) [bs; r; c; k] [bs; r * n; c * n; k].
Proof. intros eps x W E. cbn [run1 forward1]. destruct (up_fwd_ok 0%R true n x bs r c k W E) as (d & H & _). eexists. split; [exact H|reflexivity]. Qed.

Lemma can_spread rk ck rs cs v bs r c k : rs <> 0 -> cs <> 0 -> (v = true -> rk <> 0 /\ ck <> 0) ->
  can1 (Spread rk ck rs cs v) [bs; r; c; k] [bs; spread_extent r rk rs v; spread_extent c ck cs v; k].
Proof.
  intros N1 N2 V eps x W E. cbn [run1 forward1]. destruct (spread_fwd_ok 0%R true rk ck rs cs v x bs r c k W E N1 N2 V) as (d & H & _). eexists. split; [exact H|reflexivity].
Qed.

Lemma can_plus s s' t : Broadcasts s s' t -> can2 Plus s s' t.
Proof.
  intros B x y Wx Ex Wy Ey. cbn [forward2].
  assert (Lx : length (adata x) = prod s) by (unfold wf in *; congruence). assert (Ly : length (adata y) = prod s') by (unfold wf in *; congruence).
  destruct (zip_broadcast_full 0%R true Rplus (mkT s 0) (mkT s' 1) t [adata x; adata y] (adata x) (adata y) eq_refl Lx eq_refl Ly B) as (u & h' & res & H & Su & Hr & _).
  exists (Arr t res). split; [|reflexivity]. exists [adata x; adata y], (mkT s 0), (mkT s' 1), u, h'. cbn [shape ref ashape adata]. auto 10.
Qed.

Lemma can_product s : prod s <> 0 -> can2 Product s s s.
Proof.
  intros P x y Wx Ex Wy Ey. cbn [forward2]. unfold bnew, op_product.
  pose proof (product_val_big true (ashape x, adata x) (ashape y, adata y) Wx Wy) as H. cbn [fst snd] in H. rewrite Ex, Ey in *.
  specialize (H P (le_n _) (ex_intro _ 1 (eq_sym (Nat.mul_1_l _)))).
  eexists (Arr s _). split; [exact H|reflexivity].
Qed.

Lemma can_matmul m n k : can2 Matmul [m; n] [n; k] [m; k].
Proof.
  intros x y Wx Ex Wy Ey. cbn [forward2]. unfold bnew, op_matmul. cbn [fst snd].
  pose proof (pure2_multiply (ashape x, adata x) (ashape y, adata y) m n k Wx Wy) as H. cbn [fst snd] in H. rewrite Ex, Ey in *. specialize (H eq_refl eq_refl).
  eexists (Arr [m; k] _). split; [exact H|reflexivity].
Qed.

Lemma can_concat p a b q axis : prod p <> 0 -> axis = Some (length p) \/ axis = None /\ q = [] -> can2 (Concat axis) (p ++ a :: q) (p ++ b :: q) (p ++ (a + b) :: q).
Proof.
  intros P Ax x y Wx Ex Wy Ey. cbn [forward2]. eexists. split; [apply (concatenate_ok 0%R true x y axis p a b q Wx Wy Ex Ey P)|reflexivity].
  destruct Ax as [->|[-> ->]]; [now left|right]. split; [reflexivity|]. rewrite app_length. cbn [length]. lia.
Qed.
