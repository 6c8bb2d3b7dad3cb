(** Networks as graphs: every operator has a value and a right backward action. *)
From Coq Require Import List Arith Lia Bool PeanoNat NArith ZArith Reals Lra Permutation.
From Verif Require Import ListBase BcastAdjoint Loops TensorModel TensorSpec TensorProofs TensorProofs2 ArrayModel ArrayProofs LayerModel LayerSpec LayerProofs LayerProofs2 LayerProofs3
  LayerProofs4 LayerProps ConvProofs ConvProps GraphModel GraphSpec GraphProofs GradSpec GradProofs OpModel CalcSpec OpProofs4 OpProofs6 OpProps GradProps DeclModel DeclSpec DeclProofs
  DeclProofs2 NetModel NetSpec ValueModel ValueSpec NetProofs NetProofs2 ValueProofs ValueProofs2 LearnModel LearnSpec.
Import ListNotations.
Local Open Scope nat_scope.

Definition val_arr (x : arr R) : val R := (ashape x, adata x).
Notation pathR := (path 0%R 1%R Rplus Rmult).
Notation inplaceR := (inplace 0%R 1%R Rplus Rmult).

(** ** Expressions that can be trained *)

Fixpoint fine (dbg : bool) (q : env R) (e : expr R) : Prop :=
  (exists w, evalR q e = Some w /\ sized w /\ snd w <> []) /\
  match e with
  | EVar _ | EHold _ | EConst _ => True
  | EVal _ => False
  | EUn _ o x => fine dbg q x /\ forall i, evalR q x = Some i -> CalcSpec.right1 o i
  | EBin _ o l r => fine dbg q l /\ fine dbg q r /\ (forall a b, evalR q l = Some a -> evalR q r = Some b -> CalcSpec.right2 dbg o a b) /\
      (o = BPlus -> forall x, In x (pathR q l) -> is_leaf x = false /\ blind x)
  end.

Lemma fine_value dbg q e : fine dbg q e -> (exists w, evalR q e = Some w /\ sized w /\ snd w <> []) /\ forall c, e <> EVal c.
Proof. destruct e; cbn [fine]; intros [V H]; (split; [exact V|]); try discriminate. contradiction. Qed.

Lemma fine_at dbg q e k x : fine dbg q e -> At e k x -> fine dbg q x.
Proof.
  intros F. induction 1 as [|k n o x H IH|k n o l r H IH|k n o l r H IH]; [exact F| | |]; cbn [fine] in IH; tauto.
Qed.

Lemma operands_plain q l r : (forall c, l <> EVal c) -> (forall c, r <> EVal c) -> operandsR q l r = obind2 (evalR q l) (fun a => obind2 (evalR q r) (fun b => Some (a, b))).
Proof. intros A B. destruct l; try (now destruct (A c)); destruct r; try (now destruct (B c)); reflexivity. Qed.

Lemma fine_trainable dbg e s : fine dbg (env_of s) e -> NoDup (ids e) -> trainable_tree e s /\ right_everywhere dbg (env_of s) e.
Proof.
  intros F N. split; [split; [|split; [|split; [|split]]]|split].
  - apply (fine_value _ _ _ F).
  - exact N.
  - intros k x H _. destruct (fine_value _ _ _ (fine_at _ _ _ _ _ F H)) as [V _]. exact V.
  - intros k n l r H _ x Hx. destruct (fine_at _ _ _ _ _ F H) as (_ & _ & _ & _ & P). destruct (P eq_refl x Hx) as [L _]. split; [exact L|].
    intros k1 k2 H1 H2 Hn. destruct (node_id x) as [i|] eqn:E; [|congruence]. now destruct (tree_unique e N k1 k2 x x i H1 H2 E E).
  - intros k n l r H _ x Hx. destruct (fine_at _ _ _ _ _ F H) as (_ & _ & _ & _ & P). now destruct (P eq_refl x Hx).
  - intros k n o x i H E. destruct (fine_at _ _ _ _ _ F H) as (_ & _ & Rt). now apply Rt.
  - intros k n o l r a b H E. destruct (fine_at _ _ _ _ _ F H) as (_ & Fl & Fr & Rt & _).
    rewrite operands_plain in E by (now apply (fine_value dbg (env_of s))).
    destruct (evalR (env_of s) l) as [a'|]; [|discriminate]. destruct (evalR (env_of s) r) as [b'|]; [|discriminate]. cbn [obind2] in E. injection E as <- <-. now apply Rt.
Qed.

Lemma skipn_nth {A} (z : A) a l : a < length l -> skipn a l = nth a l z :: skipn (S a) l.
Proof. revert l. induction a as [|a IH]; intros [|b l] H; cbn [length] in H; try lia; [reflexivity|]. cbn [skipn nth]. apply IH. lia. Qed.

(** ** flip is its own adjoint *)

Lemma mirror_cases n Q P pos : pos < P * (n * Q) -> exists o i j, o < P /\ i < n /\ j < Q /\ pos = o * (n * Q) + (i * Q + j).
Proof.
  intros H. destruct (divmod_lt _ _ _ H) as (A & B & C). destruct (divmod_lt _ _ _ B) as (D & E & F).
  exists (pos / (n * Q)), (pos mod (n * Q) / Q), ((pos mod (n * Q)) mod Q). rewrite <- F. auto.
Qed.

Lemma mirror_lt n Q P pos : pos < P * (n * Q) -> mirror n Q pos < P * (n * Q).
Proof.
  intros H. destruct (mirror_cases n Q P pos H) as (o & i & j & Ho & Hi & Hj & ->). rewrite mirror_at by assumption.
  assert ((n - 1 - i) * Q + j < n * Q) by nia. nia.
Qed.

Lemma mirror_twice n Q P pos : pos < P * (n * Q) -> mirror n Q (mirror n Q pos) = pos.
Proof.
  intros H. destruct (mirror_cases n Q P pos H) as (o & i & j & Ho & Hi & Hj & ->). rewrite !mirror_at by (assumption || lia). f_equal. f_equal. f_equal. lia.
Qed.

Lemma rsum_mirror n Q P f : rsum (tab (P * (n * Q)) (fun p => f (mirror n Q p))) = rsum (tab (P * (n * Q)) f).
Proof.
  unfold tab. rewrite <- (map_map (mirror n Q) f). apply rsum_perm, Permutation_map. apply NoDup_Permutation_bis.
  - apply (NoDup_map_in (mirror n Q)); [apply seq_NoDup|]. intros a b Ha Hb E. apply in_seq in Ha, Hb.
    rewrite <- (mirror_twice n Q P a), <- (mirror_twice n Q P b) by lia. now rewrite E.
  - now rewrite map_length.
  - intros q Hq. apply in_map_iff in Hq. destruct Hq as (a & <- & Ha). apply in_seq in Ha. apply in_seq. pose proof (mirror_lt n Q P a ltac:(lia)). lia.
Qed.

Theorem flip_adjoint p n q : length (p ++ n :: q) <= 4 -> prod (p ++ n :: q) <> 0 ->
  adjoint (p ++ n :: q) (p ++ n :: q) (fun x => obind (flip 0%R true x (Z.of_nat (length p))) (fun r => Ok (snd r)))
    (fun _ g => obind (flip 0%R true g (Z.of_nat (length p))) (fun r => Ok (snd r))).
Proof.
  intros L4 P x0 g _ _ Wg Sg.
  assert (K : forall t, wf t -> ashape t = p ++ n :: q -> obind (flip 0%R true t (Z.of_nat (length p))) (fun r => Ok (snd r)) =
    Ok (Arr (p ++ n :: q) (tab (prod (p ++ n :: q)) (fun pos => nth (mirror n (prod q) pos) (adata t) 0%R)))).
  { intros t W E. rewrite (flip_ok 0%R true t (Z.of_nat (length p)) p n q W); [|now rewrite E|now rewrite E|assumption|now left]. cbn [obind snd]. now rewrite E. }
  eexists. split; [now apply K|]. split; [unfold wf; cbn [adata ashape]; apply tab_length|]. split; [reflexivity|]. intros x Wx Sx.
  eexists. split; [now apply K|]. split; [unfold wf; cbn [adata ashape]; apply tab_length|]. split; [reflexivity|]. cbn [adata].
  assert (Lg : length (adata g) = prod (p ++ n :: q)) by (unfold wf in Wg; congruence). assert (Lx : length (adata x) = prod (p ++ n :: q)) by (unfold wf in Wx; congruence).
  rewrite <- !(rsum_tab_inner (prod (p ++ n :: q))) by (rewrite ?tab_length; assumption || reflexivity).
  assert (EP : prod (p ++ n :: q) = prod p * (n * prod q)) by now rewrite prod_app, prod_cons. rewrite EP in *.
  rewrite <- (rsum_mirror n (prod q) (prod p)). apply rsum_tab_ext. intros i Hi. pose proof (mirror_lt _ _ _ _ Hi). rewrite !nth_tab by assumption. now rewrite (mirror_twice n (prod q) (prod p)) by assumption.
Qed.

Section Graphs.
Variable act : (R -> R) -> uop R.
Variable dbg : bool.
Variable eps : R.

(** ** Numbers of operators *)

Lemma graph_ids e : forall n i, In i (ids (graph act n e)) -> n <= i < n + ops e.
Proof.
  induction e as [k|c|o x IH|o l IHl r IHr]; intros n i H.
  - destruct k; destruct H.
  - destruct H.
  - cbn [graph ids ops] in *. destruct H as [<-|H]; [lia|]. apply IH in H. lia.
  - cbn [graph ids ops] in *. destruct H as [<-|H]; [lia|]. apply in_app_or in H. destruct H as [H|H]; [apply IHl in H|apply IHr in H]; lia.
Qed.

Lemma NoDup_app_intro {B} (a b : list B) : NoDup a -> NoDup b -> (forall x, In x a -> In x b -> False) -> NoDup (a ++ b).
Proof.
  induction 1 as [|x a N D IH]; intros Db Dj; [exact Db|]. cbn [app]. constructor.
  - intros H. apply in_app_or in H. destruct H as [H|H]; [contradiction|]. apply (Dj x); [now left|assumption].
  - apply IH; [assumption|]. intros y Ha Hb. apply (Dj y); [now right|assumption].
Qed.

Lemma graph_tree e : forall n, NoDup (ids (graph act n e)).
Proof.
  induction e as [k|c|o x IH|o l IHl r IHr]; intros n.
  - destruct k; constructor.
  - constructor.
  - cbn [graph ids]. constructor; [|apply IH]. intros H. apply graph_ids in H. lia.
  - cbn [graph ids]. constructor.
    + intros H. apply in_app_or in H. destruct H as [H|H]; apply graph_ids in H; lia.
    + apply NoDup_app_intro; [apply IHl|apply IHr|]. intros i A B. apply graph_ids in A, B. lia.
Qed.

(** ** Operators with one operand *)

(** with [deep], the backward actions are right, too *)
Definition okay1 (deep : bool) (o : op1) (v : val R) : Prop :=
  match o with
  | Map f => applies act f /\ (deep = true -> CalcSpec.right1 (act f) v)
  | Reshape _ true | Flatten | ExpandDims (Some _) | Squeeze (Some _) | Transpose => True
  | UpSample n => n <> 0
  | Img2col _ => (Z.of_nat (prod (fst v)) <= 4294967295)%Z
  | AvgPool n => exists b r c k, fst v = [b; r * n; c * n; k]
  | Flip a => exists p n q, fst v = p ++ n :: q /\ length (fst v) <= 4 /\ a = Z.of_nat (length p)
  | Spread rk ck rs cs v => rs <> 0 /\ cs <> 0
  | _ => False
  end.

Lemma view_ok f (x y : arr R) : wf x -> f (ashape x) = Some (ashape y) -> prod (ashape y) = prod (ashape x) -> adata y = adata x -> prod (ashape x) <> 0 ->
  CalcSpec.apply1 (UView f) (val_arr x) = Some (val_arr y) /\ CalcSpec.right1 (UView f) (val_arr x) /\ prod (ashape y) <> 0.
Proof.
  intros W E P D N. cbn [CalcSpec.apply1 val_arr fst snd]. rewrite E. split; [unfold val_arr; now rewrite D|]. split; [|congruence].
  now apply (C32_views f (val_arr x) (ashape y)).
Qed.

Lemma layer_ok own m fwd bwd (x y : arr R) s t : wf x -> ashape x = s -> fwd x = Ok y -> adjoint s t fwd bwd -> prod t <> 0 -> ashape y = t ->
  CalcSpec.apply1 (op_layer own m fwd bwd) (val_arr x) = Some (val_arr y) /\ CalcSpec.right1 (op_layer own m fwd bwd) (val_arr x) /\ prod (ashape y) <> 0.
Proof.
  intros W E F A N Et. split; [|split].
  - cbn [CalcSpec.apply1 op_layer val_arr fst snd]. destruct x as [sx dx]. cbn [ashape adata] in *. rewrite F. reflexivity.
  - now apply (C32_adjoint_right own m fwd bwd s t).
  - congruence.
Qed.

Lemma prod4 a b c d : prod [a; b; c; d] = a * (b * (c * d)). Proof. unfold prod. cbn [fold_right]. lia. Qed.

Lemma op1_ok deep o x y : run1 true eps o x y -> wf x -> okay1 deep o (val_arr x) -> right1 o (ashape x) -> prod (ashape x) <> 0 ->
  CalcSpec.apply1 (graph1 act o) (val_arr x) = Some (val_arr y) /\ (deep = true -> CalcSpec.right1 (graph1 act o) (val_arr x)) /\ prod (ashape y) <> 0.
Proof.
  assert (K : forall A B C : Prop, A /\ B /\ C -> A /\ (deep = true -> B) /\ C) by tauto.
  intros F W O Rt0 N. assert (L : length (adata x) = prod (ashape x)) by exact W. destruct o; cbn [okay1] in O; try contradiction.
  - (* Map *) cbn [run1 forward1] in F. subst y. destruct O as [(own & m & b & E) Rt]. cbn [graph1 ashape]. split; [|split; [exact Rt|exact N]]. rewrite E. reflexivity.
  - (* Flip *) cbn [run1 forward1] in F. destruct F as (src & F). destruct O as (p & n & q & Es & L4 & ->). cbn [val_arr fst] in Es, L4.
    cbn [graph1]. unfold op_flip. rewrite Es in N, L4. assert (Ey : ashape y = p ++ n :: q).
    { rewrite (flip_ok 0%R true x (Z.of_nat (length p)) p n q W) in F; [|now rewrite Es|now rewrite Es|assumption|now left]. assert (G : forall a b : list R * arr R, Ok a = Ok b -> b = a) by congruence.
      apply G in F. apply (f_equal snd) in F. cbn [snd] in F. rewrite F. exact Es. }
    apply K, (layer_ok _ _ _ _ x y (p ++ n :: q) (p ++ n :: q)); [assumption|assumption| |now apply flip_adjoint|assumption|assumption]. now rewrite F.
  - (* Reshape *) destruct batch; [|contradiction]. cbn [run1 forward1] in F. unfold reshape_op in F. cbn [graph1]. unfold op_reshape.
    destruct (Nat.eqb_spec (prod new_shape) 0) as [|Hn]; [discriminate|]. rewrite L in F. unfold check in F.
    destruct (Nat.eqb_spec (prod (ashape x) / prod new_shape * prod new_shape) (prod (ashape x))) as [Q|Q]; [|discriminate]. cbv zeta in F. injection F as <-.
    apply K, view_ok; cbn [ashape adata]; [assumption| | | |assumption].
    + destruct (Nat.eqb_spec (prod new_shape) 0) as [|_]; [congruence|]. rewrite Q, Nat.eqb_refl. reflexivity.
    + now rewrite prod_cons.
    + apply v_reshaped. rewrite L, prod_cons. lia.
  - (* Flatten *) cbn [run1 forward1] in F. unfold flatten_op, check in F. cbn [graph1]. unfold op_flatten. destruct (ashape x) as [|b [|c s]] eqn:Es; try discriminate.
    cbn [length Nat.ltb Nat.leb] in F. destruct (Nat.eqb_spec b 0) as [|Hb]; [discriminate|]. rewrite L in F.
    assert (Q : b * (prod (b :: c :: s) / b) = prod (b :: c :: s)). { rewrite prod_cons, (Nat.mul_comm b (prod (c :: s))), Nat.div_mul by assumption. lia. }
    assert (G : forall a b : arr R, Ok a = Ok b -> b = a) by congruence. apply G in F. subst y. clear G. rewrite <- Es in *.
    apply K, view_ok; cbn [ashape adata]; [assumption| | | |assumption].
    + rewrite Es. destruct (Nat.eqb_spec b 0) as [|_]; [congruence|]. reflexivity.
    + unfold prod at 1. cbn [fold_right]. lia.
    + apply v_reshaped. rewrite L. unfold prod at 2. cbn [fold_right]. lia.
  - (* ExpandDims *) destruct axis as [a|]; [|contradiction]. pose proof (v_expand true a x y F W) as D. cbn [run1 forward1] in F. unfold expand_dims_op in F. cbn [graph1]. unfold op_expand_dims.
    destruct (Nat.ltb_spec (length (ashape x)) a) as [|Ha]; [discriminate|]. injection F as <-. apply K, view_ok; cbn [ashape]; [assumption| | |exact D|assumption].
    + destruct (Nat.ltb_spec (length (ashape x)) a); [lia|]. reflexivity.
    + rewrite prod_app, prod_cons, Nat.mul_1_l, <- prod_app, firstn_skipn. reflexivity.
  - (* Squeeze *) destruct axis as [a|]; [|contradiction]. cbn [run1 forward1] in F. unfold squeeze_op, check in F. cbn [graph1]. unfold op_squeeze.
    destruct (Nat.ltb_spec a (length (ashape x))) as [Ha|]; [|discriminate]. destruct (Nat.leb_spec (length (ashape x)) a); [lia|].
    destruct (Nat.eqb_spec (nth a (ashape x) 0) 1) as [H1|]; [|discriminate].
    assert (P : prod (firstn a (ashape x) ++ skipn (S a) (ashape x)) = prod (ashape x)).
    { assert (Kx : ashape x = firstn a (ashape x) ++ 1 :: skipn (S a) (ashape x)).
      { rewrite <- (firstn_skipn a (ashape x)) at 1. f_equal. rewrite <- H1. now apply skipn_nth. }
      rewrite Kx at 3. rewrite !prod_app, prod_cons, Nat.mul_1_l. reflexivity. }
    destruct (firstn a (ashape x) ++ skipn (S a) (ashape x)) as [|b s] eqn:Et; [discriminate|].
    assert (G : forall a b : arr R, Ok a = Ok b -> b = a) by congruence. apply G in F. subst y. clear G.
    apply K, view_ok; cbn [ashape adata]; [assumption| |exact P|apply v_reshaped; congruence|assumption].
    destruct (Nat.ltb_spec a (length (ashape x))); [|lia]. rewrite H1, Nat.eqb_refl. cbn [andb]. rewrite Et. reflexivity.
  - (* Transpose *) pose proof F as F0. cbn [run1] in F. destruct (forward1_gives true Transpose x y F W Rt0) as [_ (r & c & u & Es & U & Ey)]. specialize (U eq_refl). subst u.
    cbn [forward1] in F. destruct F as (ca & ca' & F). unfold op_transpose. cbn [graph1]. unfold op_transpose.
    apply K, (layer_ok _ _ _ _ x y [r; c] [c; r]); [assumption|assumption| |apply C34_transpose_adjoint| |assumption].
    + destruct (transpose_ok 0%R true ca x r c W Es) as (d & E1 & L1 & H1). destruct (transpose_ok 0%R true [] x r c W Es) as (d' & E2 & L2 & H2).
      rewrite E1 in F. injection F as _ <-. rewrite E2. cbn [obind snd]. do 2 f_equal. apply list_eq_nth; [congruence|]. intros p Hp. rewrite L2 in Hp.
      destruct (divmod_lt _ _ _ Hp) as (P1 & P2 & P3). rewrite P3. rewrite H1, H2 by assumption. reflexivity.
    + rewrite Es in N. unfold prod in *. cbn [fold_right] in *. lia.
  - (* Img2col *) pose proof (run1_forward1 _ _ _ _ _ F) as F0. destruct (forward1_gives true (Img2col a) x y F0 W Rt0) as [_ (bs & r & c & ch & orow & ocol & Es & E1 & E2 & Ey)].
    cbn [run1] in F. destruct F as (t & t' & Ht & F). rewrite Es in Ht. cbn [tl] in Ht. cbn [val_arr fst] in O. rewrite Es in O.
    assert (Hc : ch <> 0 /\ bs <> 0) by (rewrite Es, prod4 in N; split; intros ->; lia). destruct Hc as [Hc Hb].
    destruct (v_img2col true a t t' x y bs r c ch orow ocol W Es O Hc E1 E2 Ht F) as (Sy & Ly & Hy).
    destruct (img2col_fwd_ok 0%R true a [] x bs r c ch orow ocol W Es O E1 E2 (or_introl eq_refl)) as (d & Ed & Ld & _ & Hd).
    assert (X : Arr [krow a * kcol a * ch; bs * orow * ocol] d = y).
    { destruct y as [sy dy]. cbn [ashape adata] in *. subst sy. f_equal. apply list_eq_nth; [congruence|]. intros p Hp. rewrite Ld in Hp.
      destruct (divmod_lt _ _ _ Hp) as (P1 & P2 & P3).
      assert (P1' : p / (bs * orow * ocol) < ch * (krow a * kcol a)) by (rewrite (Nat.mul_comm ch); exact P1).
      destruct (divmod_lt _ _ _ P1') as (A1 & A2 & A3). destruct (divmod_lt _ _ _ A2) as (B1 & B2 & B3). destruct (divmod_lt _ _ _ P2) as (C1 & C2 & C3).
      destruct (divmod_lt _ _ _ C1) as (D1 & D2 & D3). rewrite P3. rewrite A3, B3, C3, D3.
      set (i1 := p / (bs * orow * ocol) / (krow a * kcol a)) in *. set (i2 := (p / (bs * orow * ocol)) mod (krow a * kcol a) / kcol a) in *.
      set (i3 := ((p / (bs * orow * ocol)) mod (krow a * kcol a)) mod kcol a) in *. set (i4 := p mod (bs * orow * ocol) / ocol / orow) in *.
      set (i5 := (p mod (bs * orow * ocol) / ocol) mod orow) in *. set (i6 := (p mod (bs * orow * ocol)) mod ocol) in *.
      replace (i1 * (krow a * kcol a) + (i2 * kcol a + i3)) with ((i1 * krow a + i2) * kcol a + i3) by ring.
      rewrite Hd by assumption. symmetry. rewrite <- (Hy i1 i2 i3 i4 i5 i6) by assumption. apply nth_error_of_nth.
      rewrite Ly. assert (q1 : (i1 * krow a + i2) * kcol a + i3 < ch * krow a * kcol a) by nia. assert (q2 : (i4 * orow + i5) * ocol + i6 < bs * orow * ocol) by nia. nia. }
    cbn [graph1]. unfold op_img2col. apply K, (layer_ok _ _ _ _ x y [bs; r; c; ch] [krow a * kcol a * ch; bs * orow * ocol]); [assumption|assumption| | | |assumption].
    + rewrite Ed. cbn [obind snd]. now rewrite X.
    + intros x0 g W0 S0 Wg Sg. destruct (img2col_fwd_ok 0%R true a [] x0 bs r c ch orow ocol W0 S0 O E1 E2 (or_introl eq_refl)) as (d0 & Ed0 & _).
      destruct (C38_img2col_adjoint true a bs r c ch orow ocol O E1 E2 x0 _ _ W0 S0 Ed0 x0 g W0 S0 Wg Sg) as (b & Hbk & R1). exists b. split; [|exact R1].
      rewrite Ed0. cbn [obind fst]. exact Hbk.
    + pose proof (conv_extent_pos _ _ _ _ _ _ E1). pose proof (conv_extent_pos _ _ _ _ _ _ E2). destruct (conv_extent_args _ _ _ _ _ _ E1) as [K1 _]. destruct (conv_extent_args _ _ _ _ _ _ E2) as [K2 _].
      unfold prod. cbn [fold_right]. rewrite Nat.mul_1_r. repeat (apply Nat.neq_mul_0; split); assumption.
  - (* AvgPool *) cbn [run1 forward1] in F. destruct O as (b & r & c & k & Es). cbn [val_arr fst] in Es.
    assert (Hn : stride <> 0) by (rewrite Es, prod4 in N; intros ->; rewrite Nat.mul_0_r, Nat.mul_0_l in N; lia).
    destruct (forward1_gives true (AvgPool stride) x y F W Rt0) as [_ (_ & b' & r' & c' & k' & Es' & Ey)]. rewrite Es in Es'. injection Es' as <- <- <- <-. rewrite !Nat.div_mul in Ey by assumption.
    cbn [graph1]. unfold op_average_pooling. replace (/ (INR stride * INR stride))%R with (factor stride) in * by (unfold factor; now rewrite mult_INR).
    apply K, (layer_ok _ _ _ _ x y [b; r * stride; c * stride; k] [b; r; c; k]); [assumption|assumption|assumption|now apply C36_average_pooling_adjoint| |assumption].
    rewrite Es in N. rewrite prod4 in *. intros Z. apply N. destruct b; [lia|]. destruct r; [lia|]. destruct c; [lia|]. destruct k; lia.
  - (* UpSample *) cbn [run1 forward1] in F. destruct (forward1_gives true (UpSample stride) x y F W Rt0) as [_ (b & r & c & k & Es & Ey)].
    cbn [graph1]. unfold op_up_sampling.
    apply K, (layer_ok _ _ _ _ x y [b; r; c; k] [b; r * stride; c * stride; k]); [assumption|assumption|assumption|now apply C36_up_sampling_adjoint| |assumption].
    rewrite Es in N. rewrite prod4 in *. destruct b; [lia|]. destruct r; [lia|]. destruct c; [lia|]. destruct k; [lia|]. destruct stride; [lia|]. discriminate.
  - (* Spread *) cbn [run1 forward1] in F. destruct (forward1_gives true (Spread rk ck rs cs valid) x y F W Rt0) as [_ (b & r & c & k & Es & Ey)]. destruct O as [O1 O2]. cbn [right1] in Rt0.
    cbn [graph1]. unfold op_spread.
    apply K, (layer_ok _ _ _ _ x y [b; r; c; k] [b; spread_extent r rk rs valid; spread_extent c ck cs valid; k]); [assumption|assumption|assumption|now apply C51_spread_adjoint| |assumption].
    rewrite Es in N. rewrite prod4 in *. assert (Z : b <> 0 /\ r <> 0 /\ c <> 0 /\ k <> 0) by (destruct b; [lia|]; destruct r; [lia|]; destruct c; [lia|]; destruct k; lia). destruct Z as (Z1 & Z2 & Z3 & Z4).
    assert (Zr : spread_extent r rk rs valid <> 0) by (unfold spread_extent; assert (r * rs <> 0) by (apply Nat.neq_mul_0; auto); lia).
    assert (Zc : spread_extent c ck cs valid <> 0) by (unfold spread_extent; assert (c * cs <> 0) by (apply Nat.neq_mul_0; auto); lia).
    repeat (apply Nat.neq_mul_0; split); assumption.
Qed.
End Graphs.
