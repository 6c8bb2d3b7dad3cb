(** What a network computes: parts of arrays, and the operators one by one. *)
From Coq Require Import List Arith Lia Bool PeanoNat NArith ZArith Reals Lra.
From Verif Require Import ListBase Loops TensorModel TensorSpec TensorProofs TensorProofs2 ArrayModel ArrayProofs ArrayProps LayerModel LayerSpec LayerProofs LayerProofs2 LayerProofs3
  LayerProofs4 ConvProofs GraphModel OpModel CalcSpec OpProofs4 DeclModel DeclSpec DeclProofs DeclProofs2 NetModel NetSpec ValueModel ValueSpec NetProofs NetProofs2.
Import ListNotations.
Local Open Scope nat_scope.

(** ** Parts *)

Lemma part_length {A} n bs i (d : list A) : i < bs -> length d = bs * n -> length (part n i d) = n.
Proof. intros H L. unfold part. rewrite firstn_length, skipn_length. assert (S i * n <= bs * n) by (apply Nat.mul_le_mono_r; lia). lia. Qed.

Lemma nth_firstn_lt {A} n p (d : list A) z : p < n -> nth p (firstn n d) z = nth p d z.
Proof. revert p d. induction n; intros p d H; [lia|]. destruct d; [now rewrite firstn_nil|]. destruct p; [reflexivity|]. cbn [firstn nth]. apply IHn. lia. Qed.
Lemma nth_skipn_add {A} n p (d : list A) z : nth p (skipn n d) z = nth (n + p) d z.
Proof. revert d. induction n; intros d; [reflexivity|]. destruct d; [now destruct p|]. apply IHn. Qed.

Lemma nth_part {A} n i (d : list A) p z : p < n -> nth p (part n i d) z = nth (i * n + p) d z.
Proof. intros H. unfold part. rewrite nth_firstn_lt by assumption. apply nth_skipn_add. Qed.

Lemma part_eq {A} (z : A) n bs i d g : i < bs -> length d = bs * n -> length g = n -> (forall p, p < n -> nth (i * n + p) d z = nth p g z) -> part n i d = g.
Proof.
  intros Hi L Lg H. apply (list_eq_nth_d z); rewrite (part_length n bs) by assumption; [congruence|]. intros p Hp. rewrite nth_part by assumption. now apply H.
Qed.

Lemma part_part {A} n m i j (d : list A) : j < m -> part n j (part (m * n) i d) = part n (i * m + j) d.
Proof.
  intros H. unfold part. rewrite skipn_firstn_comm. rewrite firstn_firstn, Nat.min_l by nia. f_equal.
  replace ((i * m + j) * n) with (j * n + i * (m * n)) by ring. generalize (j * n) (i * (m * n)). intros a b. clear. revert d. induction b; intros d; [now rewrite Nat.add_0_r|].
  rewrite Nat.add_succ_r. destruct d; [now rewrite !skipn_nil|]. cbn [skipn]. apply IHb.
Qed.

Lemma cell3 r c k p : p < r * (c * k) -> exists y z w, y < r /\ z < c /\ w < k /\ p = y * (c * k) + (z * k + w).
Proof.
  intros H. destruct (divmod_lt _ _ _ H) as (H1 & H2 & H3). destruct (divmod_lt _ _ _ H2) as (H4 & H5 & H6).
  exists (p / (c * k)), (p mod (c * k) / k), (p mod (c * k) mod k). rewrite <- H6, <- H3. auto.
Qed.

Lemma prod3 r c k : prod [r; c; k] = r * (c * k).
Proof. unfold prod. cbn [fold_right]. lia. Qed.

(** a batch of images *)
Lemma part_image bs r c k i d f : i < bs -> length d = prod [bs; r; c; k] ->
  (forall y z w, y < r -> z < c -> w < k -> nth (pos4 r c k i y z w) d 0%R = f y z w) -> part (prod [r; c; k]) i d = loop3 r c k f.
Proof.
  intros Hi L H. apply (part_eq 0%R _ bs); [assumption|now rewrite L, prod_cons|rewrite loop3_length; apply eq_sym, prod3|].
  intros p Hp. rewrite prod3 in *. destruct (cell3 _ _ _ _ Hp) as (y & z & w & Hy & Hz & Hw & ->).
  rewrite (nth_error_nth _ _ _ (nth_error_loop3 r c k f y z w Hy Hz Hw)). now apply H.
Qed.

Lemma at3_part r c k i d y z w : y < r -> z < c -> w < k -> at3 c k (part (prod [r; c; k]) i d) y z w = nth (pos4 r c k i y z w) d 0%R.
Proof.
  intros Hy Hz Hw. unfold at3, pos4. rewrite prod3. rewrite nth_part.
  - f_equal. ring.
  - assert (y * c + z < r * c) by nia. rewrite Nat.mul_assoc. nia.
Qed.

Lemma loop3_eq {A} r c k (f g : nat -> nat -> nat -> A) : (forall y z w, y < r -> z < c -> w < k -> f y z w = g y z w) -> loop3 r c k f = loop3 r c k g.
Proof.
  intros H. apply list_eq_nth; rewrite !loop3_length; [reflexivity|]. intros p Hp. destruct (cell3 _ _ _ _ Hp) as (y & z & w & Hy & Hz & Hw & ->).
  rewrite !nth_error_loop3 by assumption. now rewrite H.
Qed.

Lemma wf_image (x : arr R) bs r c k : wf x -> ashape x = [bs; r; c; k] -> length (adata x) = prod [bs; r; c; k]. Proof. unfold wf. congruence. Qed.

Lemma map_tab2 {A B} (h : A -> B) m n f : map h (tab2 m n f) = tab2 m n (fun i j => h (f i j)).
Proof. rewrite !tab2_tab. unfold tab. apply map_map. Qed.

(** ** Largest elements *)

Lemma largest_spec l : l <> [] -> In (largest l) l /\ forall x, In x l -> (x <= largest l)%R.
Proof.
  destruct l as [|a l]; [congruence|]. intros _. unfold largest. revert a. induction l as [|b l IH]; intros a; cbn [fold_left].
  - split; [now left|]. intros x [<-|[]]. apply Rle_refl.
  - destruct (IH (Rmax a b)) as [I U]. split.
    + destruct I as [I|I]; [|right; now right]. rewrite <- I. unfold Rmax at 1. destruct (Rle_dec a b); [right; now left|now left].
    + intros x [<-|[<-|Hx]].
      * apply Rle_trans with (Rmax a b); [apply Rmax_l|]. apply U. now left.
      * apply Rle_trans with (Rmax a b); [apply Rmax_r|]. apply U. now left.
      * apply U. now right.
Qed.

Lemma largest_is l m : In m l -> (forall x, In x l -> (x <= m)%R) -> largest l = m.
Proof.
  intros I U. assert (N : l <> []) by (destruct l; [contradiction|discriminate]). destruct (largest_spec l N) as [I' U']. apply Rle_antisym; auto.
Qed.

Lemma rmax_largest l : rmax l = largest l.
Proof. destruct l as [|a l]; [reflexivity|]. destruct (rmax_spec (a :: l) ltac:(discriminate)) as [I U]. symmetry. now apply largest_is. Qed.

Lemma rlt_true a b : rlt a b = true -> (a <= b)%R. Proof. unfold rlt. destruct (Rlt_dec a b); [lra|discriminate]. Qed.
Lemma rlt_false a b : rlt a b = false -> (b <= a)%R. Proof. unfold rlt. destruct (Rlt_dec a b); [discriminate|lra]. Qed.
Lemma rlt_sw : strict_weak rlt.
Proof. unfold strict_weak, rlt. split; [|split]; intros; repeat destruct Rlt_dec; try lra; congruence. Qed.

Lemma first_max_largest d cells p : first_max 0%R rlt d cells p -> nth p d 0%R = largest (map (fun q => nth q d 0%R) cells).
Proof.
  intros (l1 & l2 & -> & A & B). symmetry. apply largest_is.
  - apply in_map_iff. exists p. split; [reflexivity|]. apply in_or_app. right. now left.
  - intros x Hx. apply in_map_iff in Hx. destruct Hx as (q & <- & Hq). apply in_app_or in Hq. destruct Hq as [Hq|[->|Hq]].
    + now apply rlt_true, A.
    + apply Rle_refl.
    + now apply rlt_false, B.
Qed.

(** ** Operators with one operand *)

Lemma v_reshaped (d : list R) s : length d = prod s -> reshaped 0%R d s = d.
Proof. intros E. unfold reshaped. now rewrite E, Nat.eqb_refl. Qed.

Lemma v_reshape dbg s x y bs : forward1 dbg (Reshape s true) x y -> length (adata x) = bs * prod s -> adata y = adata x.
Proof.
  cbn [forward1]. unfold reshape_op. intros F L. destruct (Nat.eqb_spec (prod s) 0); [discriminate|]. apply check_ok in F. injection F as <-. cbn [adata].
  apply v_reshaped. rewrite prod_cons, L, Nat.div_mul by assumption. reflexivity.
Qed.

Lemma v_flatten dbg x y bs t : forward1 dbg Flatten x y -> ashape x = bs :: t -> length (adata x) = bs * prod t -> adata y = adata x.
Proof.
  cbn [forward1]. unfold flatten_op. intros F E L. apply check_ok in F. rewrite E in F. destruct (Nat.eqb_spec bs 0); [discriminate|]. injection F as <-. cbn [adata].
  apply v_reshaped. rewrite L, (Nat.mul_comm bs), Nat.div_mul by assumption. unfold prod. cbn [fold_right]. lia.
Qed.

Lemma v_expand dbg a x y : forward1 dbg (ExpandDims (Some a)) x y -> wf x -> adata y = adata x.
Proof.
  cbn [forward1]. unfold expand_dims_op, wf. intros F W. destruct (Nat.ltb_spec (length (ashape x)) a); [discriminate|]. injection F as <-. cbn [adata].
  apply v_reshaped. rewrite W, prod_app, prod_cons, Nat.mul_1_l, <- prod_app, firstn_skipn. reflexivity.
Qed.

Lemma v_squeeze dbg x y p q : forward1 dbg (Squeeze (Some (length p))) x y -> wf x -> ashape x = p ++ 1 :: q -> adata y = adata x.
Proof.
  cbn [forward1]. unfold squeeze_op, wf. intros F W E. apply check_ok in F. destruct (Nat.leb_spec (length (ashape x)) (length p)); [discriminate|]. apply check_ok in F.
  rewrite E in F, W. rewrite firstn_app, firstn_all, Nat.sub_diag in F. cbn [firstn] in F. rewrite app_nil_r in F. rewrite skipn_app, skipn_all2 in F by lia.
  replace (S (length p) - length p) with 1 in F by lia. cbn [skipn app] in F. rewrite prod_app, prod_cons, Nat.mul_1_l, <- prod_app in W.
  destruct (p ++ q) eqn:Epq; [discriminate|]. injection F as <-. cbn [adata]. now apply v_reshaped.
Qed.

Lemma v_map (f : R -> R) n bs i (d : list R) : i < bs -> length d = bs * n -> part n i (map f d) = map f (part n i d).
Proof. intros _ _. unfold part. now rewrite skipn_map, firstn_map. Qed.

Lemma v_softmax_row eps l : softmax_row eps l = softmax_list eps l.
Proof. rewrite softmax_row_eq. unfold softmax_list, row_total. rewrite rmax_largest. reflexivity. Qed.

Lemma v_softmax dbg eps x y bs t i : softmax dbg eps x = Ok y -> wf x -> ashape x = bs :: t -> t <> [] -> prod t <> 0 -> i < bs ->
  part (prod t) i (adata y) = flat_map (fun j => softmax_list eps (part (last t 0) j (part (prod t) i (adata x)))) (seq 0 (prod t / last t 0)).
Proof.
  unfold softmax, wf. intros F W E Nt Pt Hi. apply check_ok in F. rewrite W, E in F. destruct (exists_last Nt) as (t0 & n & ->). rewrite last_last.
  assert (Er : rev (bs :: t0 ++ [n]) = n :: rev (bs :: t0)) by (change (bs :: t0 ++ [n]) with ((bs :: t0) ++ [n]); now rewrite rev_app_distr). rewrite Er in F.
  assert (Ep : prod (t0 ++ [n]) = prod t0 * n) by (rewrite prod_app; unfold prod at 2; cbn [fold_right]; lia). rewrite Ep in *.
  destruct (Nat.eqb_spec n 0) as [Z|Z]; [discriminate|]. cbv zeta in F. rewrite E, prod_cons, Ep in W. rewrite (prod_cons bs), Ep in F.
  assert (Ey : forall a b : arr R, Ok a = Ok b -> b = a) by congruence. apply Ey in F. clear Ey. subst y. cbn [adata].
  replace (bs * (prod t0 * n)) with (bs * prod t0 * n) in * by ring. rewrite !Nat.div_mul by assumption. set (m := prod t0) in *.
  set (g := fun a => softmax_row eps (slice (adata x) (a * n) n)).
  assert (Lg : forall a, a < bs * m -> length (g a) = n).
  { intros a Ha. unfold g. rewrite v_softmax_row. unfold softmax_list. rewrite map_length. apply slice_length. nia. }
  apply (part_eq 0%R _ bs); [assumption| | |].
  - rewrite app_length, (blocks_length g (bs * m) n Lg), skipn_length. lia.
  - apply blocks_length. intros j Hj. unfold softmax_list. rewrite map_length. rewrite part_part by assumption. apply (part_length n (bs * m)); [nia|assumption].
  - intros p Hp. destruct (divmod_lt m n p Hp) as (H1 & H2 & H3). rewrite H3.
    assert (H4 : i * m + p / n < bs * m) by nia.
    rewrite app_nth1 by (rewrite (blocks_length g (bs * m) n Lg); nia).
    replace (i * (m * n) + (p / n * n + p mod n)) with ((i * m + p / n) * n + p mod n) by ring.
    assert (A : forall (l : list R) k z, nth k l z = match nth_error l k with Some v => v | None => z end).
    { intros l k z. revert k. induction l; intros [|k]; cbn; auto. }
    rewrite A, (A (flat_map _ _)). rewrite (nth_error_blocks g (bs * m) n) by assumption. rewrite (nth_error_blocks _ m n).
    + unfold g. rewrite v_softmax_row, part_part by assumption. reflexivity.
    + intros j Hj. unfold softmax_list. rewrite map_length. rewrite part_part by assumption. apply (part_length n (bs * m)); [nia|assumption].
    + assumption.
    + assumption.
Qed.

Lemma v_max dbg n x y bs r c k i : forward1 dbg (MaxPool n) x y -> wf x -> ashape x = [bs; r; c; k] -> n <> 0 -> i < bs ->
  part (prod [r / n; c / n; k]) i (adata y)
  = loop3 (r / n) (c / n) k (fun y z w => largest (loop2 n n (fun a b => at3 c k (part (prod [r; c; k]) i (adata x)) (y * n + a) (z * n + b) w))).
Proof.
  cbn [forward1]. intros (st & st' & F) W E N Hi. unfold max_fwd in F. rewrite (with4_ok _ _ _ _ _ _ _ W E) in F. rewrite (proj2 (Nat.eqb_neq n 0) N) in F. cbv zeta in F.
  injection F as _ <-. cbn [adata].
  rewrite (writes_loop4_all bs (r / n) (c / n) k (fun i y z w => nth (block_max 0%R rlt (adata x) (pos4 r c k i (y * n) (z * n) w) (block_cells r c k n i y z w)) (adata x) 0%R))
    by apply resized_length.
  apply (part_image bs); [assumption|apply loop4_length|]. intros y0 z w Hy Hz Hw. rewrite nth_loop4 by assumption.
  rewrite (first_max_largest (adata x) (block_cells r c k n i y0 z w)).
  - f_equal. unfold block_cells, loop2. rewrite map_tab2. apply tab2_ext. intros a b Ha Hb. symmetry. apply at3_part; [|now apply div_block_lt|assumption]. now apply div_block_lt.
  - apply (best_first 0%R rlt rlt_sw r c k n N).
Qed.

Lemma rsum_mult f l : rsum (map (fun v => v * f) l)%R = (rsum l * f)%R.
Proof. induction l as [|a l IH]; cbn [map rsum]; [ring|]. rewrite IH. ring. Qed.

Lemma v_avg dbg n x y bs r c k i : forward1 dbg (AvgPool n) x y -> wf x -> ashape x = [bs; r; c; k] -> n <> 0 -> i < bs ->
  part (prod [r / n; c / n; k]) i (adata y)
  = loop3 (r / n) (c / n) k (fun y z w => rsum (loop2 n n (fun a b => at3 c k (part (prod [r; c; k]) i (adata x)) (y * n + a) (z * n + b) w)) / INR (n * n))%R.
Proof.
  cbn [forward1]. intros F W E N Hi. destruct (avg_fwd_ok 0%R dbg Rplus Rmult (/ (INR n * INR n))%R n x bs r c k W E N) as (d & H & L & Hd). rewrite H in F. injection F as <-. cbn [adata].
  apply (part_image bs); [assumption|assumption|]. intros y0 z w Hy Hz Hw. rewrite (nth_error_nth _ _ _ (Hd i y0 z w Hi Hy Hz Hw)).
  rewrite fold_left_Rplus, Rplus_0_l, rsum_mult. unfold Rdiv. rewrite mult_INR. f_equal. f_equal. unfold block, loop2. apply tab2_ext.
  intros a b Ha Hb. symmetry. apply at3_part; [|now apply div_block_lt|assumption]. now apply div_block_lt.
Qed.

Lemma div_lt_mul Y r n : Y < r * n -> Y / n < r.
Proof. intros H. destruct (Nat.eq_dec n 0) as [->|N]; [lia|]. apply Nat.div_lt_upper_bound; lia. Qed.

Lemma v_up dbg n x y bs r c k i : forward1 dbg (UpSample n) x y -> wf x -> ashape x = [bs; r; c; k] -> i < bs ->
  part (prod [r * n; c * n; k]) i (adata y) = loop3 (r * n) (c * n) k (fun y z w => at3 c k (part (prod [r; c; k]) i (adata x)) (y / n) (z / n) w).
Proof.
  cbn [forward1]. intros F W E Hi. destruct (up_fwd_ok 0%R dbg n x bs r c k W E) as (d & H & L & Hd). rewrite H in F. injection F as <-. cbn [adata].
  apply (part_image bs); [assumption|assumption|]. intros y0 z w Hy Hz Hw. pose proof (div_lt_mul _ _ _ Hy). pose proof (div_lt_mul _ _ _ Hz).
  rewrite at3_part by assumption. apply nth_error_nth. rewrite Hd by assumption. apply nth_error_of_nth. rewrite (wf_image _ _ _ _ _ W E). now apply pos4_lt.
Qed.
