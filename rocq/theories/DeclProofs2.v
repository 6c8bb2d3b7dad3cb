(** Announced shapes: the calculators compute, in wrapping numbers, the shapes that the forward actions give. *)
From Coq Require Import List Arith Lia Bool PeanoNat NArith ZArith Reals.
From Verif Require Import ListBase TensorModel TensorProofs ArrayModel ArrayProofs LayerModel GraphModel OpModel DeclModel DeclSpec DeclProofs.
Import ListNotations.
Local Open Scope N_scope.

Lemma word_pos : word <> 0. Proof. discriminate. Qed.
Lemma wrap_small n : n < word -> wrap n = n. Proof. intros. now apply N.mod_small. Qed.
Lemma wrap_lt n : wrap n < word. Proof. apply N.mod_lt. discriminate. Qed.
Lemma wrap_mul_l a b : wrap (wrap a * b) = wrap (a * b). Proof. apply N.mul_mod_idemp_l. discriminate. Qed.
Lemma wrap_add_l a b : wrap (wrap a + b) = wrap (a + b). Proof. apply N.add_mod_idemp_l. discriminate. Qed.

Lemma wsub_exact a b : b <= a -> a < word -> wsub a b = a - b.
Proof.
  intros H1 H2. unfold wsub. rewrite (wrap_small b) by lia. replace (a + (word - b)) with (a - b + 1 * word) by lia.
  unfold wrap. rewrite N.mod_add by discriminate. apply N.mod_small. lia.
Qed.

Definition shape_N := map N.of_nat.

Lemma wprod_gen s : forall a, fold_left (fun a b => wrap (a * b)) (shape_N s) (wrap a) = wrap (a * N.of_nat (prod s)).
Proof.
  induction s as [|n s IH]; intros a; [cbn [fold_left shape_N map]; change (prod []) with 1%nat; f_equal; lia|].
  cbn [shape_N map fold_left]. fold (shape_N s). rewrite wrap_mul_l, IH, prod_cons. f_equal. lia.
Qed.
Lemma wprod_wraps s : wprod (shape_N s) = wrap (N.of_nat (prod s)).
Proof. unfold wprod. change 1 with (wrap 1). rewrite wprod_gen. f_equal. lia. Qed.

Lemma to_int_cong a b : a mod int_word = b mod int_word -> to_int a = to_int b. Proof. unfold to_int. now intros ->. Qed.
Lemma to_int_mod a : to_int a mod int_word = a mod int_word.
Proof.
  unfold to_int. cbv zeta. pose proof (N.mod_lt a int_word ltac:(discriminate)). destruct (a mod int_word <? 2147483648).
  - now apply N.mod_mod.
  - replace (word - (int_word - a mod int_word)) with (a mod int_word + (word / int_word - 1) * int_word).
    + rewrite N.mod_add by discriminate. now apply N.mod_mod.
    + set (m := a mod int_word) in *. clearbody m. change (word / int_word) with 4294967296. unfold word. unfold int_word in *. lia.
Qed.
Lemma wrap_mod a : wrap a mod int_word = a mod int_word.
Proof.
  unfold wrap. change word with (int_word * int_word). rewrite N.mod_mul_r by discriminate.
  rewrite N.add_mod by discriminate. rewrite N.mul_comm, N.mod_mul, N.add_0_r, !N.mod_mod by discriminate. reflexivity.
Qed.
Lemma iprod_gen s : forall a b, a mod int_word = b mod int_word ->
  fold_left (fun a b => to_int (wrap (a * b))) (shape_N s) a mod int_word = (b * N.of_nat (prod s)) mod int_word.
Proof.
  induction s as [|n s IH]; intros a b E; [cbn [fold_left shape_N map]; change (prod []) with 1%nat; rewrite E; f_equal; lia|].
  cbn [shape_N map fold_left]. fold (shape_N s). rewrite (IH _ (b * N.of_nat n)); [rewrite prod_cons; f_equal; lia|].
  rewrite to_int_mod, wrap_mod, N.mul_mod, E, <- N.mul_mod by discriminate. reflexivity.
Qed.
Lemma to_int_to_int a : to_int (to_int a) = to_int a. Proof. apply to_int_cong, to_int_mod. Qed.
Lemma iprod_int s : iprod (shape_N s) = to_int (N.of_nat (prod s)).
Proof.
  assert (F : to_int (iprod (shape_N s)) = iprod (shape_N s)).
  { unfold iprod. assert (G : forall l a, to_int a = a -> to_int (fold_left (fun a b => to_int (wrap (a * b))) l a) = fold_left (fun a b => to_int (wrap (a * b))) l a).
    { induction l; intros x E; [exact E|]. cbn [fold_left]. apply IHl. apply to_int_to_int. }
    apply G. reflexivity. }
  rewrite <- F. apply to_int_cong. unfold iprod. rewrite (iprod_gen s 1 1 eq_refl). f_equal. lia.
Qed.
Lemma to_int_small n : n < 2147483648 -> to_int n = n.
Proof. intros H. unfold to_int. rewrite N.mod_small by (unfold int_word; lia). cbv zeta. now rewrite (proj2 (N.ltb_lt _ _) H). Qed.
Lemma to_int_large n : 2147483648 <= n -> n < limit -> to_int n <> n.
Proof.
  intros H1 H2. unfold to_int. cbv zeta. pose proof (N.mod_lt n int_word ltac:(discriminate)). destruct (N.ltb_spec (n mod int_word) 2147483648) as [L|L].
  - lia.
  - unfold limit, word, int_word in *. lia.
Qed.

(** ** one operand *)
Lemma nth_extents s a : nth a (shape_N s) 0 = N.of_nat (nth a s 0%nat).
Proof. unfold shape_N. change 0 with (N.of_nat 0) at 1. apply map_nth. Qed.

Lemma map_upd s a v : map N.of_nat (upd s a v) = upd (map N.of_nat s) a (N.of_nat v).
Proof. revert a. induction s; intros [|k]; cbn; [reflexivity..|]. now rewrite IHs. Qed.

Lemma drop_extents a s : drop_axis a (shape_N s) = shape_N (firstn a s ++ skipn (S a) s).
Proof. unfold drop_axis, shape_N. now rewrite map_app, firstn_map, skipn_map. Qed.

Lemma filter_extents s : filter (fun n => negb (n =? 1)) (shape_N s) = shape_N (filter (fun n => negb (n =? 1)%nat) s).
Proof.
  induction s as [|n s IH]; [reflexivity|]. cbn [shape_N map filter]. fold (shape_N s). rewrite IH.
  destruct (Nat.eqb_spec n 1) as [->|H]; [reflexivity|]. destruct (N.eqb_spec (N.of_nat n) 1); [lia|]. reflexivity.
Qed.

Lemma limit_word : limit + limit = word. Proof. reflexivity. Qed.

Lemma col_extent_ok n p k s d e : conv_extent n p k s d = Some e -> N.of_nat (n + 2 * p) < word -> col_extent (N.of_nat n) p k s d = Ok (N.of_nat e).
Proof.
  unfold conv_extent, col_extent. destruct (Nat.eqb_spec s 0); [discriminate|]. destruct (Nat.eqb_spec k 0); [discriminate|]. cbn [orb].
  destruct (Nat.ltb_spec (n + 2 * p) (d * (k - 1) + 1)); [discriminate|]. intros E0 B. assert (e = (n + 2 * p - (d * (k - 1) + 1)) / s + 1)%nat as -> by congruence. clear E0. f_equal.
  rewrite (wrap_small (N.of_nat n + 2 * N.of_nat p)) by lia.
  assert (E : wrap (wrap (N.of_nat d * wsub (N.of_nat k) 1) + 1) = N.of_nat (d * (k - 1) + 1)).
  { destruct d as [|d]; [reflexivity|]. rewrite (wsub_exact (N.of_nat k) 1) by (unfold word in *; nia).
    replace (N.of_nat (S d) * (N.of_nat k - 1)) with (N.of_nat (S d * (k - 1))) by nia. rewrite wrap_add_l, wrap_small; unfold word in *; lia. }
  rewrite E. clear E. set (m := (d * (k - 1))%nat) in *. clearbody m. rewrite wsub_exact by lia.
  replace (N.of_nat n + 2 * N.of_nat p - N.of_nat (m + 1)) with (N.of_nat (n + 2 * p - (m + 1))) by lia.
  rewrite <- Nat2N.inj_div. set (q := ((n + 2 * p - (m + 1)) / s)%nat).
  assert (q <= n + 2 * p - (m + 1))%nat by (apply Nat.div_le_upper_bound; [assumption|]; destruct s; nia).
  clearbody q. rewrite wrap_small; lia.
Qed.

Lemma calc1_gives dbg o s t : gives1 dbg o s t -> right1 o s -> fits s -> fits t -> calc1 dbg o (shape_N s) = Ok (shape_N t).
Proof.
  intros G Rt [Fs Ps] [Ft Pt]. pose proof limit_word as LW. assert (Hl : length (shape_N s) = length s) by apply map_length.
  destruct o; cbn [gives1 right1 calc1] in *.
  - now subst.
  - now subst.
  - now rewrite G.
  - now subst.
  - now subst.
  - destruct batch; [|now subst]. destruct G as [G ->]. fold (shape_N new_shape). rewrite !wprod_wraps, !wrap_small by lia.
    destruct (N.eqb_spec (N.of_nat (prod new_shape)) 0); [lia|]. unfold shape_N. cbn [map]. now rewrite Nat2N.inj_div.
  - destruct G as (b & r & -> & Hb & ->). cbn [shape_N map]. fold (shape_N r). cbn [tl] in Rt. now rewrite iprod_int, to_int_small.
  - cbv zeta in G |- *. destruct G as [G ->]. rewrite Hl. destruct (Nat.ltb_spec (length s) (match axis with Some a => a | None => length s end)); [lia|].
    unfold shape_N. now rewrite map_app, firstn_map; cbn [map]; rewrite skipn_map.
  - destruct axis as [a|].
    + destruct G as [G ->]. rewrite Hl, drop_extents. now destruct (Nat.leb_spec (length s) a); [lia|].
    + rewrite filter_extents, (G Rt). destruct (filter _ s); reflexivity.
  - destruct G as [G ->]. rewrite Hl, drop_extents. now destruct (Nat.leb_spec (length s) axis); [lia|].
  - destruct G as (r & c & u & -> & D & ->). destruct dbg.
    + rewrite (D eq_refl). reflexivity.
    + unfold check. now destruct (_ =? _)%nat.
  - destruct G as (bs & r & c & ch & orow & ocol & -> & Er & Ec & ->). cbn [nth] in Rt. destruct Rt as [R1 R2].
    cbn [shape_N map length Nat.eqb check four]. rewrite (col_extent_ok _ _ _ _ _ _ Er R1), (col_extent_ok _ _ _ _ _ _ Ec R2). cbn [obind].
    rewrite !wrap_mul_l. inversion Ft as [|? ? F1 F2]; subst. inversion F2 as [|? ? F3 _]; subst. rewrite !wrap_small by lia. do 2 f_equal; [lia|f_equal; lia].
  - destruct G as [Hn (bs & r & c & ch & -> & ->)]. cbn [shape_N map length Nat.eqb check four]. destruct (Nat.eqb_spec stride 0); [contradiction|]. now rewrite !Nat2N.inj_div.
  - destruct G as [Hn (bs & r & c & ch & -> & ->)]. cbn [shape_N map length Nat.eqb check four]. destruct (Nat.eqb_spec stride 0); [contradiction|]. now rewrite !Nat2N.inj_div.
  - destruct G as (bs & r & c & ch & -> & ->). cbn [shape_N map length Nat.eqb check four].
    inversion Ft as [|? ? _ F1]; subst. inversion F1 as [|? ? F2 F3]; subst. inversion F3 as [|? ? F4 _]; subst. rewrite !wrap_small by lia. now rewrite !Nat2N.inj_mul.
  - destruct G as (bs & row & col & ch & -> & ->). cbn [shape_N map four].
    inversion Ft as [|? ? _ F1]; subst. inversion F1 as [|? ? F2 F3]; subst. inversion F3 as [|? ? F4 _]; subst. rewrite !wrap_add_l, !wrap_small by lia.
    do 2 f_equal. f_equal; [lia|]. f_equal. lia.
  - destruct G as (bs & row & col & ch & -> & G1 & G2 & ->). cbn [shape_N map four].
    inversion Fs as [|? ? _ F1]; subst. inversion F1 as [|? ? F2 F3]; subst. inversion F3 as [|? ? F4 _]; subst.
    rewrite (wsub_exact (N.of_nat row)), (wsub_exact (N.of_nat col)), !wsub_exact by lia. do 2 f_equal. f_equal; [lia|]. f_equal. lia.
  - cbv zeta in G. rewrite Hl. set (ax := match axis with Some a => Nat.min a (length s - 1) | None => (length s - 1)%nat end) in *.
    assert (E : shape_N t = upd (shape_N s) ax (N.of_nat (nth ax s 0 * repeats)%nat)).
    { destruct G as [[-> ->]|[_ ->]]; [|apply map_upd]. rewrite Nat.mul_1_r, <- nth_extents. symmetry. apply ListBase.upd_self. apply nth_error_nth'. rewrite Hl. unfold ax. destruct s; [contradiction|]. destruct axis; cbn [length]; lia. }
    destruct (shape_N s) as [|e0 es] eqn:Es; [destruct s; [contradiction|discriminate]|]. rewrite <- Es in *. rewrite nth_extents, E. f_equal. f_equal. rewrite <- Nat2N.inj_mul.
    apply wrap_small. assert (Lx : (ax < length s)%nat) by (unfold ax; destruct s; [contradiction|]; destruct axis; cbn [length]; lia).
    rewrite Forall_forall in Ft. specialize (Ft (nth ax s 0 * repeats)%nat). enough (I : In (nth ax s 0 * repeats)%nat t) by (specialize (Ft I); lia).
    destruct G as [[-> ->]|[_ ->]]; [rewrite Nat.mul_1_r; now apply nth_In|]. apply (nth_error_In _ ax). now apply nth_error_upd_same.
  - cbv zeta in G. destruct G as [G ->]. destruct axis as [a|].
    + rewrite Hl, drop_extents. rewrite Nat.min_l by lia. now destruct (Nat.leb_spec (length s) a); [lia|].
    + destruct s as [|d0 [|]]; [discriminate| |discriminate]. reflexivity.
  - destruct G as (bs & r & c & ch & -> & ->). cbn [shape_N map]. unfold spread_extent in *.
    inversion Ft as [|? ? _ F1]; subst. inversion F1 as [|? ? F2 F3]; subst. inversion F3 as [|? ? F4 _]; subst. destruct valid.
    + destruct (Rt eq_refl) as [R1 R2]. rewrite !wrap_add_l.
      rewrite (wrap_small (N.of_nat rk * 2)), (wrap_small (N.of_nat ck * 2)) by (unfold limit, word in *; lia). rewrite !wsub_exact by (unfold limit, word in *; lia). rewrite !wrap_small by lia.
      do 2 f_equal. f_equal; [lia|]. f_equal. lia.
    + rewrite !wrap_small by lia. do 2 f_equal. f_equal; [lia|]. f_equal. lia.
  - now subst.
Qed.

(** ** two operands *)
Lemma same_dims_eq a b : same_dims (shape_N a) (shape_N b) = list_eqb a b.
Proof.
  revert b. induction a as [|x a IH]; intros [|y b]; [reflexivity..|]. cbn [shape_N map same_dims list_eqb]. fold (shape_N a) (shape_N b). rewrite IH.
  destruct (Nat.eqb_spec x y) as [->|]; [now rewrite N.eqb_refl|]. now destruct (N.eqb_spec (N.of_nat x) (N.of_nat y)); [lia|].
Qed.

Lemma dim_from_right_eq s i : dim_from_right (shape_N s) i = N.of_nat (dim_at s i).
Proof. unfold dim_from_right, dim_at. rewrite nth_extents. unfold shape_N. rewrite map_length. now destruct (_ <? _)%nat. Qed.

Lemma N_eqb_of_nat a b : (N.of_nat a =? N.of_nat b) = (a =? b)%nat.
Proof. destruct (Nat.eqb_spec a b) as [->|]; [apply N.eqb_refl|]. now destruct (N.eqb_spec (N.of_nat a) (N.of_nat b)); [lia|]. Qed.

Lemma join_dim_eq dbg a b i : join_dim dbg (dim_from_right (shape_N a) i) (dim_from_right (shape_N b) i) = obind (bdim dbg a b i) (fun n => Ok (N.of_nat n)).
Proof.
  rewrite !dim_from_right_eq. unfold join_dim, bdim. cbv zeta. change 1 with (N.of_nat 1). rewrite !N_eqb_of_nat.
  destruct (_ =? 1)%nat; [reflexivity|]. destruct (_ =? 1)%nat; [reflexivity|]. destruct (_ =? _)%nat; [reflexivity|]. now destruct dbg.
Qed.

Lemma join_dims_eq dbg a b u : join_dims dbg (shape_N a) (shape_N b) u = obind (bdims dbg a b u) (fun l => Ok (shape_N l)).
Proof.
  induction u as [|i u IH]; [reflexivity|]. cbn [join_dims bdims]. rewrite join_dim_eq. destruct (bdim dbg a b i); cbn [obind]; [|reflexivity..].
  rewrite IH. destruct (bdims dbg a b u); reflexivity.
Qed.

Lemma join_shape_eq dbg a b : join_shape dbg (shape_N a) (shape_N b) = obind (broadcast_shape dbg a b) (fun l => Ok (shape_N l)).
Proof.
  unfold join_shape, broadcast_shape. rewrite same_dims_eq. destruct (list_eqb a b); [reflexivity|]. rewrite join_dims_eq.
  replace (length (shape_N a)) with (length a) by (symmetry; apply map_length). replace (length (shape_N b)) with (length b) by (symmetry; apply map_length).
  destruct (bdims _ _ _ _); cbn [obind]; [|reflexivity..]. unfold shape_N. now rewrite map_rev.
Qed.

Lemma shape_N_inj a b : shape_N a = shape_N b -> a = b.
Proof.
  revert b. induction a as [|x a IH]; intros [|y b] E; try discriminate; [reflexivity|]. cbn [shape_N map] in E. injection E as E1 E2.
  f_equal; [lia|]. now apply IH.
Qed.

Lemma calc2_gives dbg o l r t : gives2 dbg o l r t -> right2 o l r -> fits t -> calc2 dbg o (shape_N l) (shape_N r) = Ok (shape_N t).
Proof.
  intros G Rt [Ft Pt]. pose proof limit_word as LW.
  assert (Ll : length (shape_N l) = length l) by apply map_length. assert (Lr : length (shape_N r) = length r) by apply map_length.
  destruct o; cbn [gives2 right2 calc2] in *.
  - rewrite join_shape_eq, G. reflexivity.
  - rewrite Ll, Lr. subst t. destruct (prod l <? prod r)%nat.
    + now rewrite (proj2 (Nat.ltb_ge _ _) Rt).
    + destruct Rt as [Rt| ->]; [now rewrite (proj2 (Nat.ltb_lt _ _) Rt)|]. now destruct (_ <? _)%nat.
  - destruct G as (a & b & d & -> & -> & ->). cbn [shape_N map length Nat.eqb check]. now rewrite N.eqb_refl.
  - cbv zeta in G. destruct G as (E & G & ->). rewrite Ll, Lr, E, Nat.eqb_refl. cbn [check]. cbv zeta. rewrite <- E.
    assert (Ea : match axis with None => (length l - 1)%nat | Some a => if (length l <? a)%nat then (length l - 1)%nat else a end = ArrayModel.pick_axis axis (length l)).
    { destruct axis as [a|]; [|reflexivity]. cbn [ArrayModel.pick_axis] in *. now destruct (Nat.ltb_spec (length l) a); [lia|]. }
    rewrite Ea. set (ax := ArrayModel.pick_axis axis (length l)) in *. destruct (Nat.ltb_spec ax (length l)); [|lia]. cbn [andb].
    rewrite !nth_extents. unfold shape_N at 2. rewrite map_upd. do 2 f_equal. rewrite <- Nat2N.inj_add. apply wrap_small.
    rewrite Forall_forall in Ft. enough (N.of_nat (nth ax l 0 + nth ax r 0)%nat < limit) by lia. apply Ft. apply (nth_error_In _ ax). now apply nth_error_upd_same.
  - destruct G as [-> ->]. now destruct (_ <? _)%nat.
  - destruct G as [-> ->]. now destruct (_ <? _)%nat.
  - destruct G as [-> ->]. now destruct (_ <? _)%nat.
  - rewrite Ll, Lr, G. now destruct (_ <? _)%nat; subst.
Qed.

Lemma value_gives dbg o s t : gives2 dbg o s s t -> right_value o s -> t = s.
Proof.
  intros G Rt. destruct o; cbn [gives2 right_value] in *.
  - unfold broadcast_shape in G. destruct (list_eqb_spec s s); [|contradiction]. congruence.
  - now rewrite Nat.ltb_irrefl in G.
  - destruct G as (a & b & d & -> & E & ->). injection E as -> ->. reflexivity.
  - contradiction.
  - tauto.
  - tauto.
  - tauto.
  - now subst.
Qed.

Lemma value_like_wf c x : wf (value_like c x). Proof. apply repeat_length. Qed.

Lemma plainly_announced dbg leaf e y : plainly dbg leaf e y ->
  announced dbg (fun n => extents (leaf n)) e = Ok (extents y) /\ wf y /\ fits (ashape y) /\ (forall c, e <> Value c).
Proof.
  induction 1 as [n S|o e x y P IH Rt F Ft|o l r x y z P IHl Q IHr Rt F Ft|o c r y z P IH Rt F Ft|o c l x z P IH Rt F Ft].
  - destruct S as [W Fx]. split; [reflexivity|]. split; [exact W|]. split; [exact Fx|]. discriminate.
  - destruct IH as (E & W & Fx & _). destruct (forward1_gives _ _ _ _ F W Rt) as [Wy G]. split; [|split; [exact Wy|]; split; [exact Ft|discriminate]].
    cbn [announced]. rewrite E. cbn [obind]. now apply calc1_gives.
  - destruct IHl as (El & Wl & Fl & Nl), IHr as (Er & Wr & Fr & Nr). destruct (forward2_gives _ _ _ _ _ F Wl Wr) as [Wz G].
    split; [|split; [exact Wz|]; split; [exact Ft|discriminate]].
    assert (E : announced dbg (fun n => extents (leaf n)) (Bin o l r) =
                obind (announced dbg (fun n => extents (leaf n)) l) (fun a => obind (announced dbg (fun n => extents (leaf n)) r) (calc2 dbg o a))).
    { cbn [announced]. destruct l; try (now destruct (Nl c)); destruct r; try (now destruct (Nr c)); reflexivity. }
    rewrite E, El, Er. cbn [obind]. now apply calc2_gives.
  - destruct IH as (E & W & Fx & N). destruct (forward2_gives _ _ _ _ _ F (value_like_wf c y) W) as [Wz G]. cbn [value_like ashape] in G.
    apply value_gives in G; [|exact Rt]. split; [|split; [exact Wz|]; split; [exact Ft|discriminate]]. cbn [announced]. rewrite E. unfold extents. now rewrite G.
  - destruct IH as (E & W & Fx & N). destruct (forward2_gives _ _ _ _ _ F W (value_like_wf c x)) as [Wz G]. cbn [value_like ashape] in G.
    apply value_gives in G; [|exact Rt]. split; [|split; [exact Wz|]; split; [exact Ft|discriminate]].
    cbn [announced]. destruct l; try (now destruct (N c0)); rewrite E; unfold extents; now rewrite G.
Qed.
