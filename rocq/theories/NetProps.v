(** C77: networks of layers run for every batch size. *)
From Coq Require Import List Arith Lia Bool PeanoNat NArith ZArith Reals.
From Verif Require Import ListBase TensorModel TensorSpec TensorProofs ArrayModel ArrayProofs LayerModel DeclModel DeclSpec DeclProofs DeclProofs2
  NetModel NetSpec ValueModel NetProofs NetProofs2 NetProofs3.
Import ListNotations.
Local Open Scope nat_scope.

Lemma supplied_shapes leaf bs s ps : supplied leaf (bs :: s) ps -> forall n, shapes bs s ps n <> [] -> wf (leaf n) /\ ashape (leaf n) = shapes bs s ps n.
Proof.
  intros [[S0 L0] Sp] n N. unfold wf. destruct n as [|k]; cbn [shapes] in *; [rewrite S0; auto|].
  destruct (nth_error ps k) as [p|] eqn:E.
  - rewrite (nth_error_nth _ _ [] E). destruct (Sp k p E) as [A B]. rewrite A. auto.
  - apply nth_error_None in E. now rewrite nth_overflow in N.
Qed.

Lemma Forall2_len {A B} (P : A -> B -> Prop) l r : Forall2 P l r -> length l = length r.
Proof. induction 1; cbn [length]; auto. Qed.

Lemma hint_ok m s : (N.of_nat m < 2147483648)%N -> within m s -> hint (map N.of_nat s) = Ok (shape_N (1 :: s)).
Proof.
  intros M (N & F & L). destruct s as [|d s]; [contradiction|]. unfold hint. cbn [map]. destruct (N.eqb_spec (N.of_nat d) unknown) as [E|E]; [|reflexivity].
  exfalso. inversion F as [|? ? Hd Fs]. pose proof (prod_pos s Fs). rewrite prod_cons in L. unfold unknown, word in E. nia.
Qed.

(** A network that is well formed, judged by the shapes of one batch element, can be built; its variables have the shapes ps; every
    expression in it announces its shape with a batch of one.  For every batch size for which no array gets 2^32 elements, all inputs
    and all values of the variables, every expression has a value, in debug builds too, and every value it can have, whatever
    earlier runs left in buffers, has the shape of the batch. *)
Theorem C77_networks_run dbg m s prog ts ps :
  (N.of_nat m < 2147483648)%N -> within m s -> well_formed m [s] prog ts ps ->
  exists ns, build dbg (map N.of_nat s) prog = Ok (Net ns ps) /\ length ns = length ts /\
    forall i e t, nth_error ns i = Some e -> nth_error ts i = Some t ->
      announced dbg (leaves (map N.of_nat (1 :: s)) ps) e = Ok (map N.of_nat (1 :: t)) /\
      forall bs leaf, 1 <= bs -> (N.of_nat (bs * m) < 4294967296)%N -> supplied leaf (bs :: s) ps ->
        (exists y, evaluates true leaf e y) /\
        forall dbg' y, evaluates dbg' leaf e y -> is_array y (bs :: t).
Proof.
  intros M W WF. destruct (steps_ok dbg m s M prog [s] ts ps [Leaf 0] [] WF) as (ns & Es & _ & Hn).
  - constructor; [assumption|constructor].
  - constructor; [|constructor]. intros bs B. apply J_leaf'; [reflexivity|discriminate|now apply (within_fits m)].
  - cbn [app] in *. exists ns. split; [unfold build; rewrite (hint_ok m s M W); exact Es|]. split; [exact (Forall2_len _ _ _ Hn)|].
    intros i e t Ee Et. destruct (Forall2_nth_error_r _ _ _ _ _ Hn Et) as (e' & Ee' & Se). assert (e' = e) by congruence. subst e'.
    split; [now apply (sound_announced dbg m s ps e t)|]. intros bs leaf Hb Hm Sl. pose proof (supplied_shapes _ _ _ _ Sl) as Sh.
    pose proof (Se bs (conj Hb Hm)) as Je. split.
    + destruct (J_exists _ _ _ 0%R leaf Je Sh) as (y & Ey & _). exists y. now apply (computes_evaluates _ 0%R).
    + intros dbg' y Ey. destruct (J_all _ _ _ leaf dbg' y Je Sh Ey) as [Wy Sy]. split; [assumption|]. now rewrite <- Sy.
Qed.
Print Assumptions C77_networks_run.

(** ** Convolutions with "same" *)

Lemma odd_mod p : (2 * p + 1) mod 2 = 1.
Proof. rewrite Nat.add_comm, Nat.mul_comm, Nat.mod_add by lia. reflexivity. Qed.

Lemma same_odd p : pads PSame (2 * p + 1) 1 1 p.
Proof.
  cbn [pads]. rewrite odd_mod, Nat.sub_diag, Nat.mul_0_r. split; [lia|]. split; [lia|].
  replace (1 + (2 * p + 1 + 0 - 1)) with (1 + p * 2) by lia. rewrite Nat.div_add by lia. reflexivity.
Qed.

(** With square kernels of odd extent and a stride of one, "same" keeps rows and columns. *)
Theorem C77_same_keeps dbg m p out r c ch :
  (N.of_nat m < 2147483648)%N -> 1 <= out -> 1 <= ch -> 1 <= r -> 1 <= c ->
  out * (2 * p + 1) * (2 * p + 1) * ch <= m -> (2 * p + 1) * (2 * p + 1) * ch * (r * c) <= m -> r * c * out <= m ->
  exists e, build dbg (map N.of_nat [r; c; ch]) [Apply1 (Conv2D out (2 * p + 1) (2 * p + 1) PSame 1 1 1 1) 0]
            = Ok (Net [Leaf 0; e] [[out; 2 * p + 1; 2 * p + 1; ch]; [1; 1; out]]) /\
    forall bs leaf, 1 <= bs -> (N.of_nat (bs * m) < 4294967296)%N -> supplied leaf [bs; r; c; ch] [[out; 2 * p + 1; 2 * p + 1; ch]; [1; 1; out]] ->
      (exists y, evaluates true leaf e y) /\ forall dbg' y, evaluates dbg' leaf e y -> is_array y [bs; r; c; out].
Proof.
  intros M Ho Hch Hr Hc L1 L2 L3. set (k := 2 * p + 1) in *.
  assert (Hk : 1 <= k * k * ch) by nia. assert (Lk : k <= m) by (assert (k <= k * k * ch) by nia; nia). assert (Lch : r * c * ch <= m) by (assert (1 <= k * k) by nia; nia).
  assert (W : within m [r; c; ch]). { split; [discriminate|]. split; [repeat constructor; assumption|]. unfold prod. cbn [fold_right]. lia. }
  assert (W' : within m [r; c; out]). { split; [discriminate|]. split; [repeat constructor; assumption|]. unfold prod. cbn [fold_right]. lia. }
  assert (Win : forall n, 1 <= n -> window n p k 1 1 n).
  { intros n Hn. split; [lia|]. split; [lia|]. rewrite Nat.div_1_r. subst k. lia. }
  destruct (C77_networks_run dbg m [r; c; ch] [Apply1 (Conv2D out k k PSame 1 1 1 1) 0] [[r; c; ch]; [r; c; out]] [[out; k; k; ch]; [1; 1; out]] M W) as (ns & Eb & Ln & H).
  - change [[out; k; k; ch]; [1; 1; out]] with ([[out; k; k; ch]; [1; 1; out]] ++ []). apply (wf_one m _ _ _ [r; c; ch] [r; c; out]); [reflexivity| |assumption|constructor].
    apply mk_conv2d. exists r, c, ch, r, c, p. split; [reflexivity|]. split; [reflexivity|]. split; [apply same_odd|]. split; [apply same_odd|].
    split; [now apply Win|]. split; [now apply Win|]. split; [assumption|]. lia.
  - destruct ns as [|e0 [|e [|]]]; try discriminate Ln.
    assert (E0 : e0 = Leaf 0).
    { unfold build in Eb. rewrite (hint_ok m _ M W) in Eb. cbn [obind steps step nth_error nodes] in Eb. apply obind_inv in Eb. destruct Eb as (n & En & Eb).
      apply obind_inv in En. destruct En as ([a b] & _ & En). cbn [fst snd app] in En. congruence. }
    subst e0. exists e. split; [exact Eb|]. intros bs leaf Hb Hm Sl. destruct (H 1 e [r; c; out] eq_refl eq_refl) as [_ G]. now apply G.
Qed.
Print Assumptions C77_same_keeps.

Lemma reshape_shape dbg new x y : forward1 dbg (Reshape new true) x y -> wf y /\ exists b, ashape y = b :: new.
Proof.
  cbn [forward1]. unfold reshape_op. destruct (prod new =? 0); [discriminate|]. intros E. apply check_ok in E. injection E as <-. cbn [ashape adata]. unfold wf. cbn [ashape adata].
  rewrite reshaped_length. eauto.
Qed.

Lemma plus_bias dbg b r c k x y z : forward2 dbg Plus x y z -> wf x -> ashape x = [b; r; c; k] -> wf y -> ashape y = [1; 1; k] -> ashape z = [b; r; c; k].
Proof.
  intros F Wx Sx Wy Sy. destruct (forward2_gives _ _ _ _ _ F Wx Wy) as [_ G]. cbn [gives2] in G. rewrite Sx, Sy in G.
  pose proof (broadcast_shape_ok dbg _ _ _ (bias_broadcasts b r c k)). congruence.
Qed.

(** the expression that general_conv2d makes with "same", a stride of one and kernels of 2p+1 rows and 2q+1 columns *)
Lemma same_conv dbg m p q e w bs r c ch out :
  (N.of_nat m < 2147483648)%N -> 1 <= r -> r <= m -> 1 + 2 * q <= c + 2 * p -> c <= m -> 2 * p + 1 <= m -> 2 * q + 1 <= m -> 
  exists X, general_conv2d dbg PSame 1 1 1 1 e (shape_N [bs; r; c; ch]) w (shape_N [out; 2 * p + 1; 2 * q + 1; ch])
            = Ok (Un (Reshape [r; c + 2 * p - 2 * q; out] true) X).
Proof.
  intros M Hr Lr Hc Lc Lp Lq. unfold general_conv2d. cbn [shape_N map length Nat.eqb check]. rewrite !Nat2N.id.
  destruct (pads_amount m _ _ _ _ _ (same_odd p)) as [E1 _]; [lia|lia|assumption|]. rewrite E1, Nat2N.id.
  assert (W1 : window r p (2 * p + 1) 1 1 r). { split; [lia|]. split; [lia|]. rewrite Nat.div_1_r. lia. }
  assert (W2 : window c p (2 * q + 1) 1 1 (c + 2 * p - 2 * q)). { split; [lia|]. split; [lia|]. rewrite Nat.div_1_r. lia. }
  rewrite (col_extent_ok _ _ _ _ _ _ (window_extent _ _ _ _ _ _ W1)) by (unfold word; lia). cbn [obind].
  rewrite (col_extent_ok _ _ _ _ _ _ (window_extent _ _ _ _ _ _ W2)) by (unfold word; lia). cbn [obind]. rewrite !Nat2N.id. eauto.
Qed.

(** With kernels that are not square it does not: the columns are computed with the padding of the rows, and no value, in a debug build
    or not, has the shape of the batch. *)
Theorem C77_same_not_square_refuted dbg m p q out r c ch :
  (N.of_nat m < 2147483648)%N -> 1 <= out -> 1 <= ch -> 1 <= r -> 1 <= c -> p <> q -> 2 * q < c + 2 * p ->
  out * (2 * p + 1) * (2 * q + 1) * ch <= m -> r * c * ch <= m -> out <= m ->
  exists e, build dbg (map N.of_nat [r; c; ch]) [Apply1 (Conv2D out (2 * p + 1) (2 * q + 1) PSame 1 1 1 1) 0]
            = Ok (Net [Leaf 0; e] [[out; 2 * p + 1; 2 * q + 1; ch]; [1; 1; out]]) /\
    forall bs leaf dbg' y, supplied leaf [bs; r; c; ch] [[out; 2 * p + 1; 2 * q + 1; ch]; [1; 1; out]] ->
      evaluates dbg' leaf e y -> nth 2 (ashape y) 0 = c + 2 * p - 2 * q /\ ashape y <> [bs; r; c; out].
Proof.
  intros M Ho Hch Hr Hc Npq Hcp L1 L2 L3. set (kp := 2 * p + 1) in *. set (kq := 2 * q + 1) in *.
  assert (Kp : 1 <= kp) by (unfold kp; lia). assert (Kq : 1 <= kq) by (unfold kq; lia). assert (Kpq : 1 <= kp * kq) by nia.
  assert (Lp : kp <= m) by (assert (1 <= out * kq) by nia; assert (1 <= out * kq * ch) by nia; replace (out * kp * kq * ch) with (kp * (out * kq * ch)) in L1 by lia; nia).
  assert (Lq : kq <= m) by (assert (1 <= out * kp) by nia; assert (1 <= out * kp * ch) by nia; replace (out * kp * kq * ch) with (kq * (out * kp * ch)) in L1 by lia; nia).
  assert (Lr : r <= m) by (assert (1 <= c * ch) by nia; nia). assert (Lc : c <= m) by (assert (1 <= r * ch) by nia; nia).
  assert (W : within m [r; c; ch]). { split; [discriminate|]. split; [repeat constructor; assumption|]. unfold prod. cbn [fold_right]. lia. }
  destruct (same_conv dbg m p q (Leaf 0) (Leaf 1) 1 r c ch out M Hr Lr ltac:(lia) Lc Lp Lq) as (X & EX). fold kp kq in EX.
  exists (Bin Plus (Un (Reshape [r; c + 2 * p - 2 * q; out] true) X) (Leaf 2)). split.
  - unfold build. rewrite (hint_ok m _ M W). cbn [obind steps step nth_error nodes apply1 params]. unfold conv_layer. destruct (Nat.ltb_spec 0 out); [|lia]. cbn [check announced obind leaves].
    change (shape_N [1; r; c; ch]) with (shape_N ([1; r; c] ++ [ch])) at 1. rewrite last_extent_ok. cbn [obind].
    change [N.of_nat out; N.of_nat kp; N.of_nat kq; N.of_nat ch] with (shape_N [out; kp; kq; ch]). rewrite new_variable_ok by (unfold prod, limit; cbn [fold_right]; lia). cbn [obind].
    change [1%N; 1%N; N.of_nat out] with (shape_N [1; 1; out]). rewrite new_variable_ok by (unfold prod, limit; cbn [fold_right]; lia). cbn [obind length].
    change (map N.of_nat [out; kp; kq; ch]) with (shape_N [out; kp; kq; ch]). rewrite EX. reflexivity.
  - intros bs leaf dbg' y Sl Ev. inversion Ev as [| |? ? ? u v ? Eu Evv Fy| |]; subst.
    inversion Eu as [|? ? a ? Ea Fu| | |]; subst. inversion Evv; subst. apply reshape_shape in Fu. destruct Fu as [Wu (b & Su)].
    destruct Sl as [_ Sl]. destruct (Sl 1 [1; 1; out] eq_refl) as [S2 L2']. assert (Wb : wf (leaf 2)) by (unfold wf; now rewrite S2).
    rewrite (plus_bias _ _ _ _ _ _ _ _ Fy Wu Su Wb S2). cbn [nth]. split; [reflexivity|]. intros [=]. lia.
Qed.
Print Assumptions C77_same_not_square_refuted.

(** Conv1D is such a convolution: its kernels have one column.  With "same" and an odd kernel of three or more it is built, but it never
    runs in a debug build, whatever the batch. *)
Theorem C77_conv1d_same_refuted dbg m p out n ch :
  (N.of_nat m < 2147483648)%N -> 1 <= out -> 1 <= ch -> 1 <= n -> 1 <= p -> out * (2 * p + 1) * ch <= m -> n * ch <= m ->
  exists e, build dbg (map N.of_nat [n; ch]) [Apply1 (Conv1D out (2 * p + 1) 1 PSame 1) 0] = Ok (Net [Leaf 0; e] [[out; 2 * p + 1; 1; ch]; [1; 1; out]]) /\
    forall bs leaf y, supplied leaf [bs; n; ch] [[out; 2 * p + 1; 1; ch]; [1; 1; out]] -> ~ evaluates true leaf e y.
Proof.
  intros M Ho Hch Hn Hp L1 L2. set (kp := 2 * p + 1) in *. assert (Kp : 1 <= kp) by (unfold kp; lia).
  assert (Lp : kp <= m) by (assert (1 <= out * ch) by nia; replace (out * kp * ch) with (kp * (out * ch)) in L1 by lia; nia).
  assert (Lo : out <= m) by (assert (1 <= kp * ch) by nia; nia). assert (Ln : n <= m) by nia.
  assert (W : within m [n; ch]). { split; [discriminate|]. split; [repeat constructor; assumption|]. unfold prod. cbn [fold_right]. lia. }
  destruct (same_conv dbg m p 0 (Un (ExpandDims (Some 2)) (Leaf 0)) (Leaf 1) 1 n 1 ch out M Hn Ln ltac:(lia) ltac:(lia) Lp ltac:(lia)) as (X & EX). fold kp in EX.
  change (2 * 0 + 1) with 1 in EX. replace (1 + 2 * p - 2 * 0) with kp in EX by lia.
  exists (Un (Squeeze (Some 2)) (Bin Plus (Un (Reshape [n; kp; out] true) X) (Leaf 2))). split.
  - unfold build. rewrite (hint_ok m _ M W). cbn [obind steps step nth_error nodes apply1 params]. unfold conv_layer. destruct (Nat.ltb_spec 0 out); [|lia].
    cbn [check announced obind leaves calc1 length Nat.ltb Nat.leb shape_N map firstn skipn app].
    change [N.of_nat 1; N.of_nat n; 1%N; N.of_nat ch] with (shape_N ([1; n; 1] ++ [ch])) at 1. rewrite last_extent_ok. cbn [obind].
    change [N.of_nat out; N.of_nat kp; N.of_nat 1; N.of_nat ch] with (shape_N [out; kp; 1; ch]). rewrite new_variable_ok by (unfold prod, limit; cbn [fold_right]; lia). cbn [obind].
    change [1%N; 1%N; N.of_nat out] with (shape_N [1; 1; out]). rewrite new_variable_ok by (unfold prod, limit; cbn [fold_right]; lia). cbn [obind length].
    change [N.of_nat 1; N.of_nat n; 1%N; N.of_nat ch] with (shape_N [1; n; 1; ch]).
    change (map N.of_nat [out; kp; 1; ch]) with (shape_N [out; kp; 1; ch]). rewrite EX. reflexivity.
  - intros bs leaf y Sl Ev. inversion Ev as [|? ? z ? Ez Fz| | |]; subst. inversion Ez as [| |? ? ? u v ? Eu Evv Fy| |]; subst.
    inversion Eu as [|? ? a ? Ea Fu| | |]; subst. inversion Evv; subst. apply reshape_shape in Fu. destruct Fu as [Wu (b & Su)].
    destruct Sl as [_ Sl]. destruct (Sl 1 [1; 1; out] eq_refl) as [S2 L2']. assert (Wb : wf (leaf 2)) by (unfold wf; now rewrite S2).
    pose proof (plus_bias _ _ _ _ _ _ _ _ Fy Wu Su Wb S2) as Sz. cbn [forward1] in Fz. unfold squeeze_op in Fz. rewrite Sz in Fz. cbn [length Nat.ltb Nat.leb check nth] in Fz.
    destruct (Nat.eqb_spec kp 1); [lia|discriminate].
Qed.
Print Assumptions C77_conv1d_same_refuted.

(** A transposed convolution with "same" and an odd square kernel does not enlarge the image, whatever its stride: the image is spread by
    the stride and then convolved with that stride again. *)
Theorem C77_transpose_does_not_enlarge dbg m p st out r c ch :
  (N.of_nat m < 2147483648)%N -> 1 <= out -> 1 <= ch -> 1 <= r -> 1 <= c -> 1 <= st -> st <= 2 * p + 1 ->
  out * (2 * p + 1) * (2 * p + 1) * ch <= m -> (2 * p + 1) * (2 * p + 1) * ch * (r * c) <= m -> r * c * out <= m -> (r * st) * (c * st) * ch <= m ->
  exists e, build dbg (map N.of_nat [r; c; ch]) [Apply1 (Conv2DTranspose out (2 * p + 1) (2 * p + 1) PSame st st 1 1) 0]
            = Ok (Net [Leaf 0; e] [[out; 2 * p + 1; 2 * p + 1; ch]; [1; 1; out]]) /\
    forall bs leaf, 1 <= bs -> (N.of_nat (bs * m) < 4294967296)%N -> supplied leaf [bs; r; c; ch] [[out; 2 * p + 1; 2 * p + 1; ch]; [1; 1; out]] ->
      (exists y, evaluates true leaf e y) /\ forall dbg' y, evaluates dbg' leaf e y -> is_array y [bs; r; c; out].
Proof.
  intros M Ho Hch Hr Hc Hst Hsp L1 L2 L3 L4. set (k := 2 * p + 1) in *.
  assert (Hk : 1 <= k * k * ch) by nia. assert (Lk : k <= m) by (assert (k <= k * k * ch) by nia; nia). assert (Lch : r * c * ch <= m) by (assert (1 <= k * k) by nia; nia).
  assert (W : within m [r; c; ch]). { split; [discriminate|]. split; [repeat constructor; assumption|]. unfold prod. cbn [fold_right]. lia. }
  assert (W' : within m [r; c; out]). { split; [discriminate|]. split; [repeat constructor; assumption|]. unfold prod. cbn [fold_right]. lia. }
  assert (Ws : within m [r * st + 0; c * st + 0; ch]). { rewrite !Nat.add_0_r. split; [discriminate|]. split; [repeat constructor; nia|]. unfold prod. cbn [fold_right]. lia. }
  set (a := (1 + (k - st)) / 2).
  assert (Pa : pads PSame k st 1 a). { cbn [pads]. split; [lia|]. split; [lia|]. subst a. unfold k at 2. rewrite odd_mod. f_equal. lia. }
  assert (Ba : 2 * a <= 1 + (k - st) < 2 * a + 2). { pose proof (Nat.div_mod (1 + (k - st)) 2 ltac:(lia)). pose proof (Nat.mod_upper_bound (1 + (k - st)) 2 ltac:(lia)). fold a in H. lia. }
  assert (Odd : 2 * a = k - st \/ (2 * a = 1 + (k - st) /\ 2 <= st)).
  { destruct (Nat.eq_dec (2 * a) (k - st)); [now left|right]. split; [lia|]. subst k. lia. }
  assert (Win : forall n, 1 <= n -> window (n * st + 0) a k st 1 n).
  { intros n Hn. split; [lia|]. split; [lia|]. rewrite Nat.add_0_r, Nat.mul_1_l. assert (st <= n * st) by nia.
    assert (En : n * st = (n - 1) * st + st) by nia. split; [lia|].
    destruct Odd as [O|[O O2]].
    - replace (n * st + 2 * a - (k - 1 + 1)) with ((n - 1) * st) by lia. rewrite Nat.div_mul by lia. lia.
    - replace (n * st + 2 * a - (k - 1 + 1)) with (1 + (n - 1) * st) by lia. rewrite Nat.div_add, Nat.div_small by lia. lia. }
  destruct (C77_networks_run dbg m [r; c; ch] [Apply1 (Conv2DTranspose out k k PSame st st 1 1) 0] [[r; c; ch]; [r; c; out]] [[out; k; k; ch]; [1; 1; out]] M W) as (ns & Eb & Ln & H).
  - change [[out; k; k; ch]; [1; 1; out]] with ([[out; k; k; ch]; [1; 1; out]] ++ []). apply (wf_one m _ _ _ [r; c; ch] [r; c; out]); [reflexivity| |assumption|constructor].
    apply (mk_transpose m out k k PSame st st 1 1 r c ch (r * st + 0) (c * st + 0)); [reflexivity|reflexivity|assumption|].
    exists (r * st + 0), (c * st + 0), ch, r, c, a. split; [reflexivity|]. split; [reflexivity|]. split; [assumption|]. split; [assumption|].
    split; [now apply Win|]. split; [now apply Win|]. split; [assumption|]. lia.
  - destruct ns as [|e0 [|e [|]]]; try discriminate Ln.
    assert (E0 : e0 = Leaf 0).
    { unfold build in Eb. rewrite (hint_ok m _ M W) in Eb. cbn [obind steps step nth_error nodes] in Eb. apply obind_inv in Eb. destruct Eb as (n & En & Eb).
      apply obind_inv in En. destruct En as ([a' b] & _ & En). cbn [fst snd app] in En. congruence. }
    subst e0. exists e. split; [exact Eb|]. intros bs leaf Hb Hm Sl. destruct (H 1 e [r; c; out] eq_refl eq_refl) as [_ G]. now apply G.
Qed.
Print Assumptions C77_transpose_does_not_enlarge.

(** ** Layers that are not checked when a network is built *)

(** Reshape announces something whatever the new shape.  In a debug build it runs exactly if the new number of elements divides that of the
    batch, and the batch size is kept exactly if the new shape has as many elements as the old one. *)
Theorem C77_reshape_exactly dbg m s new bs leaf :
  (N.of_nat m < 2147483648)%N -> within m s -> within m new -> 1 <= bs -> supplied leaf (bs :: s) [] ->
  exists e, build dbg (map N.of_nat s) [Apply1 (ReshapeLayer new true) 0] = Ok (Net [Leaf 0; e] []) /\
    announced dbg (leaves (map N.of_nat (1 :: s)) []) e = Ok (map N.of_nat (prod s / prod new :: new)) /\
    ((exists y, evaluates true leaf e y) <-> exists q, bs * prod s = q * prod new) /\
    forall y, evaluates true leaf e y -> (ashape y = bs :: new <-> prod new = prod s).
Proof.
  intros M W W' Hb [[S0 L0] _]. pose proof (within_pos _ _ W) as P. pose proof (within_pos _ _ W') as P'. exists (Un (Reshape new true) (Leaf 0)).
  assert (Ev : forall y, evaluates true leaf (Un (Reshape new true) (Leaf 0)) y <-> reshape_op 0%R true new true (leaf 0) = Ok y).
  { intros y. split; [|intros F; econstructor; [constructor|exact F]]. intros E. inversion E as [|? ? x ? Ex F| | |]; subst. inversion Ex; subst. exact F. }
  assert (Rs : reshape_op 0%R true new true (leaf 0) = if (bs * prod s / prod new * prod new =? bs * prod s) then Ok (Arr (bs * prod s / prod new :: new) (reshaped 0%R (adata (leaf 0)) (bs * prod s / prod new :: new))) else Abort).
  { unfold reshape_op. rewrite L0, prod_cons. destruct (Nat.eqb_spec (prod new) 0); [lia|]. unfold check. now destruct (_ =? _). }
  split; [unfold build; rewrite (hint_ok m _ M W); reflexivity|]. split.
  { cbn [announced obind leaves calc1]. fold (shape_N new). fold (shape_N (1 :: s)). rewrite !wprod_wraps, prod_cons, Nat.mul_1_l.
    destruct W as (_ & _ & L). destruct W' as (_ & _ & L'). rewrite !wrap_small by (unfold word; lia).
    destruct (N.eqb_spec (N.of_nat (prod new)) 0); [lia|]. cbn [map]. now rewrite Nat2N.inj_div. }
  split.
  - split.
    + intros (y & Ey). apply Ev in Ey. rewrite Rs in Ey. destruct (Nat.eqb_spec (bs * prod s / prod new * prod new) (bs * prod s)) as [E|]; [|discriminate]. now exists (bs * prod s / prod new).
    + intros (q & E). eexists. apply Ev. rewrite Rs, E, Nat.div_mul, Nat.eqb_refl by lia. reflexivity.
  - intros y Ey. apply Ev in Ey. rewrite Rs in Ey. destruct (Nat.eqb_spec (bs * prod s / prod new * prod new) (bs * prod s)) as [E|]; [|discriminate]. injection Ey as <-. cbn [ashape]. split.
    + intros [= Eb]. rewrite Eb in E. nia.
    + intros ->. now rewrite Nat.div_mul by lia.
Qed.
Print Assumptions C77_reshape_exactly.

Lemma steps_app dbg input p q : forall n, steps dbg input n (p ++ q) = obind (steps dbg input n p) (fun n' => steps dbg input n' q).
Proof. induction p as [|c p IH]; intros n; [reflexivity|]. cbn [app steps]. destruct (step dbg input n c); cbn [obind]; auto. Qed.

Lemma build_more dbg given p l i j a b ns ps : build dbg given p = Ok (Net ns ps) -> nth_error ns i = Some a -> nth_error ns j = Some b ->
  build dbg given (p ++ [Apply2 l i j]) = Ok (Net (ns ++ [apply2 l a b]) ps).
Proof.
  unfold build. destruct (hint given); try discriminate. cbn [obind]. intros E A B. rewrite steps_app, E. cbn [obind steps step nodes params]. now rewrite A, B.
Qed.

Lemma announced_bin ls dbg leaf o a b s s' : J ls a s -> J ls b s' -> (forall n, leaf n = shape_N (ls n)) -> announced dbg leaf (Bin o a b) = calc2 dbg o (shape_N s) (shape_N s').
Proof.
  intros Ja Jb L. assert (A : announced dbg leaf (Bin o a b) = obind (announced dbg leaf a) (fun u => obind (announced dbg leaf b) (calc2 dbg o u))).
  { destruct a; [| inversion Ja | |]; destruct b; try reflexivity; inversion Jb. }
  now rewrite A, (J_announced ls a s dbg leaf Ja L), (J_announced ls b s' dbg leaf Jb L).
Qed.

Lemma evaluates_bin ls dbg leaf o a b s s' z : J ls a s -> J ls b s' -> (forall n, ls n <> [] -> wf (leaf n) /\ ashape (leaf n) = ls n) -> evaluates dbg leaf (Bin o a b) z ->
  exists x y, wf x /\ ashape x = s /\ wf y /\ ashape y = s' /\ forward2 dbg o x y z.
Proof.
  intros Ja Jb L Ev. assert (B : exists x y, evaluates dbg leaf a x /\ evaluates dbg leaf b y /\ forward2 dbg o x y z).
  { inversion Ev; subst; [eauto|inversion Ja|inversion Jb]. }
  destruct B as (x & y & Ex & Ey & F). exists x, y. destruct (J_all _ _ _ leaf dbg x Ja L Ex). destruct (J_all _ _ _ leaf dbg y Jb L Ey). auto.
Qed.

(** the program, in the form in which the proofs use it *)
Lemma built dbg m s prog ts ps : (N.of_nat m < 2147483648)%N -> within m s -> well_formed m [s] prog ts ps ->
  exists ns, build dbg (map N.of_nat s) prog = Ok (Net ns ps) /\ Forall2 (sound m s ps) ns ts /\ Forall (within m) ts.
Proof.
  intros M W WF. destruct (steps_ok dbg m s M prog [s] ts ps [Leaf 0] [] WF) as (ns & Es & Wn & Hn).
  - constructor; [assumption|constructor].
  - constructor; [|constructor]. intros bs B. apply J_leaf'; [reflexivity|discriminate|now apply (within_fits m)].
  - cbn [app] in *. exists ns. split; [unfold build; rewrite (hint_ok m s M W); exact Es|]. auto.
Qed.

(** Concatenate of expressions whose other extents differ is announced, with the other extents of the left one, and never runs in a debug
    build. *)
Theorem C77_concatenate_refuted dbg m s prog ts ps i j p a q p' b q' :
  (N.of_nat m < 2147483648)%N -> within m s -> well_formed m [s] prog ts ps ->
  nth_error ts i = Some (p ++ a :: q) -> nth_error ts j = Some (p' ++ b :: q') -> length p = length p' -> length q = length q' -> (p, q) <> (p', q') ->
  exists ns e, build dbg (map N.of_nat s) (prog ++ [Apply2 (Concatenate (Some (S (length p)))) i j]) = Ok (Net (ns ++ [e]) ps) /\ length ns = length ts /\
    announced dbg (leaves (map N.of_nat (1 :: s)) ps) e = Ok (map N.of_nat (1 :: p ++ (a + b) :: q)) /\
    forall bs leaf y, 1 <= bs -> (N.of_nat (bs * m) < 4294967296)%N -> supplied leaf (bs :: s) ps -> ~ evaluates true leaf e y.
Proof.
  intros M W WF Ei Ej Lp Lq Ne. destruct (built dbg m s prog ts ps M W WF) as (ns & Eb & Hn & Hw).
  destruct (Forall2_nth_error_r _ _ _ _ _ Hn Ei) as (ea & Ea & Sa). destruct (Forall2_nth_error_r _ _ _ _ _ Hn Ej) as (eb & Ebb & Sb).
  exists ns, (Bin (Concat (Some (S (length p)))) ea eb). split; [exact (build_more dbg _ _ (Concatenate (Some (S (length p)))) _ _ _ _ _ _ Eb Ea Ebb)|].
  split; [exact (Forall2_len _ _ _ Hn)|]. split.
  - rewrite (announced_bin (shapes 1 s ps) dbg _ _ _ _ (1 :: p ++ a :: q) (1 :: p' ++ b :: q')); [|now apply Sa, batch_one|now apply Sb, batch_one|intros; apply shapes_leaves].
    cbn [calc2]. cbv zeta. assert (Ll : length (shape_N (1 :: p ++ a :: q)) = S (length p' + S (length q'))) by (unfold shape_N; rewrite map_length; cbn [length]; rewrite app_length; cbn [length]; lia).
    assert (Lr : length (shape_N (1 :: p' ++ b :: q')) = S (length p' + S (length q'))) by (unfold shape_N; rewrite map_length; cbn [length]; rewrite app_length; reflexivity).
    rewrite Ll, Lr, Lp, Nat.eqb_refl. cbn [check].
    rewrite (proj2 (Nat.ltb_ge (S (length p' + S (length q'))) (S (length p')))) by lia. rewrite (proj2 (Nat.ltb_lt (S (length p')) (S (length p' + S (length q'))))) by lia. cbn [andb].
    unfold shape_N.
    assert (Na : nth (S (length p')) (map N.of_nat (1 :: p ++ a :: q)) 0%N = N.of_nat a).
    { cbn [map nth]. rewrite map_app, app_nth2; rewrite map_length, Lp; [|lia]. now rewrite Nat.sub_diag. }
    assert (Nb : nth (S (length p')) (map N.of_nat (1 :: p' ++ b :: q')) 0%N = N.of_nat b).
    { cbn [map nth]. rewrite map_app, app_nth2; rewrite map_length; [|lia]. now rewrite Nat.sub_diag. }
    rewrite Na, Nb. f_equal.
    assert (La : a <= m /\ b <= m).
    { pose proof (proj1 (Forall_forall _ _) Hw _ (nth_error_In _ _ Ei)) as (_ & F1 & L1). pose proof (proj1 (Forall_forall _ _) Hw _ (nth_error_In _ _ Ej)) as (_ & F2 & L2).
      assert (G : forall u x w, Forall (fun n => 1 <= n) (u ++ x :: w) -> prod (u ++ x :: w) <= m -> x <= m).
      { intros u x w F L. rewrite prod_app, prod_cons in L. apply Forall_app in F. destruct F as [Fu F]. inversion F as [|? ? Hx Fw]; subst.
        pose proof (prod_pos _ Fu) as Pu. pose proof (prod_pos _ Fw) as Pw. set (A := prod u) in *. set (B := prod w) in *. clearbody A B. assert (x <= x * B) by nia. nia. }
      split; [now apply (G p a q)|now apply (G p' b q')]. }
    rewrite <- Nat2N.inj_add, wrap_small by (unfold word; lia). rewrite <- Lp. clear. change (map N.of_nat (1 :: p ++ a :: q)) with (1%N :: map N.of_nat (p ++ a :: q)).
    change (map N.of_nat (1 :: p ++ (a + b) :: q)) with (1%N :: map N.of_nat (p ++ (a + b) :: q)). rewrite !map_app. cbn [map].
    cbn [upd]. f_equal. induction p as [|x p IH]; [reflexivity|]. cbn [length map app upd]. now rewrite IH.
  - intros bs leaf y Hb Hm Sl Ev. pose proof (supplied_shapes _ _ _ _ Sl) as Sh.
    destruct (evaluates_bin _ _ _ _ _ _ _ _ _ (Sa bs (conj Hb Hm)) (Sb bs (conj Hb Hm)) Sh Ev) as (x & x' & _ & Sx & _ & Sx' & F).
    cbn [forward2] in F. unfold concatenate in F. rewrite Sx, Sx' in F. cbn [length] in F. rewrite !app_length in F. cbn [length] in F. rewrite Lp, Lq, Nat.eqb_refl in F. cbn [negb] in F.
    cbn [ArrayModel.pick_axis] in F. cbv zeta in F. cbn [firstn] in F.
    destruct (S (length p') <? S (length p' + S (length q'))); cbn [check] in F; [|discriminate]. destruct (S (length p' + S (length q')) <=? S (length p')); [discriminate|].
    assert (Fa : firstn (length p') (p ++ a :: q) = p) by (rewrite <- Lp, firstn_app, firstn_all, Nat.sub_diag; apply app_nil_r).
    assert (Fb : firstn (length p') (p' ++ b :: q') = p') by (rewrite firstn_app, firstn_all, Nat.sub_diag; apply app_nil_r).
    rewrite Fa, Fb in F.
    destruct (list_eqb_spec (bs :: p) (bs :: p')) as [Ep|]; cbn [check] in F; [|discriminate]. injection Ep as ->.
    change (skipn (S (S (length p'))) (bs :: p' ++ a :: q)) with (skipn (S (length p')) (p' ++ a :: q)) in F.
    change (skipn (S (S (length p'))) (bs :: p' ++ b :: q')) with (skipn (S (length p')) (p' ++ b :: q')) in F.
    destruct (list_eqb_spec (skipn (S (length p')) (p' ++ a :: q)) (skipn (S (length p')) (p' ++ b :: q'))) as [Eq|]; [|cbn [check] in F; discriminate].
    rewrite !skipn_app, !skipn_all2 in Eq by lia. replace (S (length p') - length p') with 1 in Eq by lia. cbn [app skipn] in Eq. subst q'. now apply Ne.
Qed.
Print Assumptions C77_concatenate_refuted.

Lemma dimr_app_low a b j : j < length b -> dimr (a ++ b) j = dimr b j.
Proof. intros L. unfold dimr. rewrite rev_app_distr, app_nth1; [reflexivity|]. now rewrite rev_length. Qed.
Lemma dimr_app_high a b j : length b <= j -> dimr (a ++ b) j = dimr a (j - length b).
Proof. intros L. unfold dimr. rewrite rev_app_distr, app_nth2; rewrite rev_length; [reflexivity|assumption]. Qed.
Lemma dimr_over a j : length a <= j -> dimr a j = 1.
Proof. intros L. unfold dimr. apply nth_overflow. now rewrite rev_length. Qed.

(** Add (and Subtract) of expressions of different ranks is announced for the batch of one, but for larger batches the batch axis of one
    meets another axis of the other, of extent d, and it does not run in a debug build. *)
Theorem C77_add_ranks_refuted dbg m s prog ts ps i j l u d v t :
  (N.of_nat m < 2147483648)%N -> within m s -> well_formed m [s] prog ts ps ->
  nth_error ts i = Some l -> nth_error ts j = Some (u ++ d :: v) -> stretch_all l v t -> prod (u ++ d :: t) <= m ->
  exists ns e, build dbg (map N.of_nat s) (prog ++ [Apply2 Add i j]) = Ok (Net (ns ++ [e]) ps) /\ length ns = length ts /\
    announced dbg (leaves (map N.of_nat (1 :: s)) ps) e = Ok (map N.of_nat (1 :: u ++ d :: t)) /\
    forall bs leaf y, 2 <= bs -> d <> 1 -> d <> bs -> (N.of_nat (bs * m) < 4294967296)%N -> supplied leaf (bs :: s) ps -> ~ evaluates true leaf e y.
Proof.
  intros M W WF Ei Ej St Lt. destruct (built dbg m s prog ts ps M W WF) as (ns & Eb & Hn & Hw).
  destruct (Forall2_nth_error_r _ _ _ _ _ Hn Ei) as (ea & Ea & Sa). destruct (Forall2_nth_error_r _ _ _ _ _ Hn Ej) as (eb & Ebb & Sb).
  pose proof (stretch_all_length _ _ _ St) as [L1 L2].
  exists ns, (Bin Plus ea eb). split; [exact (build_more dbg _ _ Add _ _ _ _ _ _ Eb Ea Ebb)|].
  split; [exact (Forall2_len _ _ _ Hn)|]. split.
  - rewrite (announced_bin (shapes 1 s ps) dbg _ _ _ _ (1 :: l) (1 :: u ++ d :: v)); [|now apply Sa, batch_one|now apply Sb, batch_one|intros; apply shapes_leaves].
    cbn [calc2]. rewrite join_shape_eq.
    assert (B : Broadcasts (1 :: l) (1 :: u ++ d :: v) (1 :: u ++ d :: t)).
    { pose proof (stretch_all_broadcasts _ _ _ St) as [Bl Bd]. split; [cbn [length]; rewrite !app_length; cbn [length]; lia|]. intros k Hk.
      change (1 :: l) with ([1] ++ l). change (1 :: u ++ d :: v) with ((1 :: u) ++ d :: v). change (1 :: u ++ d :: t) with ((1 :: u) ++ d :: t).
      replace ((1 :: u) ++ d :: v) with (((1 :: u) ++ [d]) ++ v) by (rewrite <- app_assoc; reflexivity). replace ((1 :: u) ++ d :: t) with (((1 :: u) ++ [d]) ++ t) by (rewrite <- app_assoc; reflexivity).
      destruct (Nat.lt_ge_cases k (length t)) as [Lk|Lk].
      - rewrite !dimr_app_low by lia. now apply Bd.
      - right. left. rewrite (dimr_app_high [1] l), (dimr_app_high ((1 :: u) ++ [d]) v), (dimr_app_high ((1 :: u) ++ [d]) t) by lia. rewrite L2. split; [|reflexivity]. unfold dimr. cbn [rev app]. destruct (k - length l) as [|[|]]; reflexivity. }
    rewrite (broadcast_shape_ok dbg _ _ _ B). reflexivity.
  - intros bs leaf y Hb Hd1 Hd Hm Sl Ev. pose proof (supplied_shapes _ _ _ _ Sl) as Sh. assert (B : batch_ok m bs) by (split; [lia|assumption]).
    destruct (evaluates_bin _ _ _ _ _ _ _ _ _ (Sa bs B) (Sb bs B) Sh Ev) as (x & x' & Wx & Sx & Wx' & Sx' & F).
    destruct (forward2_gives _ _ _ _ _ F Wx Wx') as [_ G]. cbn [gives2] in G. rewrite Sx, Sx' in G. apply broadcast_shape_iff in G.
    apply (Broadcasts_all _ _ _ (length l)) in G. unfold bd_ok in G.
    assert (D1 : dimr (bs :: l) (length l) = bs). { change (bs :: l) with ([bs] ++ l). rewrite dimr_app_high, Nat.sub_diag by lia. reflexivity. }
    assert (D2 : dimr (bs :: u ++ d :: v) (length l) = d).
    { replace (bs :: u ++ d :: v) with (((bs :: u) ++ [d]) ++ v) by (rewrite <- app_assoc; reflexivity). rewrite dimr_app_high by lia. rewrite L1, <- L2, Nat.sub_diag. unfold dimr. now rewrite rev_app_distr. }
    rewrite D1, D2 in G. lia.
Qed.
Print Assumptions C77_add_ranks_refuted.

(** Input() announces an unknown extent; a Dense layer then asks for a matrix with that many rows. *)
Theorem C77_unknown_input_refuted dbg out prog : 1 <= out -> build dbg [unknown] (Apply1 (Dense out) 0 :: prog) = Abort.
Proof.
  intros Ho. unfold build, hint. rewrite N.eqb_refl. cbn [obind steps step nth_error nodes apply1 params announced leaves length Nat.leb check last_extent rev app]. unfold new_variable.
  cbn [fold_left]. destruct (N.ltb_spec (1 * unknown * N.of_nat out) 9223372036854775808) as [L|_]; [|reflexivity]. exfalso. unfold unknown, word in L. lia.
Qed.
Print Assumptions C77_unknown_input_refuted.

(** ** A case: a small convolutional network with a branch *)
Module Case.

(** 12 x 12 images: convolution to 10 x 10 x 4, max pooling to 5 x 5 x 4, convolution with "same" to 5 x 5 x 4, added to what went into it,
    flattened, and a dense layer with softmax *)
Definition prog : list instr :=
  [ Apply1 (Conv2D 4 3 3 PValid 1 1 1 1) 0; Apply1 (Activation (fun x => Rmax x 0)) 1; Apply1 (MaxPooling2D 2) 2;
    Apply1 (Conv2D 4 3 3 PSame 1 1 1 1) 3; Apply2 Add 3 4; Apply1 FlattenLayer 5; Apply1 (Dense 10) 6; Apply1 SoftmaxLayer 7 ].

Lemma well : well_formed 1000 [[12; 12; 1]] prog
  [[12; 12; 1]; [10; 10; 4]; [10; 10; 4]; [5; 5; 4]; [5; 5; 4]; [5; 5; 4]; [100]; [10]; [10]]
  [[4; 3; 3; 1]; [1; 1; 4]; [4; 3; 3; 4]; [1; 1; 4]; [100; 10]; [1; 10]].
Proof.
  assert (S : forall t, t <> [] -> forallb (fun n => 1 <=? n) t = true -> (prod t <=? 1000) = true -> within 1000 t).
  { intros t N F L. split; [assumption|]. split; [|now apply Nat.leb_le]. apply Forall_forall. intros x Hx. apply Nat.leb_le. now apply (proj1 (forallb_forall _ _) F). }
  change [[4; 3; 3; 1]; [1; 1; 4]; [4; 3; 3; 4]; [1; 1; 4]; [100; 10]; [1; 10]] with
    ([[4; 3; 3; 1]; [1; 1; 4]] ++ [] ++ [] ++ [[4; 3; 3; 4]; [1; 1; 4]] ++ [] ++ [[100; 10]; [1; 10]] ++ [] ++ []).
  eapply wf_one with (t' := [10; 10; 4]); [reflexivity| |now apply S|].
  { apply mk_conv2d. exists 12, 12, 1, 10, 10, 0. unfold window. cbn [pads]. repeat split; try reflexivity; lia. }
  eapply wf_one with (t' := [10; 10; 4]); [reflexivity|constructor|now apply S|].
  eapply wf_one with (t' := [5; 5; 4]); [reflexivity|apply (mk_max 1000 2 10 10 4); lia|now apply S|].
  eapply wf_one with (t' := [5; 5; 4]); [reflexivity| |now apply S|].
  { apply mk_conv2d. exists 5, 5, 4, 5, 5, 1. unfold window. cbn [pads]. repeat split; try reflexivity; lia. }
  eapply wf_two with (t := [5; 5; 4]); [reflexivity|reflexivity| |now apply S|].
  { constructor. repeat (constructor; [left; auto|]). constructor. }
  eapply wf_one with (t' := [100]); [reflexivity|apply (mk_flatten 1000 [5; 5; 4])|now apply S|].
  eapply wf_one with (t' := [10]); [reflexivity|constructor|now apply S|].
  eapply wf_one with (t' := [10]); [reflexivity|constructor|now apply S|].
  constructor.
Qed.

(** ... and so it classifies batches of up to four million images *)
Example network : exists ns e, build true [12; 12; 1]%N prog = Ok (Net ns [[4; 3; 3; 1]; [1; 1; 4]; [4; 3; 3; 4]; [1; 1; 4]; [100; 10]; [1; 10]]) /\
  nth_error ns 8 = Some e /\
  forall bs leaf, 1 <= bs -> (N.of_nat bs <= 4000000)%N -> supplied leaf [bs; 12; 12; 1] [[4; 3; 3; 1]; [1; 1; 4]; [4; 3; 3; 4]; [1; 1; 4]; [100; 10]; [1; 10]] ->
    exists y, evaluates true leaf e y /\ is_array y [bs; 10].
Proof.
  destruct (C77_networks_run true 1000 [12; 12; 1] prog _ _ ltac:(reflexivity) ltac:(split; [discriminate|split; [repeat constructor|apply Nat.leb_le; reflexivity]]) well) as (ns & Eb & Ln & H).
  destruct (nth_error ns 8) as [e|] eqn:Ee; [|apply nth_error_None in Ee; rewrite Ln in Ee; cbn [length] in Ee; lia].
  exists ns, e. split; [exact Eb|]. split; [exact Ee|]. intros bs leaf Hb Hm Sl. destruct (H 8 e [10] Ee eq_refl) as [_ G].
  destruct (G bs leaf Hb ltac:(rewrite Nat2N.inj_mul; lia) Sl) as [(y & Ey) A]. exists y. split; [assumption|]. now apply (A true).
Qed.

(** Conv1D( 1, 3, 1, "same" ) on sequences of length 5 with 2 channels *)
Example conv1d : exists e, build true [5; 2]%N [Apply1 (Conv1D 1 3 1 PSame 1) 0] = Ok (Net [Leaf 0; e] [[1; 3; 1; 2]; [1; 1; 1]]) /\
  forall bs leaf y, supplied leaf [bs; 5; 2] [[1; 3; 1; 2]; [1; 1; 1]] -> ~ evaluates true leaf e y.
Proof. apply (C77_conv1d_same_refuted true 100 1 1 5 2); try lia; reflexivity. Qed.

End Case.
