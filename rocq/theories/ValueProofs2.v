(** What a network computes: convolutions and operators with two operands. *)
From Coq Require Import List Arith Lia Bool PeanoNat NArith ZArith Reals Lra.
From Verif Require Import ListBase Loops TensorModel TensorSpec TensorProofs TensorProofs2 ArrayModel ArrayProofs ArrayProps LayerModel LayerSpec LayerProofs LayerProofs2 LayerProofs3
  LayerProofs4 ConvProofs GraphModel OpModel CalcSpec OpProofs4 DeclModel DeclSpec DeclProofs DeclProofs2 NetModel NetSpec ValueModel ValueSpec NetProofs NetProofs2 ValueProofs.
Import ListNotations.
Local Open Scope nat_scope.

(** ** The index table *)

Lemma table_of_is a R C K t : table_of a [R; C; K] t -> t = [] \/ exists BS OR OC,
  conv_extent R (prow a) (krow a) (srow a) (drow a) = Some OR /\ conv_extent C (pcol a) (kcol a) (scol a) (dcol a) = Some OC /\ t = index_table a BS R C K OR OC.
Proof.
  induction 1 as [|dbg t x t' y Ht IH E F]; [now left|]. unfold img2col_fwd, with4 in F. apply check_ok in F.
  destruct (ashape x) as [|BS [|r [|c [|k [|? ?]]]]]; try discriminate. cbn [tl] in E. injection E as -> -> ->.
  destruct (_ <=? _); [|discriminate].
  destruct (conv_extent R _ _ _ _) as [OR|]; [|discriminate]. destruct (conv_extent C _ _ _ _) as [OC|]; [|discriminate]. cbv zeta in F.
  destruct (forallb _ _); [|discriminate]. injection F as <- _. destruct (_ =? _); [exact IH|]. right. exists BS, OR, OC. auto.
Qed.

Lemma v_img2col dbg a t t' x y BS R C K OR OC :
  wf x -> ashape x = [BS; R; C; K] -> (Z.of_nat (prod [BS; R; C; K]) <= 4294967295)%Z -> K <> 0 ->
  conv_extent R (prow a) (krow a) (srow a) (drow a) = Some OR -> conv_extent C (pcol a) (kcol a) (scol a) (dcol a) = Some OC ->
  table_of a [R; C; K] t -> img2col_fwd 0%R dbg a t x = Ok (t', y) ->
  ashape y = [krow a * kcol a * K; BS * OR * OC] /\ length (adata y) = krow a * kcol a * K * (BS * OR * OC) /\
  forall ch i j bs h w, ch < K -> i < krow a -> j < kcol a -> bs < BS -> h < OR -> w < OC ->
    nth (((ch * krow a + i) * kcol a + j) * (BS * OR * OC) + ((bs * OR + h) * OC + w)) (adata y) 0%R = pixel 0%R R C K (adata x) bs (im_row a h i) (im_col a w j) ch.
Proof.
  intros W E B HK E1 E2 Ht F.
  assert (S : table_for a BS R C K OR OC t \/ length t <> krow a * kcol a * K * (BS * OR * OC)).
  { destruct (table_of_is _ _ _ _ _ Ht) as [->|(BS' & OR' & OC' & E1' & E2' & ->)]; [left; now left|]. assert (OR' = OR) by congruence. assert (OC' = OC) by congruence. subst.
    rewrite index_table_length. destruct (Nat.eq_dec BS' BS) as [->|N]; [left; now right|]. right. intros Q. apply N.
    pose proof (conv_extent_pos _ _ _ _ _ _ E1). pose proof (conv_extent_pos _ _ _ _ _ _ E2). destruct (conv_extent_args _ _ _ _ _ _ E1) as [K1 _]. destruct (conv_extent_args _ _ _ _ _ _ E2) as [K2 _].
    apply Nat.mul_cancel_l in Q; [|apply Nat.neq_mul_0; split; [apply Nat.neq_mul_0; auto|assumption]].
    apply Nat.mul_cancel_r in Q; [|assumption]. apply Nat.mul_cancel_r in Q; assumption. }
  assert (G : exists t0, table_for a BS R C K OR OC t0 /\ img2col_fwd 0%R dbg a t0 x = Ok (t', y)).
  { destruct S as [S|S]; [eauto|]. exists []. split; [now left|]. rewrite <- F. unfold img2col_fwd. rewrite !(with4_ok _ _ _ _ _ _ _ W E), E1, E2. cbv zeta.
    rewrite (proj2 (Nat.eqb_neq _ _) S). cbn [length]. destruct (Nat.eqb_spec 0 (krow a * kcol a * K * (BS * OR * OC))) as [Z|Z]; [|reflexivity].
    assert (Ei : index_table a BS R C K OR OC = []) by (apply length_zero_iff_nil; now rewrite index_table_length). now rewrite Ei. }
  destruct G as (t0 & T0 & F0). destruct (img2col_fwd_ok 0%R dbg a t0 x BS R C K OR OC W E B E1 E2 T0) as (d & H & L & _ & Hd).
  rewrite H in F0. injection F0 as _ <-. cbn [ashape adata]. split; [reflexivity|]. split; [assumption|]. intros. now apply nth_error_nth, Hd.
Qed.

(** ** Products *)

Lemma v_matmul dbg x y z m n k : forward2 dbg Matmul x y z -> wf x -> ashape x = [m; n] -> wf y -> ashape y = [n; k] ->
  ashape z = [m; k] /\ adata z = tab2 m k (fun r j => rsum (tab n (fun i => nth (r * n + i) (adata x) 0 * nth (i * k + j) (adata y) 0)%R)).
Proof.
  cbn [forward2]. unfold bnew, op_matmul. cbn [fst snd]. intros F Wx Ex Wy Ey.
  pose proof (pure2_multiply (ashape x, adata x) (ashape y, adata y) m n k Wx Wy Ex Ey) as H. cbn [fst snd] in H. rewrite Ex, Ey in *. rewrite H in F.
  assert (G : forall (a b : val R), Some a = Some b -> a = b) by congruence. apply G in F. clear G. split.
  - now apply (f_equal fst) in F.
  - now apply (f_equal snd) in F.
Qed.

Lemma v_transpose dbg x y r c : forward1 dbg Transpose x y -> wf x -> ashape x = [r; c] ->
  ashape y = [c; r] /\ length (adata y) = c * r /\ forall i j, i < r -> j < c -> nth (j * r + i) (adata y) 0%R = nth (i * c + j) (adata x) 0%R.
Proof.
  cbn [forward1]. intros (ca & ca' & F) W E. destruct (transpose_ok 0%R dbg ca x r c W E) as (d & H & L & Hd). rewrite H in F. injection F as _ <-. cbn [ashape adata].
  split; [reflexivity|]. split; [assumption|]. intros i j Hi Hj. apply nth_error_nth. rewrite Hd by assumption. apply nth_error_of_nth.
  unfold wf in W. rewrite W, E. unfold prod. cbn [fold_right]. nia.
Qed.

Lemma v_around r c ch i d a b q : q < ch -> around r c ch (part (prod [r; c; ch]) i d) a b q = pixel 0%R r c ch d i a b q.
Proof.
  intros Hq. unfold around, pixel. destruct (on_image r c a b) eqn:E; [|reflexivity]. apply on_image_spec in E. apply at3_part; lia.
Qed.

(** the convolution without the bias: x image, w weights *)
Lemma v_conv dbg eps kx ky pad sx sy dx dy ro co out ch r c bs x w col flat mm tr y :
  wf x -> ashape x = [bs; r; c; ch] -> (Z.of_nat (prod [bs; r; c; ch]) <= 4294967295)%Z -> wf w -> ashape w = [out; kx; ky; ch] ->
  window r pad kx sx dx ro -> window c pad ky sy dy co -> 1 <= ch -> 1 <= out ->
  run1 dbg eps (Img2col (Conv kx ky pad pad sx sy dx dy)) x col -> forward1 dbg (Reshape [kx * ky * ch] true) w flat -> forward2 dbg Matmul flat col mm ->
  forward1 dbg Transpose mm tr -> forward1 dbg (Reshape [ro; co; out] true) tr y ->
  ashape y = [bs; ro; co; out] /\ wf y /\
  forall i h v o, i < bs -> h < ro -> v < co -> o < out ->
    nth (pos4 ro co out i h v o) (adata y) 0%R
    = rsum (loop3 ch kx ky (fun q a b => at1 (adata w) (((o * ch + q) * kx + a) * ky + b) *
              around r c ch (part (prod [r; c; ch]) i (adata x)) (Z.of_nat (h * sx + a * dx) - Z.of_nat pad) (Z.of_nat (v * sy + b * dy) - Z.of_nat pad) q))%R.
Proof.
  intros Wx Ex B Ww Ew W1 W2 Hch Ho F1 F2 F3 F4 F5. pose proof (window_pos _ _ _ _ _ _ W1) as P1. pose proof (window_pos _ _ _ _ _ _ W2) as P2.
  pose proof (proj1 W1) as K1. pose proof (proj1 W2) as K2.
  set (a := Conv kx ky pad pad sx sy dx dy) in *. destruct F1 as (t & t' & Ht & F1). rewrite Ex in Ht. cbn [tl] in Ht.
  destruct (v_img2col dbg a t t' x col bs r c ch ro co Wx Ex B ltac:(lia) (window_extent _ _ _ _ _ _ W1) (window_extent _ _ _ _ _ _ W2) Ht F1) as (Sc & Lc & Hc).
  cbn [krow kcol a] in Sc, Lc, Hc. set (q := kx * ky * ch) in *.
  assert (Lw : length (adata w) = out * q) by (unfold wf in Ww; rewrite Ww, Ew; unfold prod, q; cbn [fold_right]; lia).
  assert (Sf : ashape flat = [out; q] /\ adata flat = adata w).
  { assert (1 <= q) by (unfold q; assert (1 <= kx * ky) by nia; nia). split.
    - cbn [forward1] in F2. unfold reshape_op in F2. replace (prod [q]) with q in F2 by (unfold prod; cbn [fold_right]; lia).
      destruct (Nat.eqb_spec q 0); [lia|]. apply check_ok in F2. injection F2 as <-. cbn [ashape]. now rewrite Lw, Nat.div_mul by assumption.
    - apply (v_reshape _ _ _ _ out F2). rewrite Lw. unfold prod. cbn [fold_right]. lia. }
  destruct Sf as [Sf Ef].
  assert (Wf : wf flat) by (unfold wf; rewrite Ef, Sf, Lw; unfold prod; cbn [fold_right]; lia).
  assert (Wc : wf col) by (unfold wf; rewrite Lc, Sc; unfold prod; cbn [fold_right]; lia).
  destruct (v_matmul _ _ _ _ out q (bs * ro * co) F3 Wf Sf Wc Sc) as [Sm Em].
  assert (Wm : wf mm) by (unfold wf; rewrite Em, Sm, tab2_length; unfold prod; cbn [fold_right]; lia).
  destruct (v_transpose _ _ _ _ _ F4 Wm Sm) as (St & Lt & Ht').
  assert (Lt' : length (adata tr) = bs * prod [ro; co; out]) by (rewrite Lt, prod3; ring).
  assert (Ey : adata y = adata tr) by exact (v_reshape _ _ _ _ bs F5 Lt').
  assert (Sy : ashape y = [bs; ro; co; out]).
  { cbn [forward1] in F5. unfold reshape_op in F5. assert (prod [ro; co; out] <> 0) by (rewrite prod3; assert (1 <= co * out) by nia; nia).
    destruct (Nat.eqb_spec (prod [ro; co; out]) 0); [contradiction|]. apply check_ok in F5. injection F5 as <-. cbn [ashape]. f_equal. rewrite Lt'. now apply Nat.div_mul. }
  split; [assumption|]. split; [unfold wf; rewrite Ey, Sy, prod_cons; exact Lt'|]. intros i h v o Hi Hh Hv Hoo.
  assert (Hp : (i * ro + h) * co + v < bs * ro * co) by (assert (i * ro + h < bs * ro) by nia; nia).
  rewrite Ey. replace (pos4 ro co out i h v o) with (((i * ro + h) * co + v) * out + o) by (unfold pos4; ring).
  rewrite Ht' by assumption. rewrite Em, nth_tab2 by assumption. f_equal. unfold q at 1. rewrite tab_loop3. apply loop3_eq. intros e a' b He Ha Hb.
  rewrite Ef. unfold at1. f_equal.
  - f_equal. unfold q. ring.
  - rewrite v_around by assumption. rewrite Hc by assumption. unfold im_row, im_col, a. cbn [srow scol drow dcol prow pcol]. f_equal; lia.
Qed.

(** ** Sums *)

Lemma v_plus dbg x y z t idx : forward2 dbg Plus x y z -> wf x -> wf y -> Broadcasts (ashape x) (ashape y) t -> valid t idx ->
  nth (offset t idx) (adata z) 0%R = (nth (offset (ashape x) (source_index (ashape x) idx)) (adata x) 0 + nth (offset (ashape y) (source_index (ashape y) idx)) (adata y) 0)%R.
Proof.
  cbn [forward2]. intros (h & tx & ty & u & h' & S1 & S2 & R1 & R2 & F & Su & Ru) Wx Wy B V. unfold wf in *. rewrite <- S1, <- S2 in *.
  destruct (zip_broadcast_full 0%R dbg Rplus tx ty t h (adata x) (adata y) R1 Wx R2 Wy B) as (u' & h'' & res & G & Su' & Gr & _ & Hi & _).
  rewrite F in G. injection G as <- <-. assert (res = adata z) by congruence. subst res. destruct (Hi idx V) as (a & b & Ha & Hb & Hab).
  rewrite (nth_error_nth _ _ _ Ha), (nth_error_nth _ _ _ Hb), (nth_error_nth _ _ _ Hab). reflexivity.
Qed.

Lemma v_bias dbg x y z bs r c k : forward2 dbg Plus x y z -> wf x -> ashape x = [bs; r; c; k] -> wf y -> ashape y = [1; 1; k] ->
  forall i h v o, i < bs -> h < r -> v < c -> o < k -> nth (pos4 r c k i h v o) (adata z) 0%R = (nth (pos4 r c k i h v o) (adata x) 0 + at1 (adata y) o)%R.
Proof.
  intros F Wx Ex Wy Ey i h v o Hi Hh Hv Ho. assert (B : Broadcasts (ashape x) (ashape y) [bs; r; c; k]) by (rewrite Ex, Ey; apply bias_broadcasts).
  pose proof (v_plus dbg x y z [bs; r; c; k] [i; h; v; o] F Wx Wy B ltac:(unfold valid; auto)) as H. rewrite pos4_offset in H. rewrite H, Ex, Ey. unfold source_index.
  cbn [length Nat.sub skipn map2 Nat.eqb]. unfold at1. f_equal.
  - replace (if bs =? 1 then 0 else i) with i by (destruct (Nat.eqb_spec bs 1); lia). replace (if r =? 1 then 0 else h) with h by (destruct (Nat.eqb_spec r 1); lia).
    replace (if c =? 1 then 0 else v) with v by (destruct (Nat.eqb_spec c 1); lia). replace (if k =? 1 then 0 else o) with o by (destruct (Nat.eqb_spec k 1); lia).
    now rewrite pos4_offset.
  - replace (if k =? 1 then 0 else o) with o by (destruct (Nat.eqb_spec k 1); lia). f_equal. cbn [offset]. unfold prod. cbn [fold_right]. lia.
Qed.

Lemma v_bias2 dbg x y z bs k : forward2 dbg Plus x y z -> wf x -> ashape x = [bs; k] -> wf y -> ashape y = [1; k] ->
  forall i o, i < bs -> o < k -> nth (i * k + o) (adata z) 0%R = (nth (i * k + o) (adata x) 0 + at1 (adata y) o)%R.
Proof.
  intros F Wx Ex Wy Ey i o Hi Ho. assert (B : Broadcasts (ashape x) (ashape y) [bs; k]) by (rewrite Ex, Ey; apply bias_broadcasts2).
  pose proof (v_plus dbg x y z [bs; k] [i; o] F Wx Wy B ltac:(unfold valid; auto)) as H.
  assert (O : offset [bs; k] [i; o] = i * k + o) by (cbn [offset]; unfold prod; cbn [fold_right]; lia). rewrite O in H. rewrite H, Ex, Ey. unfold source_index.
  cbn [length Nat.sub skipn map2 Nat.eqb]. unfold at1. replace (if k =? 1 then 0 else o) with o by (destruct (Nat.eqb_spec k 1); lia).
  replace (if bs =? 1 then 0 else i) with i by (destruct (Nat.eqb_spec bs 1); lia). rewrite O. f_equal. f_equal. cbn [offset]. unfold prod. cbn [fold_right]. lia.
Qed.

Lemma stretch_all_map2 l r t : stretch_all l r t -> map2 (fun a b => if a =? 1 then b else a) l r = t.
Proof.
  induction 1 as [|a b c l r t S H IH]; [reflexivity|]. cbn [map2]. rewrite IH. f_equal. destruct (Nat.eqb_spec a 1) as [->|N]; destruct S as [[? ?]|[[? ?]|[? ?]]]; lia.
Qed.

Lemma pin_valid l r t u : stretch_all l r t -> valid t u -> valid l (pin l u) /\ valid r (pin r u).
Proof.
  unfold valid, pin. intros H. revert u. induction H as [|a b c l r t S H IH]; intros u V; inversion V as [|i c' u' t' Hi Hu]; subst; cbn [map2]; [split; constructor|].
  destruct (IH _ Hu) as [I1 I2]. split; constructor; try assumption; destruct (Nat.eqb_spec a 1), (Nat.eqb_spec b 1); destruct S as [[? ?]|[[? ?]|[? ?]]]; lia.
Qed.

Lemma v_pointwise dbg x y z bs ta tb t i : forward2 dbg Plus x y z -> wf x -> ashape x = bs :: ta -> wf y -> ashape y = bs :: tb -> wf z -> ashape z = bs :: t -> stretch_all ta tb t -> i < bs ->
  part (prod t) i (adata z) = snd (pointwise Rplus ta tb (part (prod ta) i (adata x)) (part (prod tb) i (adata y))).
Proof.
  intros F Wx Ex Wy Ey Wz Ez S Hi. unfold pointwise. cbv zeta. cbn [snd]. rewrite (stretch_all_map2 _ _ _ S).
  apply (part_eq 0%R _ bs); [assumption|unfold wf in Wz; now rewrite Wz, Ez, prod_cons|apply tab_length|]. intros p Hp. rewrite nth_tab by assumption.
  pose proof (unoffset_valid t p Hp) as V. pose proof (offset_unoffset t p Hp) as O. set (u := unoffset t p) in *.
  assert (B : Broadcasts (ashape x) (ashape y) (bs :: t)) by (rewrite Ex, Ey; apply stretch_all_broadcasts; constructor; [left; auto|assumption]).
  pose proof (v_plus dbg x y z (bs :: t) (i :: u) F Wx Wy B ltac:(constructor; assumption)) as H. cbn [offset] in H. rewrite O in H. rewrite H, Ex, Ey.
  pose proof (stretch_all_length _ _ _ S) as [L1 L2]. pose proof (valid_length _ _ V) as L3. destruct (pin_valid _ _ _ _ S V) as [V1 V2].
  assert (G : forall s, length s = length t -> valid s (pin s u) -> offset (bs :: s) (source_index (bs :: s) (i :: u)) = i * prod s + offset s (pin s u)).
  { intros s Ls _. unfold source_index. cbn [length]. rewrite Ls, L3, Nat.sub_diag. cbn [skipn map2 offset]. f_equal. f_equal. destruct (Nat.eqb_spec bs 1); lia. }
  rewrite !G by assumption. unfold at1. rewrite !nth_part by (apply valid_offset_lt; assumption). reflexivity.
Qed.

Lemma pointwise_minus ta tb x y : snd (pointwise Rplus ta tb x (map Ropp y)) = snd (pointwise Rminus ta tb x y).
Proof.
  unfold pointwise. cbv zeta. cbn [snd]. apply tab_ext. intros p _. unfold at1, Rminus. f_equal. set (k := offset _ _). clearbody k.
  rewrite <- (map_nth Ropp). f_equal. ring.
Qed.

Lemma v_product dbg x y z bs t i : forward2 dbg Product x y z -> wf x -> ashape x = bs :: t -> wf y -> ashape y = bs :: t -> bs * prod t <> 0 -> i < bs ->
  part (prod t) i (adata z) = map2 Rmult (part (prod t) i (adata x)) (part (prod t) i (adata y)).
Proof.
  cbn [forward2]. unfold bnew, op_product. intros F Wx Ex Wy Ey N Hi.
  pose proof (product_val_big dbg (ashape x, adata x) (ashape y, adata y) Wx Wy) as H. cbn [fst snd] in H. unfold wf in *. rewrite Ex, Ey in *. rewrite (prod_cons bs t) in *.
  specialize (H N (le_n _) (ex_intro _ 1 (eq_sym (Nat.mul_1_l _)))). rewrite H in F.
  assert (G : forall (a b : val R), Some a = Some b -> a = b) by congruence. apply G in F. apply (f_equal snd) in F. cbn [snd] in F. rewrite <- F. clear F G H.
  assert (L : forall d : list R, length d = bs * prod t -> length (part (prod t) i d) = prod t) by (intros; now apply (part_length _ bs)).
  apply (part_eq 0%R _ bs); [assumption|apply tab_length|rewrite map2_length, !L by assumption; apply Nat.min_id|]. intros p Hp.
  assert (S i * prod t <= bs * prod t) by (apply Nat.mul_le_mono_r; lia).
  rewrite nth_tab by lia. rewrite Nat.mod_small by lia. rewrite (nth_map2 Rmult _ _ p 0%R 0%R) by (rewrite L by assumption; assumption). now rewrite !nth_part.
Qed.

Lemma part_blocks (g : nat -> list R) bs m L i : (forall a, a < bs * m -> length (g a) = L) -> i < bs ->
  part (m * L) i (flat_map g (seq 0 (bs * m))) = flat_map (fun j => g (i * m + j)) (seq 0 m).
Proof.
  intros Lg Hi. assert (Lg' : forall j, j < m -> length (g (i * m + j)) = L) by (intros j Hj; apply Lg; assert (S i * m <= bs * m) by (apply Nat.mul_le_mono_r; lia); lia).
  apply (part_eq 0%R _ bs); [assumption|rewrite (blocks_length g _ L Lg); lia|now apply blocks_length|].
  intros p Hp. destruct (divmod_lt m L p Hp) as (H1 & H2 & H3). rewrite H3.
  replace (i * (m * L) + (p / L * L + p mod L)) with ((i * m + p / L) * L + p mod L) by ring.
  assert (A : forall (l l' : list R) k k' z, nth_error l k = nth_error l' k' -> nth k l z = nth k' l' z).
  { intros l l' k k' z. revert k l' k'. induction l as [|a l IHl]; intros k l' k' E; [|].
    - destruct k; cbn [nth_error] in E; symmetry in E; apply nth_error_None in E; now rewrite !nth_overflow by (cbn; lia || assumption).
    - destruct k; [symmetry in E; cbn [nth_error] in E; now rewrite (nth_error_nth _ _ _ E)|]. now apply IHl. }
  apply A. assert (S i * m <= bs * m) by (apply Nat.mul_le_mono_r; lia). rewrite (nth_error_blocks g (bs * m) L) by (assumption || lia). rewrite (nth_error_blocks _ m L) by assumption. reflexivity.
Qed.

Lemma flat_map_eq {A} n (f g : nat -> list A) : (forall j, j < n -> f j = g j) -> flat_map f (seq 0 n) = flat_map g (seq 0 n).
Proof. intros H. rewrite !flat_map_concat_map. f_equal. apply map_ext_in. intros j Hj. apply in_seq in Hj. apply H. lia. Qed.

Lemma v_concat dbg x y z bs p a b q axis i :
  forward2 dbg (Concat axis) x y z -> wf x -> ashape x = bs :: p ++ a :: q -> wf y -> ashape y = bs :: p ++ b :: q -> prod (bs :: p) <> 0 ->
  axis = Some (S (length p)) \/ axis = None /\ q = [] -> i < bs ->
  part (prod (p ++ (a + b) :: q)) i (adata z)
  = snd (means2 (Concatenate axis) (p ++ a :: q, part (prod (p ++ a :: q)) i (adata x)) (p ++ b :: q, part (prod (p ++ b :: q)) i (adata y))).
Proof.
  cbn [forward2]. intros F Wx Ex Wy Ey N Ax Hi.
  assert (Nm : names_axis axis (length ((bs :: p) ++ a :: q)) (length (bs :: p))).
  { destruct Ax as [->|[-> ->]]; [now left|right]. split; [reflexivity|]. rewrite app_length. cbn [length]. lia. }
  rewrite (concatenate_ok 0%R dbg x y axis (bs :: p) a b q Wx Wy Ex Ey N Nm) in F. assert (G : forall a b : arr R, Ok a = Ok b -> b = a) by congruence. apply G in F. clear G. subst z. cbn [adata].
  unfold means2. cbv zeta. cbn [snd].
  assert (Ek : match axis with Some a => a - 1 | None => length (p ++ a :: q) - 1 end = length p).
  { destruct Ax as [->|[-> ->]]; [lia|]. rewrite app_length. cbn [length]. lia. }
  rewrite Ek. rewrite !firstn_app, !firstn_all, !Nat.sub_diag. cbn [firstn]. rewrite !app_nil_r. rewrite !skipn_app, !skipn_all, !Nat.sub_diag. cbn [skipn app].
  rewrite (prod_cons bs). rewrite !prod_app, !prod_cons. set (Q := prod q). set (m := prod p). rewrite (prod_cons bs p) in N. fold m in N.
  assert (Lx : length (adata x) = bs * m * (a * Q)) by (unfold wf in Wx; rewrite Wx, Ex, prod_cons, prod_app, prod_cons; unfold m, Q; ring).
  assert (Ly : length (adata y) = bs * m * (b * Q)) by (unfold wf in Wy; rewrite Wy, Ey, prod_cons, prod_app, prod_cons; unfold m, Q; ring).
  assert (Lg : forall k n (d : list R), length d = bs * m * n -> k < bs * m -> length (slice d (n * k) n) = n).
  { intros k n d Ld Hk. apply slice_length. rewrite Ld. assert (S k * n <= bs * m * n) by (apply Nat.mul_le_mono_r; lia). lia. }
  replace (m * ((a + b) * Q)) with (m * (a * Q + b * Q)) by ring. rewrite part_blocks; [|intros k Hk; rewrite app_length, !Lg by assumption; reflexivity|assumption].
  apply flat_map_eq. intros j Hj. rewrite !part_part by assumption. unfold part, slice. f_equal; f_equal; f_equal; ring.
Qed.

(** ** Transposed convolution *)

Lemma v_flips dbg out kx ky ch x y z : forward1 dbg (Flip 2) x y -> forward1 dbg (Flip 1) y z -> wf x -> ashape x = [out; kx; ky; ch] -> prod [out; kx; ky; ch] <> 0 ->
  ashape z = [out; kx; ky; ch] /\ wf z /\ adata z = turned out kx ky ch (adata x).
Proof.
  cbn [forward1]. intros (s1 & F1) (s2 & F2) W E P. assert (L4 : length [out; kx; ky; ch] <= 4) by (cbn [length]; lia).
  rewrite (flip_ok 0%R dbg x 2 [out; kx] ky [ch] W) in F1; [|now rewrite E|now rewrite E|assumption|now left].
  assert (G : forall a b : list R * arr R, Ok a = Ok b -> b = a) by congruence. apply G in F1. apply (f_equal snd) in F1. cbn [snd] in F1. rewrite E in F1.
  assert (Ey : ashape y = [out; kx; ky; ch]) by now rewrite F1. assert (Wy : wf y) by (unfold wf; rewrite F1; cbn [ashape adata]; apply tab_length).
  rewrite (flip_ok 0%R dbg y 1 [out] kx [ky; ch] Wy) in F2; [|now rewrite Ey|now rewrite Ey|assumption|now left]. apply G in F2. apply (f_equal snd) in F2. cbn [snd] in F2. rewrite Ey in F2.
  rewrite F2. cbn [ashape adata]. split; [reflexivity|]. split; [unfold wf; cbn [ashape adata]; apply tab_length|]. rewrite F1. cbn [adata]. unfold turned.
  apply (list_eq_nth_d 0%R); [rewrite tab_length; symmetry; apply loop4_length|]. intros p Hp. rewrite tab_length in Hp. rewrite nth_tab by assumption.
  destruct (pos4_surj _ _ _ _ _ Hp) as (o & i & j & q & Ho & Hi & Hj & Hq & ->). rewrite nth_loop4 by assumption.
  replace (prod [ky; ch]) with (ky * ch) by (unfold prod; cbn [fold_right]; lia). replace (prod [ch]) with ch by (unfold prod; cbn [fold_right]; lia).
  unfold pos4 at 1. rewrite mirror_at by nia. rewrite nth_tab.
  - replace (o * (kx * (ky * ch)) + ((kx - 1 - i) * (ky * ch) + (j * ch + q))) with ((o * kx + (kx - 1 - i)) * (ky * ch) + (j * ch + q)) by ring.
    rewrite mirror_at by assumption. unfold at1. f_equal. ring.
  - change (pos4 kx ky ch o (kx - 1 - i) j q < prod [out; kx; ky; ch]). apply pos4_lt; lia.
Qed.

Lemma v_spread dbg kx ky sx sy v x y bs r c ch i :
  forward1 dbg (Spread kx ky sx sy v) x y -> wf x -> ashape x = [bs; r; c; ch] -> 1 <= kx -> 1 <= ky -> 1 <= sx -> 1 <= sy -> i < bs ->
  let mx := if v then kx - 1 else 0 in let my := if v then ky - 1 else 0 in
  let r1 := r * sx + 2 * mx in let c1 := c * sy + 2 * my in
  ashape y = [bs; r1; c1; ch] /\ wf y /\ part (prod [r1; c1; ch]) i (adata y) = apart r c ch sx sy mx my r1 c1 (part (prod [r; c; ch]) i (adata x)).
Proof.
  intros F W E K1 K2 S1 S2 Hi mx my r1 c1. cbn [forward1] in F. destruct (spread_fwd_ok 0%R dbg kx ky sx sy v x bs r c ch W E) as (d & H & L & Hin & Hout); [lia|lia|lia|].
  assert (Er : spread_extent r kx sx v = r1) by (unfold spread_extent, r1, mx; destruct v; lia). assert (Ec : spread_extent c ky sy v = c1) by (unfold spread_extent, c1, my; destruct v; lia).
  rewrite Er, Ec in *. fold mx my in Hin, Hout. rewrite H in F. injection F as <-. cbn [ashape adata]. split; [reflexivity|]. split; [exact L|]. unfold apart.
  apply (part_image bs); [assumption|assumption|]. intros Y Z q HY HZ Hq. apply nth_error_nth.
  destruct ((mx <=? Y) && ((Y - mx) mod sx =? 0) && ((Y - mx) / sx <? r) && (my <=? Z) && ((Z - my) mod sy =? 0) && ((Z - my) / sy <? c)) eqn:B.
  - rewrite !andb_true_iff, !Nat.leb_le, !Nat.eqb_eq, !Nat.ltb_lt in B. destruct B as (((((B1 & B2) & B3) & B4) & B5) & B6).
    destruct (Hin i ((Y - mx) / sx) ((Z - my) / sy) q Hi B3 B6 Hq) as (_ & _ & G).
    assert (EY : mx + (Y - mx) / sx * sx = Y) by (pose proof (Nat.div_mod (Y - mx) sx ltac:(lia)); lia).
    assert (EZ : my + (Z - my) / sy * sy = Z) by (pose proof (Nat.div_mod (Z - my) sy ltac:(lia)); lia).
    rewrite EY, EZ in G. rewrite G, at3_part by assumption. apply nth_error_of_nth. rewrite (wf_image _ _ _ _ _ W E). now apply pos4_lt.
  - apply Hout; try assumption. intros (y0 & z0 & Hy & Hz & -> & ->). apply not_true_iff_false in B. apply B.
    replace (mx + y0 * sx - mx) with (y0 * sx) by lia. replace (my + z0 * sy - my) with (z0 * sy) by lia. rewrite !Nat.mod_mul, !Nat.div_mul by lia.
    rewrite !andb_true_iff, !Nat.leb_le, !Nat.eqb_eq, !Nat.ltb_lt. intuition lia.
Qed.
