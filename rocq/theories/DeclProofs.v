(** Announced shapes: the shape each forward action gives its result. *)
From Coq Require Import List Arith Lia Bool PeanoNat NArith ZArith Reals.
From Verif Require Import ListBase Loops TensorModel TensorProofs TensorProofs2 ArrayModel ArrayProofs LayerModel LayerProofs LayerProofs2 ConvProofs
  GraphModel OpModel LossModel ArgModel BcastOpModel ConcatModel DeclModel DeclSpec.
Import ListNotations.
Local Open Scope nat_scope.

Lemma check_ok {T} dbg b (k : outcome T) v : check dbg b k = Ok v -> k = Ok v.
Proof. unfold check. destruct b; [auto|]. destruct dbg; [discriminate|auto]. Qed.

Lemma obind_inv {S T} (m : outcome S) (f : S -> outcome T) v : obind m f = Ok v -> exists u, m = Ok u /\ f u = Ok v.
Proof. destruct m; try discriminate. eauto. Qed.

Lemma with4_inv {T} dbg (x : arr R) (f : nat -> nat -> nat -> nat -> outcome T) v : with4 dbg x f = Ok v ->
  exists n r c k, ashape x = [n; r; c; k] /\ f n r c k = Ok v.
Proof.
  unfold with4. intros E. apply check_ok in E. destruct (ashape x) as [|n [|r [|c [|k [|]]]]]; try discriminate.
  destruct (_ <=? _); [|discriminate]. eauto 8.
Qed.

Lemma fill_inv (cache : list R) s ws d y : fill cache s ws = Ok (d, y) -> y = Arr s d /\ length d = length cache.
Proof. unfold fill. destruct (in_bounds _ _); [|discriminate]. intros E. injection E as <- <-. split; [reflexivity|]. now rewrite writes_length. Qed.

Lemma reshaped_length (z : R) d s : length (reshaped z d s) = prod s.
Proof. unfold reshaped. destruct (Nat.eqb_spec (length d) (prod s)); [assumption|apply repeat_length]. Qed.

Lemma softmax_row_length eps row : length (softmax_row eps row) = length row.
Proof. unfold softmax_row. now rewrite !map_length. Qed.

Lemma flat_map_len {B} (g : nat -> list B) m : forall n s, (forall i, s <= i < s + n -> length (g i) = m) -> length (flat_map g (seq s n)) = n * m.
Proof.
  induction n; intros s E; [reflexivity|]. cbn [seq flat_map]. rewrite app_length, E, IHn by (intros; try apply E; lia). lia.
Qed.

Lemma softmax_shape dbg eps x y : softmax dbg eps x = Ok y -> ashape y = ashape x /\ length (adata y) = length (adata x).
Proof.
  unfold softmax. intros E. apply check_ok in E. destruct (rev (ashape x)) as [|d t]; [discriminate|]. destruct (Nat.eqb_spec d 0); [discriminate|].
  injection E as <-. split; [reflexivity|]. cbn [adata]. rewrite app_length, skipn_length.
  pose proof (Nat.div_mod (length (adata x)) d n). rewrite (flat_map_len _ d).
  - nia.
  - intros i Hi. rewrite softmax_row_length. unfold slice. rewrite firstn_length, skipn_length. nia.
Qed.

Lemma flip_via_shape (src dst : list R) s r c ch ax o : flip_via 0%R src dst s r c ch ax = Ok o -> ashape (snd o) = s /\ length (adata (snd o)) = prod s.
Proof.
  unfold flip_via. intros E. apply obind_inv in E. destruct E as (d & _ & E). injection E as <-. cbn. split; [reflexivity|apply reshaped_length].
Qed.

Lemma flip_3D_length (src : list R) r c ch ax dst d : flip_3D 0%R src r c ch ax dst = Ok d -> length d = length dst.
Proof. unfold flip_3D. destruct (_ && _); [|discriminate]. intros E. injection E as <-. now rewrite writes_length. Qed.

Lemma flip_shape dbg x ax o : flip 0%R dbg x ax = Ok o -> length (adata x) <> 0 -> ashape (snd o) = ashape x /\ length (adata (snd o)) = prod (ashape x).
Proof.
  unfold flip. intros E Hd. destruct (Nat.eqb_spec (length (adata x)) 0); [contradiction|]. apply check_ok in E. apply check_ok in E.
  destruct (ashape x) as [|a [|b [|c [|d t]]]] eqn:Es.
  - discriminate.
  - apply obind_inv in E. destruct E as (d & E1 & E). injection E as <-. cbn [snd ashape adata]. split; [reflexivity|].
    unfold flip_1D in E1. destruct (_ <=? _); [|discriminate]. injection E1 as <-. now rewrite writes_length, repeat_length.
  - now apply flip_via_shape in E.
  - apply obind_inv in E. destruct E as (d & E1 & E). injection E as <-. cbn [snd ashape adata]. split; [reflexivity|].
    apply flip_3D_length in E1. now rewrite E1, repeat_length.
  - destruct (_ || _); now apply flip_via_shape in E.
Qed.

(** the shape a forward action gives its result, in unbounded numbers *)
Definition gives1 (dbg : bool) (o : op1) (s t : list nat) : Prop :=
  match o with
  | Map _ | Softmax => t = s
  | Flip _ => prod s <> 0 -> t = s
  | SumAll | MeanAll => t = [1]
  | Reshape new false => t = new
  | Reshape new true => prod new <> 0 /\ t = prod s / prod new :: new
  | Flatten => exists b r, s = b :: r /\ b <> 0 /\ t = [b; prod r]
  | ExpandDims a => let ax := match a with Some a => a | None => length s end in ax <= length s /\ t = firstn ax s ++ 1 :: skipn ax s
  | Squeeze None => prod s <> 0 -> t = match filter (fun n => negb (n =? 1)) s with [] => [1] | u => u end
  | Squeeze (Some a) | Argmax a => a < length s /\ t = firstn a s ++ skipn (S a) s
  | Transpose => exists r c u, s = r :: c :: u /\ (dbg = true -> u = []) /\ t = [c; r]
  | Img2col a => exists bs r c ch orow ocol, s = [bs; r; c; ch] /\ conv_extent r (prow a) (krow a) (srow a) (drow a) = Some orow /\
      conv_extent c (pcol a) (kcol a) (scol a) (dcol a) = Some ocol /\ t = [krow a * kcol a * ch; bs * orow * ocol]
  | MaxPool n | AvgPool n => n <> 0 /\ exists bs r c ch, s = [bs; r; c; ch] /\ t = [bs; r / n; c / n; ch]
  | UpSample n => exists bs r c ch, s = [bs; r; c; ch] /\ t = [bs; r * n; c * n; ch]
  | Pad a b l r => exists bs row col ch, s = [bs; row; col; ch] /\ t = [bs; a + row + b; l + col + r; ch]
  | Crop a b l r => exists bs row col ch, s = [bs; row; col; ch] /\ a + b <= row /\ l + r <= col /\ t = [bs; row - a - b; col - l - r; ch]
  | Repeat n a => n = 1 /\ t = s \/ s <> [] /\ let ax := match a with Some a => Nat.min a (length s - 1) | None => length s - 1 end in t = upd s ax (nth ax s 0 * n)
  | Reduce _ a => s <> [] /\ let ax := Nat.min (match a with Some a => a | None => length s end) (length s - 1) in t = firstn ax s ++ skipn (S ax) s
  | Spread rk ck rs cs v => exists bs r c ch, s = [bs; r; c; ch] /\ t = [bs; spread_extent r rk rs v; spread_extent c ck cs v; ch]
  | Broadcast new => t = new
  end.

Lemma squeeze_filter s : prod s <> 0 -> filter (fun n => 1 <? n) s = filter (fun n => negb (n =? 1)) s.
Proof.
  induction s as [|n s IH]; intros H; [reflexivity|]. rewrite prod_cons in H. cbn [filter]. rewrite IH by (intros E; rewrite E in H; lia).
  destruct n as [|[|]]; [lia|reflexivity|reflexivity].
Qed.

Lemma prod_one_filter s : prod s = 1 -> filter (fun n => negb (n =? 1)) s = [].
Proof.
  induction s as [|n s IH]; intros H; [reflexivity|]. rewrite prod_cons in H. apply Nat.eq_mul_1 in H. destruct H as [-> H]. cbn. auto.
Qed.

Lemma filter_prod s : prod (filter (fun n => negb (n =? 1)) s) = prod s.
Proof. induction s as [|n s IH]; [reflexivity|]. cbn [filter]. destruct (Nat.eqb_spec n 1); cbn [negb]; rewrite !prod_cons, ?IH; nia. Qed.

Lemma tab2_len {A} m n (f : nat -> nat -> A) : length (tab2 m n f) = m * n. Proof. apply tab2_length. Qed.

Ltac inv4 E := apply with4_inv in E; destruct E as (n0 & r0 & c0 & k0 & Es & E).

Lemma forward1_gives dbg o x y : forward1 dbg o x y -> wf x -> right1 o (ashape x) -> wf y /\ gives1 dbg o (ashape x) (ashape y).
Proof.
  intros F W Rt. unfold wf in *. destruct o; cbn [forward1 gives1] in *.
  - subst y. cbn. now rewrite map_length.
  - destruct F as [eps E]. apply softmax_shape in E. destruct E as [-> ->]. auto.
  - destruct F as [src E]. cbn [right1] in Rt. apply flip_shape in E; [|congruence]. cbn [snd] in E. destruct E as [-> ->]. auto.
  - injection F as E1 E2. rewrite <- E1, <- E2. auto.
  - injection F as E1 E2. rewrite <- E1, <- E2. auto.
  - unfold reshape_op in F. destruct (Nat.eqb_spec (prod new_shape) 0); [discriminate|]. apply check_ok in F. destruct batch.
    + injection F as <-. cbn [ashape adata]. rewrite reshaped_length, W. auto.
    + apply check_ok in F. destruct new_shape; [discriminate|]. injection F as <-. cbn [ashape adata]. rewrite reshaped_length. auto.
  - unfold flatten_op in F. apply check_ok in F. destruct (ashape x) as [|b r] eqn:Es; [discriminate|]. destruct (Nat.eqb_spec b 0); [discriminate|].
    injection F as <-. cbn [ashape adata]. rewrite reshaped_length. split; [reflexivity|]. exists b, r. split; [reflexivity|]. split; [assumption|].
    rewrite W, prod_cons, (Nat.mul_comm b), Nat.div_mul by assumption. reflexivity.
  - unfold expand_dims_op in F. cbv zeta in F |- *. destruct (Nat.ltb_spec (length (ashape x)) (match axis with Some a => a | None => length (ashape x) end)); [discriminate|].
    injection F as <-. cbn [ashape adata]. rewrite reshaped_length. auto.
  - unfold squeeze_op in F. destruct axis as [ax|].
    + apply check_ok in F. destruct (Nat.leb_spec (length (ashape x)) ax); [discriminate|]. apply check_ok in F.
      destruct (firstn ax (ashape x) ++ skipn (S ax) (ashape x)) eqn:E; [discriminate|]. injection F as <-. cbn [ashape adata]. rewrite reshaped_length. auto.
    + cbn [right1] in Rt. destruct (Nat.eqb_spec (length (adata x)) 0); [congruence|]. destruct (Nat.eqb_spec (length (adata x)) 1) as [E1|].
      * injection F as <-. cbn [ashape adata]. split; [exact E1|]. intros _. rewrite prod_one_filter by congruence. reflexivity.
      * rewrite squeeze_filter in F by assumption. destruct (filter (fun n => negb (n =? 1)) (ashape x)) eqn:E; [discriminate|]. injection F as <-.
        cbn [ashape adata]. rewrite reshaped_length. auto.
  - unfold argmax_fwd in F. apply check_ok in F. destruct (Nat.leb_spec (length (ashape x)) axis); [discriminate|].
    cbv zeta in F. destruct (Nat.eqb_spec (prod (firstn axis (ashape x)) * prod (skipn (S axis) (ashape x))) 0) as [Z|_].
    + injection F as <-. unfold without. cbn [ashape adata length]. rewrite prod_app. auto.
    + destruct (_ || _); [discriminate|]. injection F as <-. unfold without, loop2. cbn [ashape adata]. rewrite prod_app, tab2_len. auto.
  - destruct F as (cache & cache' & F). unfold transpose_op in F.
    assert (D : dbg = true -> length (ashape x) = 2) by (intros ->; unfold check in F; destruct (Nat.eqb_spec (length (ashape x)) 2); [assumption|discriminate]).
    apply check_ok in F. destruct (ashape x) as [|r [|c u]]; try discriminate.
    destruct (_ <=? _); [|discriminate]. apply fill_inv in F. destruct F as [-> L]. cbn [ashape adata]. rewrite L, resized_length.
    split; [rewrite !prod_cons; cbn; lia|]. exists r, c, u. split; [reflexivity|]. split; [|reflexivity]. intros Hd. specialize (D Hd). destruct u; [reflexivity|discriminate].
  - destruct F as (t & t' & F). unfold img2col_fwd in F. inv4 F.
    destruct (conv_extent r0 _ _ _ _) as [orow|] eqn:Er; [|discriminate]. destruct (conv_extent c0 _ _ _ _) as [ocol|] eqn:Ec; [|discriminate].
    cbv zeta in F. destruct (forallb _ _); [|discriminate]. injection F as _ <-. cbn [ashape adata]. rewrite map_length.
    split; [|rewrite Es; eauto 12]. destruct (Nat.eqb_spec (length t) (krow a * kcol a * k0 * (n0 * orow * ocol))) as [E|_].
    + rewrite E, !prod_cons. cbn. lia.
    + rewrite index_table_length, !prod_cons. cbn. lia.
  - destruct F as (st & st' & F). unfold max_fwd in F. inv4 F. destruct (Nat.eqb_spec stride 0); [discriminate|]. injection F as _ <-.
    cbn [ashape adata]. rewrite writes_length, resized_length. split; [reflexivity|]. rewrite Es. eauto 10.
  - unfold avg_fwd in F. inv4 F. destruct (Nat.eqb_spec stride 0); [discriminate|]. injection F as <-.
    cbn [ashape adata]. rewrite accumulate_length, repeat_length. split; [reflexivity|]. rewrite Es. eauto 10.
  - unfold up_fwd in F. inv4 F. apply obind_inv in F. destruct F as ([d y'] & F & E). injection E as <-. apply fill_inv in F. destruct F as [-> L].
    cbn [snd ashape adata]. rewrite L, repeat_length. split; [reflexivity|]. rewrite Es. eauto 10.
  - destruct F as (cache & cache' & F). unfold pad_fwd in F. inv4 F. apply fill_inv in F. destruct F as [-> L].
    cbn [ashape adata]. rewrite L, resized_length. split; [reflexivity|]. rewrite Es. eauto 10.
  - destruct F as (cache & cache' & F). unfold crop_fwd in F. inv4 F. destruct (Nat.ltb_spec r0 (top + bottom)); [discriminate|].
    destruct (Nat.ltb_spec c0 (left + right)); [discriminate|]. cbn [orb] in F. apply check_ok in F. apply check_ok in F. apply fill_inv in F. destruct F as [-> L].
    cbn [ashape adata]. rewrite L, resized_length. split; [reflexivity|]. rewrite Es. exists n0, r0, c0, k0. auto.
  - destruct F as (cache & cache' & F). unfold repeat_fwd in F. destruct (Nat.eqb_spec repeats 1) as [->|].
    + injection F as _ <-. auto.
    + cbv zeta in F. destruct (ashape x) as [|a s] eqn:Es; [discriminate|]. rewrite <- Es in *. destruct (_ <=? _); [|discriminate].
      apply fill_inv in F. destruct F as [-> L]. cbn [ashape adata]. rewrite L, resized_length. split; [reflexivity|]. right. split; [congruence|reflexivity].
  - cbv zeta in F. set (ax := match axis with Some a => a | None => length (ashape x) end) in *.
    assert (G : ashape x <> [] /\ exists d, length d = prod (firstn (Nat.min ax (length (ashape x) - 1)) (ashape x)) * prod (skipn (S (Nat.min ax (length (ashape x) - 1))) (ashape x)) /\
                y = Arr (firstn (Nat.min ax (length (ashape x) - 1)) (ashape x) ++ skipn (S (Nat.min ax (length (ashape x) - 1))) (ashape x)) d).
    { destruct y as [ys yd]. unfold unew, op_reduce_sum, op_reduce_max, op_reduce_min, op_reduce_by, axis_parts, OpModel.pick_axis in F.
      destruct r; cbn [fst snd ashape adata] in F; destruct (ashape x) as [|a s] eqn:Es; try discriminate; rewrite <- Es in *.
      1,2: destruct (_ =? 0); [discriminate|].
      all: injection F as E1 E2; split; [congruence|]; exists yd; rewrite <- E2, <- E1; split; [apply tab2_len|reflexivity]. }
    destruct G as [G (d & Ld & ->)]. cbn [ashape adata]. rewrite prod_app. auto.
  - unfold spread_fwd in F. inv4 F. apply obind_inv in F. destruct F as ([d y'] & F & E). injection E as <-. apply fill_inv in F. destruct F as [-> L].
    cbn [snd ashape adata]. rewrite L, repeat_length. split; [reflexivity|]. rewrite Es. eauto 10.
  - destruct F as (cache & cache' & F). unfold bc_fwd in F. apply check_ok in F. destruct (list_eqb_spec new_shape (ashape x)) as [->|].
    + injection F as _ <-. auto.
    + cbv zeta in F. destruct (_ =? 0); [discriminate|]. apply fill_inv in F. destruct F as [-> L]. cbn [ashape adata]. now rewrite L, resized_length.
Qed.

(** ** Two operands *)
Lemma bind_inv {S T} (m : M (A:=R) S) (f : S -> M T) h v h' : bind m f h = Ok (v, h') -> exists u h1, m h = Ok (u, h1) /\ f u h1 = Ok (v, h').
Proof. unfold bind. destruct (m h) as [[u h1]| |]; try discriminate. eauto. Qed.

Lemma upd_len {B} (l : list B) n v : length (upd l n v) = length l. Proof. apply upd_length. Qed.

Lemma broadcast_loop_inv dbg S : forall fuel t (h : heap) t' h' d, broadcast_loop 0%R dbg fuel t S h = Ok (t', h') ->
  nth_error h (ref t) = Some d -> length d = prod (shape t) ->
  shape t' = S /\ exists ext d', h' = h ++ ext /\ nth_error h' (ref t') = Some d' /\ length d' = prod S.
Proof.
  induction fuel as [|fuel IH]; intros t h t' h' d E Hd L; [discriminate|]. cbn [broadcast_loop] in E.
  destruct (list_eqb_spec (shape t) S) as [Es|_].
  { injection E as <- <-. split; [exact Es|]. exists [], d. rewrite app_nil_r. rewrite <- Es. auto. }
  cbv zeta in E. set (u := repeat 1 (length S - length (shape t)) ++ shape t) in *.
  assert (Pu : length d = prod u).
  { unfold u. rewrite prod_app, L. assert (P1 : forall k, prod (repeat 1 k) = 1) by (induction k; [reflexivity|]; cbn [repeat]; rewrite prod_cons, IHk; reflexivity). rewrite P1. lia. }
  apply bind_inv in E. destruct E as (t1 & h1 & E1 & E).
  assert (G : h1 = h /\ shape t1 = u /\ ref t1 = ref t).
  { destruct (Nat.ltb_spec (length (shape t)) (length S)) as [H|H].
    - rewrite (reshape_same 0%R t u h d) in E1; [injection E1 as <- <-; auto| |exact Hd|exact Pu].
      intros Z. apply (f_equal (@length nat)) in Z. unfold u in Z. rewrite app_length, repeat_length in Z. cbn in Z. lia.
    - injection E1 as <- <-. split; [reflexivity|]. split; [|reflexivity]. unfold u. replace (length S - length (shape t)) with 0 by lia. reflexivity. }
  destruct G as (-> & G1 & G2). destruct (list_eqb_spec u S) as [Eu|_].
  { injection E as <- <-. rewrite G1, G2. split; [exact Eu|]. exists [], d. rewrite app_nil_r, <- Eu. auto. }
  destruct (length S <? length u); [discriminate|]. destruct (last_diff u S) as [k|]; [|discriminate].
  apply bind_inv in E. destruct E as ([] & h2 & E2 & E). assert (h2 = h).
  { unfold better_assert in E2. destruct (_ =? _); [now injection E2|]. destruct dbg; [discriminate|now injection E2]. }
  subst h2. unfold bind at 1 in E. unfold data in E. rewrite G2, Hd in E. destruct (_ && _); [|discriminate].
  apply bind_inv in E. destruct E as (d1 & h3 & E3 & E). unfold copy_front in E3.
  destruct (Nat.leb_spec (length (stretch 0%R (prod (firstn k u)) (nth k S 0) (prod (skipn k u)) d)) (length (zeros 0%R (prod (upd u k (nth k S 0)))))) as [Lc|]; [|discriminate].
  injection E3 as E3 <-. assert (Ld : length d1 = prod (upd u k (nth k S 0))).
  { rewrite <- E3, app_length, skipn_length. unfold zeros in *. rewrite repeat_length in *. lia. }
  clear E3. unfold bind at 1 in E. unfold alloc in E. apply bind_inv in E. destruct E as (t4 & h4 & E4 & E).
  destruct (upd u k (nth k S 0)) as [|a0 u0] eqn:Ex.
  { unfold reshape, reshape_req in E4. apply bind_inv in E4. destruct E4 as (? & ? & _ & E4). discriminate E4. }
  rewrite (reshape_same 0%R _ _ _ d1) in E4; [|discriminate|cbn [ref]; apply nth_error_alloc|exact Ld]. injection E4 as <- <-.
  apply (IH _ _ _ _ d1) in E; [|cbn [ref]; apply nth_error_alloc|exact Ld]. destruct E as (E5 & ext & d' & -> & E6 & E7).
  split; [exact E5|]. exists ([d1] ++ ext), d'. rewrite app_assoc. auto.
Qed.

Lemma map2_len (f : R -> R -> R) l r : length l <= length r -> length (map2 f l r) = length l.
Proof. intros. rewrite map2_length. lia. Qed.

Lemma zip_broadcast_inv dbg f tx ty (h : heap) dx dy t h' dz :
  nth_error h (ref tx) = Some dx -> length dx = prod (shape tx) -> nth_error h (ref ty) = Some dy -> length dy = prod (shape ty) ->
  zip_broadcast 0%R dbg f tx ty h = Ok (t, h') -> nth_error h' (ref t) = Some dz ->
  broadcast_shape dbg (shape tx) (shape ty) = Ok (shape t) /\ length dz = prod (shape t).
Proof.
  intros Hx Lx Hy Ly E Hz. unfold zip_broadcast in E. apply bind_inv in E. destruct E as (s & h1 & E1 & E).
  unfold lift in E1. destruct (broadcast_shape _ _ _) as [s'| |] eqn:Eb; try discriminate. injection E1 as -> ->.
  apply bind_inv in E. destruct E as (tl & h2 & E2 & E). apply (broadcast_loop_inv _ _ _ _ _ _ _ dx) in E2; [|assumption..].
  destruct E2 as (S2 & e2 & d2 & -> & N2 & L2). apply bind_inv in E. destruct E as (tr & h3 & E3 & E).
  apply (broadcast_loop_inv _ _ _ _ _ _ _ dy) in E3; [|now apply nth_error_ext|assumption].
  destruct E3 as (S3 & e3 & d3 & -> & N3 & L3).
  unfold bind at 1, data in E. rewrite (nth_error_ext _ _ _ _ N2) in E. unfold bind at 1 in E. rewrite N3 in E.
  destruct (Nat.leb_spec (length d2) (length d3)); [|discriminate]. unfold bind, store, ret in E.
  injection E as <- <-. rewrite S2. split; [reflexivity|].
  rewrite nth_error_upd_same in Hz.
  - injection Hz as <-. rewrite map2_len; lia.
  - apply nth_error_Some. rewrite (nth_error_ext _ _ _ _ N2). discriminate.
Qed.

Lemma product_loop_length (l r : list R) q : length (product_loop 0%R Rmult l r q) = length l.
Proof.
  unfold product_loop. assert (G : forall u i a, length (fold_left (fun acc jdx => upd acc (i * length r + jdx) (nth (i * length r + jdx) acc 0 * nth jdx r 0)%R) u a) = length a).
  { induction u; intros; [reflexivity|]. cbn [fold_left]. now rewrite IHu, upd_length. }
  generalize (seq 0 q). intros u. revert l. induction u; intros; [reflexivity|]. cbn [fold_left]. now rewrite IHu, G.
Qed.

Lemma product_ordered_inv dbg lhs rhs (h : heap) dl t h' : nth_error h (ref lhs) = Some dl -> length dl = prod (shape lhs) ->
  elementwise_product_ordered 0%R dbg Rmult lhs rhs h = Ok (t, h') -> shape t = shape lhs /\ exists d, nth_error h' (ref t) = Some d /\ length d = prod (shape lhs).
Proof.
  intros Hl L E. unfold elementwise_product_ordered in E. apply bind_inv in E. destruct E as (l1 & h1 & E1 & E). unfold data in E1. rewrite Hl in E1. injection E1 as <- <-.
  apply bind_inv in E. destruct E as (r1 & h1 & E1 & E). unfold data in E1. destruct (nth_error h (ref rhs)); [|discriminate]. injection E1 as <- <-.
  destruct (_ =? 0); [discriminate|]. cbv zeta in E. apply bind_inv in E. destruct E as ([] & h2 & E2 & E). assert (h2 = h).
  { unfold better_assert in E2. destruct (_ =? _); [now injection E2|]. destruct dbg; [discriminate|now injection E2]. }
  subst h2. rewrite (bind_ok _ _ _ _ _ (deep_copy_ok 0%R lhs h dl Hl L)) in E.
  apply bind_inv in E. destruct E as (a & h3 & E3 & E). unfold data in E3. cbn [ref] in E3. rewrite nth_error_alloc in E3. injection E3 as <- <-.
  apply bind_inv in E. destruct E as (r' & h4 & E4 & E). unfold data in E4. destruct (nth_error (h ++ _) _); [|discriminate]. injection E4 as <- <-.
  unfold bind, store, ret in E. injection E as <- <-. split; [reflexivity|]. cbn [ref]. eexists. split; [apply nth_error_upd_same; rewrite app_length; cbn; lia|].
  now rewrite product_loop_length.
Qed.

Lemma gemm_length (a b : list R) m n k c0 c : gemm_cpu 0%R Rplus Rmult a false b false m n k c0 = Some c -> length c = length c0.
Proof.
  unfold gemm_cpu. destruct (Nat.leb_spec (m * k) (length c0)) as [H|]; [|discriminate].
  set (c1 := zeros 0%R (m * k) ++ skipn (m * k) c0). assert (L1 : length c1 = length c0) by (unfold c1, zeros; rewrite app_length, repeat_length, skipn_length; lia).
  rewrite <- L1. generalize c1. clear c1 L1.
  assert (G0 : forall u r i c1 c, fold_left (fun c col => gemm_step Rplus Rmult a b false false m n k c r i col) u c1 = Some c ->
               exists c0, c1 = Some c0 /\ length c = length c0).
  { induction u as [|j u IH]; intros r i c1 c2 E; cbn [fold_left] in E; [subst; eauto|]. apply IH in E. destruct E as (c3 & E & L).
    unfold gemm_step in E. destruct c1 as [c1|]; [|discriminate]. destruct (nth_error a _); [|discriminate]. destruct (nth_error b _); [|discriminate].
    destruct (nth_error c1 _); [|discriminate]. injection E as <-. rewrite upd_length in L. eauto. }
  assert (G1 : forall u r c1 c, fold_left (fun c i => fold_left (fun c col => gemm_step Rplus Rmult a b false false m n k c r i col) (seq 0 k) c) u c1 = Some c ->
               exists c0, c1 = Some c0 /\ length c = length c0).
  { induction u as [|j u IH]; intros r c1 c2 E; cbn [fold_left] in E; [subst; eauto|]. apply IH in E. destruct E as (c3 & E & L).
    apply G0 in E. destruct E as (c4 & -> & L4). eauto using eq_trans. }
  assert (G2 : forall u c1 c, fold_left (fun c r => fold_left (fun c i => fold_left (fun c col => gemm_step Rplus Rmult a b false false m n k c r i col) (seq 0 k) c) (seq 0 n) c) u c1 = Some c ->
               exists c0, c1 = Some c0 /\ length c = length c0).
  { induction u as [|j u IH]; intros c1 c2 E; cbn [fold_left] in E; [subst; eauto|]. apply IH in E. destruct E as (c3 & E & L).
    apply G1 in E. destruct E as (c4 & -> & L4). eauto using eq_trans. }
  intros c1 E. apply G2 in E. destruct E as (c2 & [= <-] & L). exact L.
Qed.

Definition gives2 (dbg : bool) (o : op2) (l r t : list nat) : Prop :=
  match o with
  | Plus => broadcast_shape dbg l r = Ok t
  | Product => t = if prod l <? prod r then r else l
  | Matmul => exists a b d, l = [a; b] /\ r = [b; d] /\ t = [a; d]
  | Concat axis => let ax := ArrayModel.pick_axis axis (length l) in length l = length r /\ ax < length l /\ t = upd l ax (nth ax l 0 + nth ax r 0)
  | Maximum | Minimum | Atan2 => l = r /\ t = l
  | CrossEntropy _ => t = [1]
  end.

Lemma ew2_gives f (x y : arr R) s d : ew2 f (ashape x, adata x) (ashape y, adata y) = Some (s, d) -> wf x -> wf y ->
  length d = prod s /\ ashape x = ashape y /\ s = ashape x.
Proof.
  unfold ew2, wf. cbn [fst snd]. destruct (list_eqb_spec (ashape x) (ashape y)) as [E|]; [|discriminate]. intros [= <- <-] Wx Wy.
  rewrite map2_len by (rewrite Wx, Wy, E; lia). auto.
Qed.

Lemma flat_slices (l r : list R) a b : forall n s, (s + n) * a <= length l -> (s + n) * b <= length r ->
  length (flat_map (fun i => ArrayModel.slice l (a * i) a ++ ArrayModel.slice r (b * i) b) (seq s n)) = n * (a + b).
Proof.
  intros n s Ha Hb. apply flat_map_len. intros i Hi. unfold ArrayModel.slice. rewrite app_length, !firstn_length, !skipn_length. nia.
Qed.

Lemma forward2_gives dbg o x y z : forward2 dbg o x y z -> wf x -> wf y -> wf z /\ gives2 dbg o (ashape x) (ashape y) (ashape z).
Proof.
  intros F Wx Wy. destruct o; cbn [forward2 gives2] in *.
  - destruct F as (h & tx & ty & t & h' & Sx & Sy & Hx & Hy & E & St & Hz).
    unfold wf in *. rewrite <- Sx in *. rewrite <- Sy in *. rewrite <- St.
    destruct (zip_broadcast_inv _ _ _ _ _ _ _ _ _ _ Hx Wx Hy Wy E Hz). auto.
  - unfold bnew, op_product, product_val, pure2, elementwise_product in F. cbn [fst snd] in F. unfold bind at 1 2, data in F. cbn [nth_error ref] in F.
    rewrite Wx, Wy in F. destruct (prod (ashape x) <? prod (ashape y)).
    + destruct (elementwise_product_ordered _ _ _ _ _ _) as [[t h]| |] eqn:E; try discriminate. injection F as E1 E2.
      apply (product_ordered_inv _ _ _ _ (adata y)) in E; [|reflexivity|exact Wy]. destruct E as (E & d & Ed & Ld). unfold wf. rewrite <- E1, <- E2, E. rewrite (nth_error_nth _ _ _ Ed). auto.
    + destruct (elementwise_product_ordered _ _ _ _ _ _) as [[t h]| |] eqn:E; try discriminate. injection F as E1 E2.
      apply (product_ordered_inv _ _ _ _ (adata x)) in E; [|reflexivity|exact Wx]. destruct E as (E & d & Ed & Ld). unfold wf. rewrite <- E1, <- E2, E. rewrite (nth_error_nth _ _ _ Ed). auto.
  - unfold bnew, op_matmul in F. cbn [fst snd] in F. destruct (ashape x) as [|m [|n [|]]] eqn:Sx; try discriminate. destruct (ashape y) as [|n' [|k [|]]] eqn:Sy; try discriminate.
    unfold pure2 in F. destruct (multiply _ _ _ _ _ _ _) as [[t h]| |] eqn:E; try discriminate. injection F as E1 E2.
    unfold multiply in E. unfold bind at 1, new_empty, alloc in E. cbn [fst snd shape ref app length Nat.eqb] in E.
    unfold bind at 1, data at 1 in E. cbn [nth_error ref] in E. unfold bind at 1, ret at 1 in E. unfold bind at 1, data at 1 in E. cbn [nth_error ref] in E.
    unfold bind at 1, ret at 1 in E. cbn [shape length] in E. unfold bind at 1, better_assert at 1 in E. cbn [Nat.eqb] in E.
    apply bind_inv in E. destruct E as (a & h1 & E3 & E). unfold resize in E3. unfold bind at 1, data in E3. cbn [nth_error ref length Nat.eqb] in E3.
    assert (G : a = mkT [m; k] 2 /\ h1 = [adata x; adata y; repeat 0%R (prod [m; k])]).
    { destruct (prod [m; k]) as [|p]; cbn [Nat.eqb] in E3.
      - injection E3 as <- <-. auto.
      - unfold bind, store, ret in E3. injection E3 as <- <-. auto. }
    destruct G as [-> ->]. clear E3. apply bind_inv in E. destruct E as ([] & h2 & E3 & E). unfold better_assert in E3.
    destruct (Nat.eqb_spec n n') as [<-|]; [|discriminate]. injection E3 as <-.
    unfold bind at 1, data at 1 in E. cbn [nth_error ref] in E. unfold bind at 1, data at 1 in E. cbn [nth_error ref] in E. unfold bind at 1, data at 1 in E. cbn [nth_error ref] in E.
    destruct (gemm_cpu _ _ _ _ _ _ _ _ _ _ _) as [c|] eqn:Ec; [|discriminate]. apply gemm_length in Ec. unfold bind, store, ret in E. injection E as <- <-.
    unfold wf. rewrite <- E1, <- E2. cbn [shape ref upd nth]. split; [rewrite Ec; apply repeat_length|eauto 8].
  - unfold concatenate in F. destruct (Nat.eqb_spec (length (ashape x)) (length (ashape y))) as [El|]; [|discriminate]. cbn [negb] in F. cbv zeta in F |- *.
    apply check_ok in F. set (ax := ArrayModel.pick_axis axis (length (ashape x))) in *. destruct (Nat.leb_spec (length (ashape x)) ax); [discriminate|].
    apply check_ok in F. apply check_ok in F. set (s := upd (ashape x) ax _) in *. destruct (_ && _) eqn:C; [|discriminate].
    apply andb_true_iff in C. destruct C as [C C3]. apply andb_true_iff in C. destruct C as [C1 C2]. apply Nat.leb_le in C1, C2, C3.
    injection F as <-. unfold wf. cbn [ashape adata]. rewrite app_length, repeat_length.
    pose proof (flat_slices _ _ _ _ _ 0 C1 C2) as Q. split; [|auto]. match goal with |- ?a + _ = _ => transitivity (a + (prod s - a)); [f_equal; f_equal; symmetry; exact Q|] end.
    rewrite Nat.add_comm, Nat.sub_add; [reflexivity|]. etransitivity; [|exact C3]. apply Nat.eq_le_incl. exact Q.
  - unfold bnew, op_maximum in F. apply ew2_gives in F; auto.
  - unfold bnew, op_minimum in F. apply ew2_gives in F; auto.
  - unfold bnew, op_atan2 in F. apply ew2_gives in F; auto.
  - destruct F as (eps & F). unfold bnew, op_cross_entropy, xent_forward in F. cbn [fst snd] in F.
    destruct (softmax_of _ _ _); [|discriminate]. destruct (ashape x) as [|d0 t0]; [discriminate|]. destruct (_ <? _); [discriminate|].
    injection F as E1 E2. unfold wf. rewrite <- E1, <- E2. auto.
Qed.
