(** Properties C34-C37, C39, C50, C51: operators that move elements around, pooling, drop-out. *)
From Coq Require Import List Arith Lia Bool PeanoNat ZArith Reals Lra.
From Verif Require Import ListBase Loops TensorModel TensorProofs ArrayModel ArrayProofs LayerModel LayerSpec LayerProofs LayerProofs2 LayerProofs3 LayerProofs4.
Import ListNotations.

Lemma wf_arr {A} s (d : list A) : length d = prod s -> wf (Arr s d).
Proof. intros H. exact H. Qed.

Lemma wf_at {A} (x : arr A) idx : wf x -> valid (ashape x) idx -> at_index x idx <> None.
Proof. intros W V. unfold at_index. apply nth_error_Some. unfold wf in W. rewrite W. now apply valid_offset_lt. Qed.

(** ** C34 *)

Inductive shape_op := SReshape (new_shape : list nat) (include_batch : bool) | SFlatten | SExpandDims (axis : option nat) | SSqueeze (axis : option nat).

Definition run_shape_op {A} (zero : A) dbg (op : shape_op) (x : arr A) : outcome (arr A) :=
  match op with
  | SReshape s b => reshape_op zero dbg s b x
  | SFlatten => flatten_op zero dbg x
  | SExpandDims a => expand_dims_op zero a x
  | SSqueeze a => squeeze_op zero dbg a x
  end.

Lemma reshaped_same {A} (zero : A) d s : length d = prod s -> reshaped zero d s = d.
Proof. intros H. unfold reshaped. now rewrite (proj2 (Nat.eqb_eq _ _) H). Qed.

Lemma prod_filter s : prod s <> 0 -> prod (filter (fun n => 1 <? n) s) = prod s.
Proof.
  induction s as [|n s IH]; intros H; [reflexivity|]. rewrite prod_cons in *. cbn [filter]. destruct (Nat.ltb_spec 1 n).
  - rewrite prod_cons, IH; [reflexivity|]. intros E. rewrite E in H. lia.
  - rewrite IH by (intros E; rewrite E in H; lia). destruct n as [|[|]]; try lia.
Qed.

(** In a checked (debug) build, whenever one of these operators answers, it has kept every element in order, and its backward
    puts every gradient of the right size back into the input's shape, also without touching the elements. *)
Theorem C34_shape_operators : forall (A : Type) (zero : A) op (x y : arr A),
  wf x -> ashape x <> [] -> run_shape_op zero true op x = Ok y ->
  wf y /\ adata y = adata x /\
  forall g, wf g -> ashape g = ashape y -> reshape_back zero x g = Ok (Arr (ashape x) (adata g)).
Proof.
  intros A zero op x y W Hne E.
  assert (K : wf y /\ adata y = adata x).
  { destruct op as [s b| |a|a]; cbn [run_shape_op] in E.
    - unfold reshape_op in E. destruct (Nat.eqb_spec (prod s) 0); [discriminate|].
      destruct (Nat.eqb_spec (length (adata x) / prod s * prod s) (length (adata x))) as [Eq|]; cbn [check] in E; [|discriminate].
      destruct b.
      + injection E as <-. cbn [adata]. rewrite reshaped_same by (rewrite prod_cons; auto). split; [|reflexivity]. apply wf_arr. rewrite prod_cons; auto.
      + destruct (Nat.eqb_spec (length (adata x) / prod s) 1) as [E1|]; cbn [check] in E; [|discriminate]. rewrite E1, Nat.mul_1_l in Eq.
        destruct s; [discriminate|]. injection E as <-. cbn [adata]. rewrite reshaped_same by auto. split; [|reflexivity]. apply wf_arr. auto.
    - unfold flatten_op in E. destruct (ashape x) as [|b s] eqn:Es; [congruence|]. destruct (1 <? length (b :: s)); cbn [check] in E; [|discriminate].
      destruct (Nat.eqb_spec b 0) as [|Hb]; [discriminate|]. injection E as <-. unfold wf in W. rewrite Es, prod_cons in W.
      assert (Eq : length (adata x) = prod [b; length (adata x) / b]).
      { rewrite !prod_cons. rewrite W. rewrite (Nat.mul_comm b (prod s)), Nat.div_mul by assumption. cbn. lia. }
      cbn [adata]. rewrite reshaped_same by assumption. split; [now apply wf_arr|reflexivity].
    - unfold expand_dims_op in E. set (ax := match a with Some a => a | None => _ end) in *. destruct (length (ashape x) <? ax); [discriminate|]. injection E as <-.
      assert (Eq : length (adata x) = prod (firstn ax (ashape x) ++ 1 :: skipn ax (ashape x))).
      { unfold wf in W. rewrite W. rewrite prod_app, prod_cons. rewrite <- (firstn_skipn ax (ashape x)) at 1. rewrite prod_app. lia. }
      cbn [adata]. rewrite reshaped_same by assumption. split; [now apply wf_arr|reflexivity].
    - unfold squeeze_op in E. destruct a as [ax|].
      + destruct (Nat.ltb_spec ax (length (ashape x))) as [Hax|]; cbn [check] in E; [|discriminate]. rewrite (proj2 (Nat.leb_gt _ _)) in E by assumption.
        destruct (Nat.eqb_spec (nth ax (ashape x) 0) 1) as [E1|]; cbn [check] in E; [|discriminate].
        assert (Eq : length (adata x) = prod (firstn ax (ashape x) ++ skipn (S ax) (ashape x))).
        { unfold wf in W. rewrite W. destruct (nth_split (ashape x) 0 Hax) as (l1 & l2 & El & Hl). rewrite E1 in El. rewrite El.
          rewrite <- Hl. rewrite firstn_at, skipn_S_at, !prod_app, prod_cons. lia. }
        destruct (firstn ax (ashape x) ++ skipn (S ax) (ashape x)) as [|s0 s1] eqn:Es; [discriminate|]. injection E as <-.
        cbn [adata]. rewrite reshaped_same by assumption. split; [now apply wf_arr|reflexivity].
      + destruct (Nat.eqb_spec (length (adata x)) 0) as [|H0]; [injection E as <-; auto|].
        destruct (Nat.eqb_spec (length (adata x)) 1) as [H1|H1]; [injection E as <-; split; [apply wf_arr; exact H1|reflexivity]|].
        assert (Eq : length (adata x) = prod (filter (fun s => 1 <? s) (ashape x))) by (unfold wf in W; rewrite W in *; now rewrite prod_filter).
        destruct (filter (fun s => 1 <? s) (ashape x)) as [|s0 s1]; [discriminate|]. injection E as <-.
        cbn [adata]. rewrite reshaped_same by assumption. split; [now apply wf_arr|reflexivity]. }
  destruct K as [Wy Ed]. split; [assumption|]. split; [assumption|]. intros g Wg Eg. unfold reshape_back.
  assert (Lg : length (adata g) = prod (ashape x)) by (unfold wf in Wg, Wy, W; rewrite Wg, Eg, <- Wy, Ed; exact W).
  destruct (ashape x) as [|s0 s1] eqn:Es; [congruence|]. rewrite <- Es. now rewrite reshaped_same by now rewrite Es.
Qed.
Print Assumptions C34_shape_operators.

(** which shapes they give; both builds *)
Theorem C34_shapes : forall (A : Type) (zero : A) dbg (x : arr A), wf x ->
  (forall s b, prod s <> 0 -> length (adata x) = b * prod s -> reshape_op zero dbg s true x = Ok (Arr (b :: s) (adata x))) /\
  (forall s, s <> [] -> prod s <> 0 -> length (adata x) = prod s -> reshape_op zero dbg s false x = Ok (Arr s (adata x))) /\
  (forall b s, ashape x = b :: s -> s <> [] -> b <> 0 -> flatten_op zero dbg x = Ok (Arr [b; prod s] (adata x))) /\
  (forall p q, ashape x = p ++ q -> expand_dims_op zero (Some (length p)) x = Ok (Arr (p ++ 1 :: q) (adata x))) /\
  expand_dims_op zero None x = Ok (Arr (ashape x ++ [1]) (adata x)) /\
  (forall p q, ashape x = p ++ 1 :: q -> p ++ q <> [] -> squeeze_op zero dbg (Some (length p)) x = Ok (Arr (p ++ q) (adata x))) /\
  (1 < length (adata x) -> squeeze_op zero dbg None x = Ok (Arr (filter (fun n => negb (n =? 1)) (ashape x)) (adata x))).
Proof.
  intros A zero dbg x W. unfold wf in W.
  assert (P : forall s, prod s <> 0 -> filter (fun n => 1 <? n) s = filter (fun n => negb (n =? 1)) s).
  { induction s as [|n s IH]; intros H; [reflexivity|]. rewrite prod_cons in H. cbn [filter]. rewrite IH by (intros E; rewrite E in H; lia).
    destruct n as [|[|]]; [lia|reflexivity|reflexivity]. }
  split; [|split; [|split; [|split; [|split; [|split]]]]].
  - intros s b Hs E. unfold reshape_op. rewrite (proj2 (Nat.eqb_neq _ _) Hs), E, Nat.div_mul, Nat.eqb_refl by assumption. cbn [check].
    now rewrite reshaped_same by (rewrite prod_cons; auto).
  - intros s Hn Hs E. unfold reshape_op. rewrite (proj2 (Nat.eqb_neq _ _) Hs), E, Nat.div_same, Nat.mul_1_l, Nat.eqb_refl by assumption. cbn [check Nat.eqb].
    destruct s; [congruence|]. now rewrite reshaped_same by auto.
  - intros b s E Hs Hb. unfold flatten_op. rewrite E. destruct s as [|s0 s1]; [congruence|]. cbn [length Nat.ltb Nat.leb check].
    rewrite (proj2 (Nat.eqb_neq _ _) Hb). rewrite W, E, (prod_cons b), (Nat.mul_comm b), Nat.div_mul by assumption.
    rewrite reshaped_same; [reflexivity|]. rewrite W, E, (prod_cons b (s0 :: s1)). rewrite (prod_cons b [_]), (prod_cons _ []). cbn. lia.
  - intros p q E. unfold expand_dims_op. rewrite E, app_length. rewrite (proj2 (Nat.ltb_ge _ _)) by lia. rewrite firstn_at, skipn_at.
    rewrite reshaped_same; [reflexivity|]. rewrite W, E, !prod_app, prod_cons. lia.
  - unfold expand_dims_op. rewrite Nat.ltb_irrefl, firstn_all, skipn_all. rewrite reshaped_same; [reflexivity|]. rewrite W, prod_app. cbn. lia.
  - intros p q E Hne. unfold squeeze_op. rewrite E, app_length. cbn [length]. rewrite (proj2 (Nat.ltb_lt _ _)) by lia. cbn [check].
    rewrite (proj2 (Nat.leb_gt _ _)) by lia. rewrite nth_at. cbn [Nat.eqb check]. rewrite firstn_at, skipn_S_at.
    assert (Eq : length (adata x) = prod (p ++ q)) by (rewrite W, E, !prod_app, prod_cons; lia).
    destruct (p ++ q) eqn:Epq; [congruence|]. now rewrite reshaped_same by assumption.
  - intros H. unfold squeeze_op. rewrite (proj2 (Nat.eqb_neq _ _)) by lia. rewrite (proj2 (Nat.eqb_neq _ _)) by lia.
    assert (Hp : prod (ashape x) <> 0) by lia. rewrite P by assumption.
    assert (Eq : length (adata x) = prod (filter (fun n => negb (n =? 1)) (ashape x))) by (rewrite <- P, prod_filter by assumption; exact W).
    destruct (filter (fun n => negb (n =? 1)) (ashape x)) eqn:Ef; [cbn in Eq; lia|]. now rewrite reshaped_same by assumption.
Qed.
Print Assumptions C34_shapes.

Example C34_shapes_case :
  let x := Arr [2; 1; 3] [1; 2; 3; 4; 5; 6]%Z in
  wf x /\ flatten_op 0%Z true x = Ok (Arr [2; 3] (adata x)) /\ expand_dims_op 0%Z (Some 1) x = Ok (Arr [2; 1; 1; 3] (adata x)) /\
  squeeze_op 0%Z true None x = Ok (Arr [2; 3] (adata x)) /\ reshape_op 0%Z true [3; 1] true x = Ok (Arr [2; 3; 1] (adata x)).
Proof. repeat split. Qed.

(** transpose, whatever an earlier run left in its cache *)
Theorem C34_transpose : forall (A : Type) (zero : A) dbg cache (x : arr A) row col,
  wf x -> ashape x = [row; col] ->
  exists cache' y, transpose_op zero dbg cache x = Ok (cache', y) /\ wf y /\ ashape y = [col; row] /\
    (forall r c, r < row -> c < col -> at_index y [c; r] = at_index x [r; c]) /\
    forall cache2, exists cache3, transpose_op zero dbg cache2 y = Ok (cache3, x).
Proof.
  intros A zero dbg cache x row col W E. destruct (transpose_ok zero dbg cache x row col W E) as (d & Ed & Ld & Hd).
  exists d, (Arr [col; row] d). split; [assumption|]. assert (Wy : wf (Arr [col; row] d)) by (apply wf_arr; rewrite Ld; cbn; lia).
  split; [assumption|]. split; [reflexivity|]. split.
  - intros r c Hr Hc. unfold at_index. rewrite E. cbn [ashape adata offset prod fold_right]. rewrite !Nat.mul_1_r, !Nat.add_0_r. now apply Hd.
  - intros cache2. destruct (transpose_ok zero dbg cache2 (Arr [col; row] d) col row Wy eq_refl) as (e & Ee & Le & He).
    exists e. rewrite Ee. do 2 f_equal. destruct x as [s dx]. cbn [ashape adata] in *. subst s. f_equal.
    unfold wf in W. cbn [ashape adata] in W. cbn in W. rewrite Nat.mul_1_r in W.
    apply list_eq_nth; [lia|]. intros p Hp. rewrite Le in Hp. destruct (divmod_lt _ _ _ Hp) as (H1 & H2 & H3). rewrite H3. rewrite He by assumption. now apply Hd.
Qed.
Print Assumptions C34_transpose.

Example C34_transpose_case : transpose_op 0%Z true [7; 7; 7; 7; 7; 7]%Z (Arr [2; 3] [1; 2; 3; 4; 5; 6]%Z) = Ok ([1; 4; 2; 5; 3; 6]%Z, Arr [3; 2] [1; 4; 2; 5; 3; 6]%Z).
Proof. reflexivity. Qed.

(** the backward pass of transpose is transpose: the adjoint *)
Theorem C34_transpose_adjoint : forall dbg row col cache1 cache2,
  adjoint [row; col] [col; row] (fun x => obind (transpose_op 0%R dbg cache1 x) (fun p => Ok (snd p)))
                                (fun _ g => obind (transpose_op 0%R dbg cache2 g) (fun p => Ok (snd p))).
Proof.
  intros dbg row col cache1 cache2 x0 g Wx0 Ex0 Wg Eg. destruct (transpose_ok 0%R dbg cache2 g col row Wg Eg) as (b & Eb & Lb & Hb).
  exists (Arr [row; col] b). rewrite Eb. split; [reflexivity|]. split; [apply wf_arr; rewrite Lb; cbn; lia|]. split; [reflexivity|]. intros x Wx Ex.
  destruct (transpose_ok 0%R dbg cache1 x row col Wx Ex) as (y & Ey & Ly & Hy). exists (Arr [col; row] y). rewrite Ey. split; [reflexivity|].
  split; [apply wf_arr; rewrite Ly; cbn; lia|]. split; [reflexivity|]. cbn [adata].
  assert (Lx : length (adata x) = row * col) by (unfold wf in Wx; rewrite Wx, Ex; cbn; lia).
  assert (Lg : length (adata g) = col * row) by (unfold wf in Wg; rewrite Wg, Eg; cbn; lia).
  apply (adjoint_injective (fun q => Some ((q mod row) * col + q / row)) (fun p => Some ((p mod col) * row + p / col)) (row * col) (col * row)); auto.
  - intros q Hq. destruct (divmod_lt _ _ _ Hq) as (H1 & H2 & H3). rewrite H3 at 1. apply nth_error_nth. rewrite Hy by assumption. apply nth_error_nth'. nia.
  - intros p Hp. destruct (divmod_lt _ _ _ Hp) as (H1 & H2 & H3). rewrite H3 at 1. apply nth_error_nth. rewrite Hb by assumption. apply nth_error_nth'. nia.
  - intros q i Hq E. injection E as <-. destruct (divmod_lt _ _ _ Hq) as (H1 & H2 & H3). nia.
  - intros p i Hp E. injection E as <-. destruct (divmod_lt _ _ _ Hp) as (H1 & H2 & H3). nia.
  - intros p q Hp Hq. destruct (divmod_lt _ _ _ Hq) as (H1 & H2 & H3). destruct (divmod_lt _ _ _ Hp) as (G1 & G2 & G3).
    remember (q / row) as c eqn:Ec. clear Ec. remember (q mod row) as r eqn:Er. clear Er. remember (p / col) as r' eqn:Er'. clear Er'. remember (p mod col) as c' eqn:Ec'. clear Ec'.
    subst p q. split; intros E; injection E as E; f_equal.
    + assert (c' = c) by nia. subst c'. assert (r' = r) by lia. subst. reflexivity.
    + assert (r' = r) by nia. subst r'. assert (c' = c) by lia. subst. reflexivity.
Qed.
Print Assumptions C34_transpose_adjoint.

(** ** C35 *)

(** x surrounded by zeros *)
Definition is_padded {A} (zero : A) (top bottom left right : nat) (x y : arr A) : Prop :=
  exists n r c k, ashape x = [n; r; c; k] /\ ashape y = [n; top + r + bottom; left + c + right; k] /\ wf y /\
    forall i Y Z w, i < n -> Y < top + r + bottom -> Z < left + c + right -> w < k ->
      (forall v z, v < r -> z < c -> Y = top + v -> Z = left + z -> at_index y [i; Y; Z; w] = at_index x [i; v; z; w]) /\
      ((~ exists v z, v < r /\ z < c /\ Y = top + v /\ Z = left + z) -> at_index y [i; Y; Z; w] = Some zero).

(** successive runs of one operator on a list of inputs *)
Fixpoint runs {S X Y} (f : S -> X -> outcome (S * Y)) (st : S) (xs : list X) : outcome (list Y) :=
  match xs with
  | [] => Ok []
  | x :: t => obind (f st x) (fun p => obind (runs f (fst p) t) (fun ys => Ok (snd p :: ys)))
  end.

Lemma pad_runs {A} (zero : A) dbg top bottom left right n r c k xs cache :
  Forall (fun x => wf x /\ ashape x = [n; r; c; k]) xs ->
  (forall i Y Z w, i < n -> Y < top + r + bottom -> Z < left + c + right -> w < k -> inside top left r c Y Z = false ->
     nth_error (resized zero cache (prod [n; top + r + bottom; left + c + right; k])) (pos4 (top + r + bottom) (left + c + right) k i Y Z w) = Some zero) ->
  exists ys, runs (pad_fwd zero dbg top bottom left right) cache xs = Ok ys /\ Forall2 (is_padded zero top bottom left right) xs ys.
Proof.
  intros F. revert cache. induction F as [|x xs [W E] F IH]; intros cache H; cbn [runs].
  - exists []. auto.
  - destruct (pad_fwd_ok zero dbg top bottom left right cache x n r c k W E) as (d & Ed & Ld & Hd). cbv zeta in *. rewrite Ed. cbn [obind fst snd].
    destruct (IH d) as (ys & Ey & Fy).
    + intros i Y Z w Hi HY HZ Hw Hin. rewrite resized_same by assumption. rewrite Hd by assumption. rewrite Hin. now apply H.
    + rewrite Ey. cbn [obind]. eexists. split; [reflexivity|]. constructor; [|assumption].
      exists n, r, c, k. split; [assumption|]. split; [reflexivity|]. split; [now apply wf_arr|]. intros i Y Z w Hi HY HZ Hw. rewrite at4. split.
      * intros v z Hv Hz -> ->. destruct x as [s dx]. cbn [ashape adata] in *. subst s. rewrite at4. rewrite Hd by assumption.
        rewrite (proj2 (inside_spec _ _ _ _ _ _)) by lia. f_equal. f_equal; lia.
      * intros Hno. rewrite Hd by assumption. assert (Hin : inside top left r c Y Z = false).
        { apply not_true_iff_false. intros Hin. apply inside_spec in Hin. apply Hno. exists (Y - top), (Z - left). lia. }
        rewrite Hin. now apply H.
Qed.

(** one operator run any number of times on inputs of one shape: every output is its input surrounded by zeros *)
Theorem C35_padding : forall (A : Type) (zero : A) dbg top bottom left right n r c k xs,
  Forall (fun x : arr A => wf x /\ ashape x = [n; r; c; k]) xs ->
  exists ys, runs (pad_fwd zero dbg top bottom left right) [] xs = Ok ys /\ Forall2 (is_padded zero top bottom left right) xs ys.
Proof.
  intros A zero dbg top bottom left right n r c k xs F. apply (pad_runs zero dbg top bottom left right n r c k xs []); [assumption|].
  intros i Y Z w Hi HY HZ Hw _. rewrite resized_nil. apply nth_error_repeat_lt. now apply pos4_lt.
Qed.
Print Assumptions C35_padding.

Example C35_padding_case :
  runs (pad_fwd 0%Z true 1 0 1 0) [] [Arr [1; 1; 2; 1] [1; 2]%Z; Arr [1; 1; 2; 1] [3; 4]%Z]
  = Ok [Arr [1; 2; 3; 1] [0; 0; 0; 0; 1; 2]%Z; Arr [1; 2; 3; 1] [0; 0; 0; 0; 3; 4]%Z].
Proof. reflexivity. Qed.

(** with inputs of different shapes whose padded sizes agree, the second output shows remains of the first *)
Theorem C35_padding_refuted :
  ~ (forall dbg top bottom left right (xs : list (arr Z)) ys, Forall wf xs -> runs (pad_fwd 0%Z dbg top bottom left right) [] xs = Ok ys ->
       Forall2 (is_padded 0%Z top bottom left right) xs ys).
Proof.
  intros H.
  specialize (H true 1 1 1 1 [Arr [1; 1; 2; 1] [8; 9]%Z; Arr [1; 2; 1; 1] [5; 6]%Z] _ ltac:(repeat constructor) eq_refl).
  inversion H as [|? ? ? ? _ H2]; subst. inversion H2 as [|? ? ? ? (n & r & c & k & E1 & _ & _ & E2) _]; subst.
  injection E1 as <- <- <- <-. destruct (E2 0 1 2 0 ltac:(lia) ltac:(lia) ltac:(lia) ltac:(lia)) as [_ E3].
  assert (~ exists v z, v < 2 /\ z < 1 /\ 1 = 1 + v /\ 2 = 1 + z) as Hno by (intros (v & z & ? & ? & ? & ?); lia).
  specialize (E3 Hno). cbn in E3. discriminate.
Qed.
Print Assumptions C35_padding_refuted.

(** cropping, whatever its cache holds, cuts the window out; cropping a padded array gives the array back *)
Theorem C35_cropping : forall (A : Type) (zero : A) dbg top bottom left right cache (x : arr A) n r c k,
  wf x -> ashape x = [n; top + r + bottom; left + c + right; k] -> r <> 0 -> c <> 0 ->
  exists cache' y, crop_fwd zero dbg top bottom left right cache x = Ok (cache', y) /\ wf y /\ ashape y = [n; r; c; k] /\
    forall i v z w, i < n -> v < r -> z < c -> w < k -> at_index y [i; v; z; w] = at_index x [i; top + v; left + z; w].
Proof.
  intros A zero dbg top bottom left right cache x n r c k W E Hr Hc.
  destruct (crop_fwd_ok zero dbg top bottom left right cache x n r c k W E Hr Hc) as (d & Ed & Ld & Hd).
  exists d, (Arr [n; r; c; k] d). split; [assumption|]. split; [now apply wf_arr|]. split; [reflexivity|].
  intros i v z w Hi Hv Hz Hw. rewrite at4, Hd by assumption. destruct x as [s dx]. cbn [ashape adata] in *. subst s. now rewrite at4.
Qed.
Print Assumptions C35_cropping.

Theorem C35_crop_of_padded : forall (A : Type) (zero : A) dbg top bottom left right cache (x y : arr A),
  wf x -> is_padded zero top bottom left right x y -> prod (ashape x) <> 0 ->
  exists cache', crop_fwd zero dbg top bottom left right cache y = Ok (cache', x).
Proof.
  intros A zero dbg top bottom left right cache x y Wx (n & r & c & k & Ex & Ey & Wy & Hy) Hne.
  rewrite Ex, prod4 in Hne. assert (r <> 0) by (intros ->; lia). assert (c <> 0) by (intros ->; lia).
  destruct (C35_cropping A zero dbg top bottom left right cache y n r c k Wy Ey) as (cache' & z & Ez & Wz & Sz & Hz); [assumption|assumption|].
  exists cache'. rewrite Ez. do 2 f_equal. destruct x as [sx dx], z as [sz dz]. cbn [ashape] in *. subst sx sz. f_equal.
  unfold wf in Wx, Wz. cbn [ashape adata] in *. apply list_eq_nth; [congruence|]. intros p Hp. rewrite Wz in Hp.
  destruct (pos4_surj _ _ _ _ _ Hp) as (i & v & u & w & Hi & Hv & Hu & Hw & ->).
  specialize (Hz i v u w Hi Hv Hu Hw). rewrite at4 in Hz. rewrite Hz.
  destruct (Hy i (top + v) (left + u) w Hi ltac:(lia) ltac:(lia) Hw) as [H1 _]. specialize (H1 v u Hv Hu eq_refl eq_refl). rewrite H1. now rewrite at4.
Qed.
Print Assumptions C35_crop_of_padded.

Example C35_crop_case : crop_fwd 0%Z true 1 0 1 0 [] (Arr [1; 2; 3; 1] [0; 0; 0; 0; 1; 2]%Z) = Ok ([1; 2]%Z, Arr [1; 1; 2; 1] [1; 2]%Z).
Proof. reflexivity. Qed.

(** the backward passes are the adjoints *)
Theorem C35_padding_adjoint : forall dbg top bottom left right n r c k,
  adjoint [n; r; c; k] [n; top + r + bottom; left + c + right; k]
    (fun x => obind (pad_fwd 0%R dbg top bottom left right [] x) (fun p => Ok (snd p))) (pad_bwd 0%R top bottom left right).
Proof.
  intros dbg top bottom left right n r c k x0 g Wx0 Ex0 Wg Eg.
  destruct (pad_bwd_ok 0%R top bottom left right x0 g n r c k Ex0 Wg Eg) as (b & Eb & Lb & Hb).
  exists (Arr [n; r; c; k] b). split; [assumption|]. split; [now apply wf_arr|]. split; [reflexivity|]. intros x Wx Ex.
  destruct (pad_fwd_ok 0%R dbg top bottom left right [] x n r c k Wx Ex) as (y & Ey & Ly & Hy). cbv zeta in *.
  exists (Arr [n; top + r + bottom; left + c + right; k] y). rewrite Ey. split; [reflexivity|]. split; [now apply wf_arr|]. split; [reflexivity|]. cbn [adata].
  apply (embed_adjoint n r c k (top + r + bottom) (left + c + right) top left); try lia; try assumption.
  - now apply wf4.
  - now apply wf4.
  - intros i Y Z w Hi HY HZ Hw. rewrite Hy by assumption. destruct (inside top left r c Y Z); [reflexivity|]. rewrite resized_nil. apply nth_error_repeat_lt. now apply pos4_lt.
Qed.
Print Assumptions C35_padding_adjoint.

Theorem C35_cropping_adjoint : forall dbg top bottom left right cache n r c k, r <> 0 -> c <> 0 ->
  adjoint [n; top + r + bottom; left + c + right; k] [n; r; c; k]
    (fun x => obind (crop_fwd 0%R dbg top bottom left right cache x) (fun p => Ok (snd p))) (crop_bwd 0%R top bottom left right).
Proof.
  intros dbg top bottom left right cache n r c k Hr Hc x0 g Wx0 Ex0 Wg Eg.
  destruct (crop_bwd_ok 0%R top bottom left right x0 g n r c k Ex0 Wg Eg) as (b & Eb & Lb & Hb).
  exists (Arr [n; top + r + bottom; left + c + right; k] b). split; [assumption|]. split; [now apply wf_arr|]. split; [reflexivity|]. intros x Wx Ex.
  destruct (crop_fwd_ok 0%R dbg top bottom left right cache x n r c k Wx Ex Hr Hc) as (y & Ey & Ly & Hy). cbv zeta in *.
  exists (Arr [n; r; c; k] y). rewrite Ey. split; [reflexivity|]. split; [now apply wf_arr|]. split; [reflexivity|]. cbn [adata].
  rewrite (inner_comm b), (inner_comm (adata g)). symmetry.
  apply (embed_adjoint n r c k (top + r + bottom) (left + c + right) top left); try lia; try assumption.
  - now apply wf4.
  - now apply wf4.
Qed.
Print Assumptions C35_cropping_adjoint.

(** ** C36 *)

(** up-sampling by s: every pixel becomes an s x s block *)
Theorem C36_up_sampling : forall (A : Type) (zero : A) dbg s (x : arr A) n r c k,
  wf x -> ashape x = [n; r; c; k] ->
  exists y, up_fwd zero dbg s x = Ok y /\ wf y /\ ashape y = [n; r * s; c * s; k] /\
    forall i v z w a b, i < n -> v < r -> z < c -> w < k -> a < s -> b < s ->
      at_index y [i; v * s + a; z * s + b; w] = at_index x [i; v; z; w].
Proof.
  intros A zero dbg s x n r c k W E. destruct (up_fwd_ok zero dbg s x n r c k W E) as (d & Ed & Ld & Hd).
  exists (Arr [n; r * s; c * s; k] d). split; [assumption|]. split; [now apply wf_arr|]. split; [reflexivity|].
  intros i v z w a b Hi Hv Hz Hw Ha Hb. rewrite at4, Hd by (assumption || nia). rewrite !block_div by assumption.
  destruct x as [sx dx]. cbn [ashape adata] in *. subst sx. now rewrite at4.
Qed.
Print Assumptions C36_up_sampling.

Example C36_up_case : up_fwd 0%Z true 2 (Arr [1; 1; 2; 1] [3; 4]%Z) = Ok (Arr [1; 2; 4; 1] [3; 3; 4; 4; 3; 3; 4; 4]%Z).
Proof. reflexivity. Qed.

(** the elements of block (v, z) of x *)
Definition block_of (x : arr R) (s i v z w : nat) : list R :=
  loop2 s s (fun a b => match at_index x [i; v * s + a; z * s + b; w] with Some e => e | None => 0%R end).

Definition factor (s : nat) : R := (/ INR (s * s))%R.

Lemma block_of_block x n r c k s i v z w :
  ashape x = [n; r; c; k] -> length (adata x) = prod [n; r; c; k] -> i < n -> v < r / s -> z < c / s -> w < k ->
  block 0%R r c k s (adata x) i v z w = block_of x s i v z w.
Proof.
  intros E L Hi Hv Hz Hw. unfold block, block_of. apply tab2_ext. intros a b Ha Hb. destruct x as [sx dx]. cbn [ashape adata] in *. subst sx.
  rewrite at4. assert (v * s + a < r) by now apply div_block_lt. assert (z * s + b < c) by now apply div_block_lt.
  rewrite (nth_error_of_nth 0%R) by (rewrite L; now apply pos4_lt). reflexivity.
Qed.

(** average pooling: the mean of each s x s block; rows and columns that do not fill a block are ignored *)
Theorem C36_average_pooling : forall dbg s (x : arr R) n r c k,
  wf x -> ashape x = [n; r; c; k] -> s <> 0 ->
  exists y, avg_fwd 0%R dbg Rplus Rmult (factor s) s x = Ok y /\ wf y /\ ashape y = [n; r / s; c / s; k] /\
    forall i v z w, i < n -> v < r / s -> z < c / s -> w < k ->
      at_index y [i; v; z; w] = Some (rsum (block_of x s i v z w) / INR (s * s))%R.
Proof.
  intros dbg s x n r c k W E Hs. destruct (avg_fwd_ok 0%R dbg Rplus Rmult (factor s) s x n r c k W E Hs) as (d & Ed & Ld & Hd).
  exists (Arr [n; r / s; c / s; k] d). split; [assumption|]. split; [now apply wf_arr|]. split; [reflexivity|].
  intros i v z w Hi Hv Hz Hw. rewrite at4, Hd by assumption. f_equal. rewrite fold_left_Rplus, rsum_scale_list.
  rewrite (block_of_block x n r c k) by (auto; now apply wf4). unfold factor. field. apply not_0_INR. nia.
Qed.
Print Assumptions C36_average_pooling.

Lemma rsum_const n v : rsum (repeat v n) = (INR n * v)%R.
Proof. induction n; [cbn; ring|]. cbn [repeat rsum]. rewrite IHn, S_INR. ring. Qed.

Lemma tab2_const {A} m n (v : A) : tab2 m n (fun _ _ => v) = repeat v (m * n).
Proof.
  rewrite tab2_tab. unfold tab. generalize (m * n) as q. intros q. generalize 0. induction q; intros s; [reflexivity|]. cbn. now rewrite IHq.
Qed.

(** pooling undoes up-sampling *)
Theorem C36_pooling_of_up_sampled : forall dbg s (x : arr R) n r c k,
  wf x -> ashape x = [n; r; c; k] -> s <> 0 ->
  obind (up_fwd 0%R dbg s x) (avg_fwd 0%R dbg Rplus Rmult (factor s) s) = Ok x.
Proof.
  intros dbg s x n r c k W E Hs. destruct (C36_up_sampling R 0%R dbg s x n r c k W E) as (y & Ey & Wy & Sy & Hy). rewrite Ey. cbn [obind].
  destruct (C36_average_pooling dbg s y n (r * s) (c * s) k Wy Sy Hs) as (z & Ez & Wz & Sz & Hz). rewrite Ez. f_equal.
  rewrite !Nat.div_mul in * by assumption. destruct x as [sx dx], z as [sz dz]. cbn [ashape] in *. subst sx sz. f_equal.
  unfold wf in W, Wz. cbn [ashape adata] in *. apply list_eq_nth; [congruence|]. intros p Hp. rewrite Wz in Hp.
  destruct (pos4_surj _ _ _ _ _ Hp) as (i & v & u & w & Hi & Hv & Hu & Hw & ->).
  specialize (Hz i v u w Hi Hv Hu Hw). rewrite at4 in Hz. rewrite Hz. unfold block_of.
  assert (Hp' := pos4_lt n r c k i v u w Hi Hv Hu Hw). rewrite (nth_error_of_nth 0%R dx) by now rewrite W.
  rewrite (tab2_ext s s _ (fun _ _ => nth (pos4 r c k i v u w) dx 0%R)).
  - rewrite tab2_const, rsum_const. f_equal. field. apply not_0_INR. nia.
  - intros a b Ha Hb. rewrite Hy by assumption. rewrite at4. now rewrite (nth_error_of_nth 0%R dx) by now rewrite W.
Qed.
Print Assumptions C36_pooling_of_up_sampled.

Example C36_pooling_case : avg_fwd 0%Z true Z.add (fun v _ => v) 0%Z 2 (Arr [1; 2; 5; 1] [1; 2; 3; 4; 5; 10; 20; 30; 40; 50]%Z) = Ok (Arr [1; 1; 2; 1] [33; 77]%Z).
Proof. reflexivity. Qed.

Lemma up_nth {A} (zero : A) r c k s i Y Z w d x :
  nth_error d (pos4 (r * s) (c * s) k i Y Z w) = nth_error x (pos4 r c k i (Y / s) (Z / s) w) -> nth (pos4 (r * s) (c * s) k i Y Z w) d zero = nth (pos4 r c k i (Y / s) (Z / s) w) x zero.
Proof. intros H. rewrite <- !nth_default_eq. unfold nth_default. now rewrite H. Qed.

Theorem C36_up_sampling_adjoint : forall dbg s n r c k, s <> 0 ->
  adjoint [n; r; c; k] [n; r * s; c * s; k] (up_fwd 0%R dbg s) (up_bwd 0%R Rplus s).
Proof.
  intros dbg s n r c k Hs x0 g Wx0 Ex0 Wg Eg. destruct (up_bwd_ok 0%R Rplus s x0 g n r c k Ex0 Wg Eg) as (b & Eb & Lb & Hb).
  exists (Arr [n; r; c; k] b). split; [assumption|]. split; [now apply wf_arr|]. split; [reflexivity|]. intros x Wx Ex.
  destruct (up_fwd_ok 0%R dbg s x n r c k Wx Ex) as (y & Ey & Ly & Hy).
  exists (Arr [n; r * s; c * s; k] y). split; [assumption|]. split; [now apply wf_arr|]. split; [reflexivity|]. cbn [adata].
  apply (block_adjoint n r c k s); auto.
  - now apply wf4.
  - now apply wf4.
  - intros. apply up_nth. auto.
  - intros i v z w Hi Hv Hz Hw. erewrite nth_error_nth; [|apply Hb; assumption]. rewrite fold_left_Rplus. ring.
Qed.
Print Assumptions C36_up_sampling_adjoint.

Lemma inner_scale (q : R) (a b : list R) (n : nat) : length a = n -> length b = n -> forall a' : list R, length a' = n -> (forall i, i < n -> nth i a' 0%R = (q * nth i a 0)%R) -> inner a' b = (q * inner a b)%R.
Proof.
  intros La Lb a' La' H. rewrite !(inner_tab _ _ n) by assumption.
  rewrite (map_ext_in _ (fun i => nth i a 0 * nth i b 0 * q)%R).
  - rewrite (rsum_scale_r (fun i => nth i a 0 * nth i b 0)%R). ring.
  - intros i Hi. apply in_seq in Hi. rewrite H by lia. ring.
Qed.

(** for extents that are multiples of s *)
Theorem C36_average_pooling_adjoint : forall dbg s n r c k, s <> 0 ->
  adjoint [n; r * s; c * s; k] [n; r; c; k] (avg_fwd 0%R dbg Rplus Rmult (factor s) s) (avg_bwd 0%R Rmult (factor s) s).
Proof.
  intros dbg s n r c k Hs x0 g Wx0 Ex0 Wg Eg. destruct (avg_bwd_ok 0%R Rmult (factor s) s x0 g n r c k Ex0 Wg Eg Hs) as (b & Eb & Lb & Hb).
  exists (Arr [n; r * s; c * s; k] b). split; [assumption|]. split; [now apply wf_arr|]. split; [reflexivity|]. intros x Wx Ex.
  destruct (avg_fwd_ok 0%R dbg Rplus Rmult (factor s) s x n (r * s) (c * s) k Wx Ex Hs) as (y & Ey & Ly & Hy). rewrite !Nat.div_mul in * by assumption.
  exists (Arr [n; r; c; k] y). split; [assumption|]. split; [now apply wf_arr|]. split; [reflexivity|]. cbn [adata].
  assert (Lg := wf4 _ _ _ _ _ Wg Eg). assert (Lx := wf4 _ _ _ _ _ Wx Ex).
  set (ug := loop4 n (r * s) (c * s) k (fun i Y Z w => nth (pos4 r c k i (Y / s) (Z / s) w) (adata g) 0%R)).
  set (sx := loop4 n r c k (fun i v z w => rsum (block 0%R (r * s) (c * s) k s (adata x) i v z w))).
  assert (A1 : inner b (adata x) = (factor s * inner ug (adata x))%R).
  { apply (inner_scale (factor s) ug (adata x) (prod [n; r * s; c * s; k])); auto; [apply loop4_length|]. intros p Hp.
    destruct (pos4_surj _ _ _ _ _ Hp) as (i & v & u & w & Hi & Hv & Hu & Hw & ->). unfold ug. rewrite nth_loop4 by assumption. apply nth_error_nth. auto. }
  assert (A2 : inner y (adata g) = (factor s * inner sx (adata g))%R).
  { apply (inner_scale (factor s) sx (adata g) (prod [n; r; c; k])); auto; [apply loop4_length|]. intros p Hp.
    destruct (pos4_surj _ _ _ _ _ Hp) as (i & v & u & w & Hi & Hv & Hu & Hw & ->). unfold sx. rewrite nth_loop4 by assumption. apply nth_error_nth.
    rewrite Hy by assumption. f_equal. rewrite fold_left_Rplus, rsum_scale_list. ring. }
  rewrite A1, (inner_comm (adata g)), A2. f_equal. rewrite (inner_comm ug). symmetry.
  apply (block_adjoint n r c k s); auto; try apply loop4_length.
  - intros. unfold ug. now rewrite nth_loop4.
  - intros. unfold sx. now rewrite nth_loop4.
Qed.
Print Assumptions C36_average_pooling_adjoint.

(** for all other (non-empty) extents the backward pass reads beyond the end of the gradient *)
Theorem C36_average_pooling_backward_bounds : forall (A : Type) (zero : A) mul f s (input grad : arr A) n r c k,
  ashape input = [n; r; c; k] -> wf grad -> ashape grad = [n; r / s; c / s; k] -> s <> 0 -> prod [n; r; c; k] <> 0 ->
  (avg_bwd zero mul f s input grad = UB <-> ~ (r mod s = 0 /\ c mod s = 0)).
Proof.
  intros A zero mul f s input grad n r c k E W Eg Hs Hne. rewrite prod4 in Hne.
  assert (Hn : 0 < n) by (destruct n; lia). assert (Hr : 0 < r) by (destruct r; lia). assert (Hc : 0 < c) by (destruct c; [rewrite ?Nat.mul_0_l, ?Nat.mul_0_r in Hne; lia|lia]).
  assert (Hk : 0 < k) by (destruct k; [rewrite ?Nat.mul_0_l, ?Nat.mul_0_r in Hne; lia|lia]).
  assert (L := wf4 _ _ _ _ _ W Eg). rewrite prod4 in L.
  assert (Dr := Nat.div_mod r s Hs). assert (Dc := Nat.div_mod c s Hs). split.
  - intros U [Hm1 Hm2]. rewrite Hm1, Nat.add_0_r in Dr. rewrite Hm2, Nat.add_0_r in Dc.
    destruct (avg_bwd_ok zero mul f s input grad n (r / s) (c / s) k) as (d & Ed & _); auto.
    + rewrite E. f_equal. f_equal; [lia|]. f_equal. lia.
    + rewrite Ed in U. discriminate.
  - intros Hno. unfold avg_bwd. rewrite E, (proj2 (Nat.eqb_neq s 0) Hs). cbv zeta.
    match goal with |- (if ?b then _ else _) = UB => destruct b eqn:F; [|reflexivity] end. exfalso. rewrite forallb_forall in F.
    assert (G : forall i Y Z w, i < n -> Y < r -> Z < c -> w < k -> pos4 (r / s) (c / s) k i (Y / s) (Z / s) w < length (adata grad)).
    { intros i Y Z w Hi HY HZ Hw. apply Nat.ltb_lt. apply F. apply in_loop4. exists i, Y, Z, w. auto 10. }
    specialize (G (n - 1) (r - 1) (c - 1) (k - 1) ltac:(lia) ltac:(lia) ltac:(lia) ltac:(lia)). rewrite L in G. unfold pos4 in G.
    assert (Q : forall m, 0 < m -> (m - 1) / s = if m mod s =? 0 then m / s - 1 else m / s).
    { intros m Hm. assert (D := Nat.div_mod m s Hs). assert (B := Nat.mod_upper_bound m s Hs). destruct (Nat.eqb_spec (m mod s) 0) as [E0|E0].
      - symmetry. assert (m / s <> 0) by (intros E1; rewrite E0, E1 in D; lia). apply (Nat.div_unique _ _ _ (s - 1)); [lia|].
        rewrite E0 in D. assert (s * (m / s - 1) = s * (m / s) - s) by nia. assert (s <= s * (m / s)) by nia. lia.
      - symmetry. apply (Nat.div_unique _ _ _ (m mod s - 1)); lia. }
    rewrite (Q r Hr), (Q c Hc) in G. clear Q F L W Eg.
    remember (r / s) as R' eqn:ER. remember (c / s) as C' eqn:EC. clear ER EC.
    assert (Hnn : (n - 1) * (R' * (C' * k)) + R' * (C' * k) = n * (R' * (C' * k))).
    { replace n with (S (n - 1)) at 2 by lia. cbn [Nat.mul]. lia. }
    destruct (Nat.eqb_spec (r mod s) 0) as [Er|Er].
    + destruct (Nat.eqb_spec (c mod s) 0) as [Ec|Ec]; [apply Hno; auto|].
      assert (R' <> 0) by (intros ->; lia). assert ((R' - 1) * (C' * k) + C' * k = R' * (C' * k)).
      { replace R' with (S (R' - 1)) at 2 by lia. cbn [Nat.mul]. lia. }
      lia.
    + lia.
Qed.
Print Assumptions C36_average_pooling_backward_bounds.

Example C36_backward_bounds_case : avg_bwd 0%Z (fun _ v => v) 0%Z 2 (Arr [1; 2; 3; 1] [0; 0; 0; 0; 0; 0]%Z) (Arr [1; 1; 1; 1] [5]%Z) = UB.
Proof. reflexivity. Qed.

(** ** C37 *)

(** (Y, Z) holds a largest element of block (v, z), and no element before it in the block is as large *)
Definition first_largest {A} (ltb : A -> A -> bool) (x : arr A) (s i v z w Y Z : nat) : Prop :=
  v * s <= Y < v * s + s /\ z * s <= Z < z * s + s /\
  forall Y' Z' e e', v * s <= Y' < v * s + s -> z * s <= Z' < z * s + s ->
    at_index x [i; Y; Z; w] = Some e -> at_index x [i; Y'; Z'; w] = Some e' ->
    ltb e e' = false /\ (Y' < Y \/ (Y' = Y /\ Z' < Z) -> ltb e' e = true).

Lemma first_max_grid {A} (zero : A) ltb d s (f : nat -> nat -> nat) p :
  strict_weak ltb -> first_max zero ltb d (loop2 s s f) p ->
  exists a b, a < s /\ b < s /\ p = f a b /\
    forall a' b', a' < s -> b' < s ->
      ltb (nth p d zero) (nth (f a' b') d zero) = false /\ (a' < a \/ (a' = a /\ b' < b) -> ltb (nth (f a' b') d zero) (nth p d zero) = true).
Proof.
  intros (Ir & Tr & Ng) (l1 & l2 & E & H1 & H2).
  assert (Hl : length l1 < s * s) by (rewrite <- (tab2_length s s f); change (tab2 s s f) with (loop2 s s f); rewrite E, app_length; cbn [length]; lia).
  destruct (divmod_lt _ _ _ Hl) as (Ha & Hb & Hd). remember (length l1 / s) as a eqn:Ea. remember (length l1 mod s) as b eqn:Eb. clear Ea Eb.
  exists a, b. split; [assumption|]. split; [assumption|].
  assert (Ep : p = f a b).
  { assert (N : nth_error (loop2 s s f) (a * s + b) = Some (f a b)) by now apply nth_error_tab2. rewrite E, <- Hd in N.
    rewrite nth_error_app2, Nat.sub_diag in N by lia. now injection N. }
  split; [assumption|]. intros a' b' Ha' Hb'. assert (N : nth_error (loop2 s s f) (a' * s + b') = Some (f a' b')) by now apply nth_error_tab2. rewrite E in N.
  destruct (lt_eq_lt_dec (a' * s + b') (length l1)) as [[L|L]|L].
  - rewrite nth_error_app1 in N by assumption. apply nth_error_In in N. specialize (H1 _ N). split; [|auto].
    destruct (ltb (nth p d zero) (nth (f a' b') d zero)) eqn:Eq; [|reflexivity]. specialize (Tr _ _ _ Eq H1). rewrite Ir in Tr. discriminate.
  - assert (a' = a) by nia. subst a'. assert (b' = b) by lia. subst b'. rewrite Ep. split; [apply Ir|]. lia.
  - rewrite nth_error_app2 in N by lia. destruct (a' * s + b' - length l1) as [|m] eqn:Em; [lia|]. cbn [nth_error] in N. apply nth_error_In in N.
    split; [now apply H2|]. intros Hlex. exfalso. nia.
Qed.

Section PoolProps.
Context {A : Type} (zero one : A) (ltb : A -> A -> bool) (is_one : A -> bool).

Lemma first_max_largest (x : arr A) n r c k s i v z w p :
  strict_weak ltb -> wf x -> ashape x = [n; r; c; k] -> i < n -> v < r / s -> z < c / s -> w < k ->
  first_max zero ltb (adata x) (block_cells r c k s i v z w) p ->
  exists Y Z, Y < r /\ Z < c /\ p = pos4 r c k i Y Z w /\ first_largest ltb x s i v z w Y Z.
Proof.
  intros SW W E Hi Hv Hz Hw F. destruct (first_max_grid zero ltb _ _ _ _ SW F) as (a & b & Ha & Hb & -> & H).
  exists (v * s + a), (z * s + b). split; [now apply div_block_lt|]. split; [now apply div_block_lt|]. split; [reflexivity|].
  split; [lia|]. split; [lia|]. intros Y' Z' e e' HY HZ Ee Ee'. destruct x as [sx dx]. cbn [ashape adata] in *. subst sx. rewrite at4 in Ee, Ee'.
  specialize (H (Y' - v * s) (Z' - z * s) ltac:(lia) ltac:(lia)). replace (v * s + (Y' - v * s)) with Y' in H by lia. replace (z * s + (Z' - z * s)) with Z' in H by lia.
  rewrite (nth_error_nth _ _ zero Ee), (nth_error_nth _ _ zero Ee') in H. destruct H as [H1 H2]. split; [assumption|]. intros Hl. apply H2. lia.
Qed.

Lemma first_largest_unique (x : arr A) n r c k s i v z w Y Z Y' Z' :
  wf x -> ashape x = [n; r; c; k] -> i < n -> v < r / s -> z < c / s -> w < k ->
  first_largest ltb x s i v z w Y Z -> first_largest ltb x s i v z w Y' Z' -> Y = Y' /\ Z = Z'.
Proof.
  intros W E Hi Hv Hz Hw (HY & HZ & H) (HY' & HZ' & H').
  assert (B : forall a, v * s <= a < v * s + s -> a < r) by (intros a Ha; replace a with (v * s + (a - v * s)) by lia; apply div_block_lt; [assumption|lia]).
  assert (B' : forall a, z * s <= a < z * s + s -> a < c) by (intros a Ha; replace a with (z * s + (a - z * s)) by lia; apply div_block_lt; [assumption|lia]).
  destruct (at_index x [i; Y; Z; w]) as [e|] eqn:Ee; [|exfalso; apply (wf_at x [i; Y; Z; w] W); [rewrite E; unfold valid; auto 10|assumption]].
  destruct (at_index x [i; Y'; Z'; w]) as [e'|] eqn:Ee'; [|exfalso; apply (wf_at x [i; Y'; Z'; w] W); [rewrite E; unfold valid; auto 10|assumption]].
  destruct (H Y' Z' e e' HY' HZ' eq_refl Ee') as [N1 L1]. destruct (H' Y Z e' e HY HZ eq_refl Ee) as [N2 L2].
  assert (N3 : ~ (Y' < Y \/ Y' = Y /\ Z' < Z)) by (intros Q; rewrite (L1 Q) in N2; discriminate).
  assert (N4 : ~ (Y < Y' \/ Y = Y' /\ Z < Z')) by (intros Q; rewrite (L2 Q) in N1; discriminate). lia.
Qed.

Lemma chosen_largest (x : arr A) n r c k s i Y Z w :
  strict_weak ltb -> wf x -> ashape x = [n; r; c; k] -> s <> 0 -> i < n -> Y < r -> Z < c -> w < k ->
  (chosen zero ltb n r c k s (adata x) (pos4 r c k i Y Z w) <-> Y / s < r / s /\ Z / s < c / s /\ first_largest ltb x s i (Y / s) (Z / s) w Y Z).
Proof.
  intros SW W E Hs Hi HY HZ Hw. split.
  - intros H. destruct (chosen_at _ _ _ _ _ _ _ _ _ H) as (i' & Y' & Z' & w' & Hi' & HY' & HZ' & Hw' & D1 & D2 & Eq & F).
    apply (pos4_inj n) in Eq; auto. destruct Eq as (<- & <- & <- & <-). split; [assumption|]. split; [assumption|].
    destruct (first_max_largest x n r c k s i (Y / s) (Z / s) w _ SW W E Hi D1 D2 Hw F) as (Y1 & Z1 & HY1 & HZ1 & Eq & FL).
    apply (pos4_inj n) in Eq; auto. destruct Eq as (_ & <- & <- & _). assumption.
  - intros (D1 & D2 & FL). assert (F := best_first zero ltb SW r c k s Hs (adata x) i (Y / s) (Z / s) w). cbv zeta in F.
    destruct (first_max_largest x n r c k s i (Y / s) (Z / s) w _ SW W E Hi D1 D2 Hw F) as (Y1 & Z1 & HY1 & HZ1 & Eq & FL1).
    destruct (first_largest_unique x n r c k s i (Y / s) (Z / s) w Y Z Y1 Z1 W E Hi D1 D2 Hw FL FL1) as [<- <-].
    exists i, (Y / s), (Z / s), w. split; [assumption|]. split; [assumption|]. split; [assumption|]. split; [assumption|]. rewrite <- Eq. exact F.
Qed.

End PoolProps.

Inductive pool_op (A : Type) := PoolForward (x : arr A) | PoolBackward (g : arr A).
Arguments PoolForward {A}. Arguments PoolBackward {A}.

(** one operator object used for a sequence of forward and backward passes on images of one shape *)
Definition pool_step {A} (zero one : A) ltb is_one dbg s (shape : list nat) (st : pool) (o : pool_op A) : outcome (pool * arr A) :=
  match o with
  | PoolForward x => max_fwd zero one dbg ltb s st x
  | PoolBackward g => max_bwd zero is_one s st (Arr shape []) g
  end.

Fixpoint pool_run {A} (zero one : A) ltb is_one dbg s shape (st : pool) (os : list (pool_op A)) : outcome pool :=
  match os with
  | [] => Ok st
  | o :: t => obind (pool_step zero one ltb is_one dbg s shape st o) (fun p => pool_run zero one ltb is_one dbg s shape (fst p) t)
  end.

Fixpoint forwards {A} (os : list (pool_op A)) : list (arr A) :=
  match os with [] => [] | PoolForward x :: t => x :: forwards t | PoolBackward _ :: t => forwards t end.

Definition fits {A} (n r c k s : nat) (o : pool_op A) : Prop :=
  match o with
  | PoolForward x => wf x /\ ashape x = [n; r; c; k]
  | PoolBackward g => wf g /\ ashape g = [n; r / s; c / s; k]
  end.

Lemma pool_run_ok {A} (zero one : A) ltb is_one dbg n r c k s :
  strict_weak ltb -> is_one one = true -> is_one zero = false -> s <> 0 ->
  forall os xs st, Forall (fits n r c k s) os -> xs <> [] -> remembers zero one ltb n r c k s xs st ->
  exists st', pool_run zero one ltb is_one dbg s [n; r; c; k] st os = Ok st' /\ remembers zero one ltb n r c k s (xs ++ map adata (forwards os)) st'.
Proof.
  intros SW H1 H0 Hs. induction os as [|o os IH]; intros xs st F Hx Hr; cbn [pool_run forwards map].
  - exists st. rewrite app_nil_r. auto.
  - apply Forall_cons_iff in F. destruct F as [Fo F]. destruct o as [x|g]; cbn [pool_step fits] in *; destruct Fo as [W E].
    + destruct (max_fwd_ok zero one ltb SW dbg n r c k s Hs xs st x Hr W E) as (st1 & d & Ed & Hr1 & _). rewrite Ed. cbn [obind fst].
      destruct (IH (xs ++ [adata x]) st1 F ltac:(now destruct xs) Hr1) as (st2 & E2 & Hr2). exists st2. split; [assumption|].
      cbn [map]. now rewrite <- app_assoc in Hr2.
    + destruct (max_bwd_ok zero one ltb is_one H1 H0 n r c k s Hs xs st (Arr [n; r; c; k] []) g Hr Hx eq_refl W E) as (st1 & d & Ed & Hr1 & _).
      rewrite Ed. cbn [obind fst]. apply IH; auto.
Qed.

(** After any history of passes, each output element is a largest element of its block. *)
Theorem C37_max_pooling_forward : forall (A : Type) (zero one : A) ltb is_one dbg n r c k s x0 os (x : arr A),
  strict_weak ltb -> is_one one = true -> is_one zero = false -> s <> 0 ->
  Forall (fits n r c k s) (PoolForward x0 :: os) -> wf x -> ashape x = [n; r; c; k] ->
  exists st st' y, pool_run zero one ltb is_one dbg s [n; r; c; k] pool0 (PoolForward x0 :: os) = Ok st /\
    max_fwd zero one dbg ltb s st x = Ok (st', y) /\ wf y /\ ashape y = [n; r / s; c / s; k] /\
    forall i v z w, i < n -> v < r / s -> z < c / s -> w < k ->
      exists Y Z, first_largest ltb x s i v z w Y Z /\ at_index y [i; v; z; w] = at_index x [i; Y; Z; w].
Proof.
  intros A zero one ltb is_one dbg n r c k s x0 os x SW H1 H0 Hs F W E. apply Forall_cons_iff in F. destruct F as [[W0 E0] F].
  destruct (max_fwd_ok zero one ltb SW dbg n r c k s Hs [] pool0 x0 (remembers_start zero one ltb n r c k s Hs) W0 E0) as (st0 & d0 & Ed0 & Hr0 & _).
  destruct (pool_run_ok zero one ltb is_one dbg n r c k s SW H1 H0 Hs os ([] ++ [adata x0]) st0 F ltac:(discriminate) Hr0) as (st & Est & Hr).
  destruct (max_fwd_ok zero one ltb SW dbg n r c k s Hs _ st x Hr W E) as (st' & d & Ed & _ & Ld & Hd).
  exists st, st', (Arr [n; r / s; c / s; k] d). split; [cbn [pool_run pool_step]; rewrite Ed0; exact Est|]. split; [assumption|]. split; [now apply wf_arr|]. split; [reflexivity|].
  intros i v z w Hi Hv Hz Hw. destruct (Hd i v z w Hi Hv Hz Hw) as (p & Fp & Ep).
  destruct (first_max_largest zero ltb x n r c k s i v z w p SW W E Hi Hv Hz Hw Fp) as (Y & Z & HY & HZ & -> & FL).
  exists Y, Z. split; [assumption|]. rewrite at4, Ep. destruct x as [sx dx]. cbn [ashape adata] in *. subst sx. now rewrite at4.
Qed.
Print Assumptions C37_max_pooling_forward.

(** After any history, the backward pass gives the gradient of a block to every position of it that was the first largest in
    SOME of the forward passes so far, and zero to all other positions. *)
Theorem C37_max_pooling_backward : forall (A : Type) (zero one : A) ltb is_one dbg n r c k s x0 os (g : arr A),
  strict_weak ltb -> is_one one = true -> is_one zero = false -> s <> 0 ->
  Forall (fits n r c k s) (PoolForward x0 :: os) -> wf g -> ashape g = [n; r / s; c / s; k] ->
  exists st st' b, pool_run zero one ltb is_one dbg s [n; r; c; k] pool0 (PoolForward x0 :: os) = Ok st /\
    max_bwd zero is_one s st (Arr [n; r; c; k] []) g = Ok (st', b) /\ wf b /\ ashape b = [n; r; c; k] /\
    forall i Y Z w, i < n -> Y < r -> Z < c -> w < k ->
      let was_largest := exists x, In x (forwards (PoolForward x0 :: os)) /\ Y / s < r / s /\ Z / s < c / s /\ first_largest ltb x s i (Y / s) (Z / s) w Y Z in
      (was_largest -> at_index b [i; Y; Z; w] = at_index g [i; Y / s; Z / s; w]) /\
      (~ was_largest -> at_index b [i; Y; Z; w] = Some zero).
Proof.
  intros A zero one ltb is_one dbg n r c k s x0 os g SW H1 H0 Hs F W E. assert (F' := F). apply Forall_cons_iff in F. destruct F as [[W0 E0] F].
  destruct (max_fwd_ok zero one ltb SW dbg n r c k s Hs [] pool0 x0 (remembers_start zero one ltb n r c k s Hs) W0 E0) as (st0 & d0 & Ed0 & Hr0 & _).
  destruct (pool_run_ok zero one ltb is_one dbg n r c k s SW H1 H0 Hs os ([] ++ [adata x0]) st0 F ltac:(discriminate) Hr0) as (st & Est & Hr).
  destruct (max_bwd_ok zero one ltb is_one H1 H0 n r c k s Hs _ st (Arr [n; r; c; k] []) g Hr ltac:(discriminate) eq_refl W E) as (st' & d & Ed & _ & Ld & Hd).
  exists st, st', (Arr [n; r; c; k] d). split; [cbn [pool_run pool_step]; rewrite Ed0; exact Est|]. split; [assumption|]. split; [now apply wf_arr|]. split; [reflexivity|].
  assert (Fw : forall x, In x (forwards (PoolForward x0 :: os)) -> wf x /\ ashape x = [n; r; c; k]).
  { clear -F'. induction F' as [|o l Ho Fl IH]; [intros ? []|]. intros x Hx. destruct o; cbn [forwards] in Hx; [destruct Hx as [<-|Hx]|]; auto. }
  intros i Y Z w Hi HY HZ Hw was. specialize (Hd i Y Z w Hi HY HZ Hw).
  assert (Eqv : was <-> exists d, In d (([] ++ [adata x0]) ++ map adata (forwards os)) /\ chosen zero ltb n r c k s d (pos4 r c k i Y Z w)).
  { change (([] ++ [adata x0]) ++ map adata (forwards os)) with (map adata (forwards (PoolForward x0 :: os))). split.
    - intros (x & Hx & Hl). destruct (Fw x Hx) as [Wx Ex]. exists (adata x). split; [now apply in_map|]. apply chosen_largest; auto.
    - intros (d' & Hx & Hc). apply in_map_iff in Hx. destruct Hx as (x & <- & Hx). destruct (Fw x Hx) as [Wx Ex]. exists x. split; [assumption|].
      apply (chosen_largest zero ltb x n r c k s) in Hc; auto. }
  rewrite at4. split.
  - intros H. apply Eqv in H. rewrite (proj1 Hd H). destruct g as [sg dg]. cbn [ashape adata] in *. subst sg. now rewrite at4.
  - intros H. apply (proj2 Hd). intros H'. apply H. now apply Eqv.
Qed.
Print Assumptions C37_max_pooling_backward.

(** on its first use the operator routes each gradient to the first largest element of its block only *)
Theorem C37_first_run : forall (A : Type) (zero one : A) ltb is_one dbg n r c k s x (g : arr A),
  strict_weak ltb -> is_one one = true -> is_one zero = false -> s <> 0 ->
  wf x -> ashape x = [n; r; c; k] -> wf g -> ashape g = [n; r / s; c / s; k] ->
  exists st y st' b, max_fwd zero one dbg ltb s pool0 x = Ok (st, y) /\ max_bwd zero is_one s st (Arr [n; r; c; k] []) g = Ok (st', b) /\
    ashape b = [n; r; c; k] /\
    forall i Y Z w, i < n -> Y < r -> Z < c -> w < k ->
      let largest := Y / s < r / s /\ Z / s < c / s /\ first_largest ltb x s i (Y / s) (Z / s) w Y Z in
      (largest -> at_index b [i; Y; Z; w] = at_index g [i; Y / s; Z / s; w]) /\ (~ largest -> at_index b [i; Y; Z; w] = Some zero).
Proof.
  intros A zero one ltb is_one dbg n r c k s x g SW H1 H0 Hs Wx Ex Wg Eg.
  destruct (C37_max_pooling_backward A zero one ltb is_one dbg n r c k s x [] g SW H1 H0 Hs ltac:(repeat constructor; assumption) Wg Eg) as (st & st' & b & Er & Eb & Wb & Sb & Hb).
  cbn [pool_run pool_step] in Er. destruct (max_fwd zero one dbg ltb s pool0 x) as [[st1 y]| |] eqn:Ef; cbn [obind fst] in Er; try discriminate. injection Er as ->.
  exists st, y, st', b. split; [reflexivity|]. split; [assumption|]. split; [assumption|].
  intros i Y Z w Hi HY HZ Hw largest. destruct (Hb i Y Z w Hi HY HZ Hw) as [B1 B2]. split.
  - intros L. apply B1. exists x. cbn [forwards In]. unfold largest in L. tauto.
  - intros L. apply B2. intros (x' & [<-|[]] & L'). auto.
Qed.
Print Assumptions C37_first_run.

Example C37_case :
  let run := pool_run 0%Z 1%Z Z.ltb (Z.eqb 1) true 2 [1; 2; 2; 1] pool0 in
  obind (run [PoolForward (Arr [1; 2; 2; 1] [4; 7; 1; 7]%Z)]) (fun st => max_bwd 0%Z (Z.eqb 1) 2 st (Arr [1; 2; 2; 1] []) (Arr [1; 1; 1; 1] [5]%Z))
  = Ok (Pool [0; 1; 0; 0]%Z [7]%Z [0; 5; 0; 0]%Z, Arr [1; 2; 2; 1] [0; 5; 0; 0]%Z).
Proof. reflexivity. Qed.

(** the promise that each gradient goes to the largest element of the CURRENT input is false from the second run on *)
Theorem C37_backward_current_refuted :
  ~ (forall (x0 x g : arr Z) st b st', Forall (fits 1 2 2 1 2) [PoolForward x0; PoolForward x; PoolBackward g] ->
       pool_run 0%Z 1%Z Z.ltb (Z.eqb 1) true 2 [1; 2; 2; 1] pool0 [PoolForward x0; PoolForward x] = Ok st ->
       max_bwd 0%Z (Z.eqb 1) 2 st (Arr [1; 2; 2; 1] []) g = Ok (st', b) ->
       forall Y Z, Y < 2 -> Z < 2 -> ~ first_largest Z.ltb x 2 0 0 0 0 Y Z -> at_index b [0; Y; Z; 0] = Some 0%Z).
Proof.
  intros H. specialize (H (Arr [1; 2; 2; 1] [4; 7; 1; 2]%Z) (Arr [1; 2; 2; 1] [9; 7; 1; 2]%Z) (Arr [1; 1; 1; 1] [5]%Z) _ _ _ ltac:(repeat constructor) eq_refl eq_refl 0 1 ltac:(lia) ltac:(lia)).
  cbn in H. assert (HN : ~ first_largest Z.ltb (Arr [1; 2; 2; 1] [9; 7; 1; 2]%Z) 2 0 0 0 0 0 1).
  { intros (_ & _ & G). destruct (G 0 0 7%Z 9%Z ltac:(lia) ltac:(lia) eq_refl eq_refl) as [G1 _]. discriminate. }
  specialize (H HN). discriminate.
Qed.
Print Assumptions C37_backward_current_refuted.

(** ** C39 *)

Section Dropout.
Variables (fac : R).

Definition drop_forward (training : bool) (draws : list R) : drop -> arr R -> outcome (drop * arr R) :=
  drop_fwd 0%R 1%R Rmult Rdiv Rminus (fun a b => if Rlt_dec b a then true else false) fac training draws.

End Dropout.

(** outside training drop-out does nothing at all *)
Theorem C39_prediction : forall fac draws st (x g : arr R),
  drop_forward fac false draws st x = Ok (st, x) /\ drop_bwd 0%R Rmult false st g = Ok g.
Proof. intros. split; reflexivity. Qed.
Print Assumptions C39_prediction.

(** [kept fac draws i]: the draw for position i was above the factor *)
Definition kept (fac : R) (draws : list R) (i : nat) : Prop := (fac < nth i draws 0)%R.

(** In training, the draws of the first run decide for good: each later run on inputs that are not larger gives
    input/(1-factor) at the kept positions and 0 at the others, whatever is drawn later; the backward pass gives the
    unscaled gradient at the kept positions. *)
Theorem C39_training : forall fac draws (x0 : arr R) history,
  fac <> 1%R -> wf x0 -> Forall (fun p : list R * arr R => length (adata (snd p)) <= length (adata x0)) history ->
  exists y0 st ys, drop_forward fac true draws (Drop None) x0 = Ok (st, y0) /\
    runs (fun st p => drop_forward fac true (fst p) st (snd p)) (Drop None) ((draws, x0) :: history) = Ok (y0 :: ys) /\
    Forall2 (fun p y => ashape y = ashape (snd p) /\ length (adata y) = length (adata (snd p)) /\
      forall i, i < length (adata (snd p)) ->
        (kept fac draws i -> nth i (adata y) 0 = nth i (adata (snd p)) 0 / (1 - fac))%R /\ (~ kept fac draws i -> nth i (adata y) 0 = 0)%R)
      ((draws, x0) :: history) (y0 :: ys) /\
    forall g : arr R, length (adata g) <= length (adata x0) ->
      exists b, drop_bwd 0%R Rmult true st g = Ok b /\ ashape b = ashape g /\ length (adata b) = length (adata g) /\
        forall i, i < length (adata g) -> (kept fac draws i -> nth i (adata b) 0 = nth i (adata g) 0)%R /\ (~ kept fac draws i -> nth i (adata b) 0 = 0)%R.
Proof.
  intros fac draws x0 history Hf W0 F.
  set (mask := tab (length (adata x0)) (fun i => if (if Rlt_dec fac (nth i draws 0%R) then true else false) then 1%R else 0%R)).
  assert (Lm : length mask = length (adata x0)) by apply tab_length.
  assert (Hm : forall i, i < length (adata x0) -> (kept fac draws i -> nth i mask 0 = 1)%R /\ (~ kept fac draws i -> nth i mask 0 = 0)%R).
  { intros i Hi. unfold mask. rewrite nth_tab by assumption. unfold kept. destruct (Rlt_dec fac (nth i draws 0%R)); split; intros; tauto || reflexivity. }
  set (out := fun x : arr R => Arr (ashape x) (tab (length (adata x)) (fun i => nth i (adata x) 0 * (nth i mask 0 / (1 - fac)))%R)).
  assert (Hstep : forall dr x, length (adata x) <= length (adata x0) -> drop_forward fac true dr (Drop (Some mask)) x = Ok (Drop (Some mask), out x)).
  { intros dr x Hx. unfold drop_forward, drop_fwd. cbn [negb d_mask]. now rewrite Lm, (proj2 (Nat.leb_le _ _) Hx). }
  assert (H0 : drop_forward fac true draws (Drop None) x0 = Ok (Drop (Some mask), out x0)).
  { unfold drop_forward, drop_fwd. cbn [negb d_mask]. fold mask. now rewrite Lm, Nat.leb_refl. }
  assert (Hruns : forall h, Forall (fun p : list R * arr R => length (adata (snd p)) <= length (adata x0)) h ->
            runs (fun st p => drop_forward fac true (fst p) st (snd p)) (Drop (Some mask)) h = Ok (map (fun p => out (snd p)) h)).
  { induction 1 as [|p h Hp Hh IH]; cbn [runs map]; [reflexivity|]. rewrite Hstep by assumption. cbn [obind fst snd]. rewrite IH. reflexivity. }
  exists (out x0), (Drop (Some mask)), (map (fun p => out (snd p)) history). split; [assumption|]. split.
  { cbn [runs fst snd]. rewrite H0. cbn [obind fst snd]. rewrite Hruns by assumption. reflexivity. }
  split.
  - assert (Hone : forall x, length (adata x) <= length (adata x0) -> ashape (out x) = ashape x /\ length (adata (out x)) = length (adata x) /\
      forall i, i < length (adata x) -> (kept fac draws i -> nth i (adata (out x)) 0 = nth i (adata x) 0 / (1 - fac))%R /\ (~ kept fac draws i -> nth i (adata (out x)) 0 = 0)%R).
    { intros x Hx. split; [reflexivity|]. cbn [out adata]. rewrite tab_length. split; [reflexivity|]. intros i Hi. rewrite nth_tab by assumption.
      destruct (Hm i ltac:(lia)) as [M1 M2]. split; intros Hk; [rewrite (M1 Hk)|rewrite (M2 Hk)]; field; lra. }
    constructor; [apply Hone; cbn; lia|]. clear Hruns. induction F as [|p h Hp Hh IH]; cbn [map]; constructor; auto.
  - intros g Hg. exists (Arr (ashape g) (tab (length (adata g)) (fun i => nth i (adata g) 0 * nth i mask 0)%R)). unfold drop_bwd. cbn [negb d_mask].
    rewrite Lm, (proj2 (Nat.leb_le _ _) Hg). split; [reflexivity|]. split; [reflexivity|]. cbn [adata]. rewrite tab_length. split; [reflexivity|].
    intros i Hi. rewrite nth_tab by assumption. destruct (Hm i ltac:(lia)) as [M1 M2]. split; intros Hk; [rewrite (M1 Hk)|rewrite (M2 Hk)]; ring.
Qed.
Print Assumptions C39_training.

Example C39_training_case : (0 <> 1)%R /\ wf (Arr [2] [5; 7]%R) /\ kept 0 [0; 1]%R 1 /\ ~ kept 0 [0; 1]%R 0.
Proof. split; [lra|]. split; [reflexivity|]. unfold kept. cbn. split; lra. Qed.

(** so the backward pass is the adjoint of the forward pass only without drop-out: a factor of 0 *)
Theorem C39_backward_adjoint_iff : forall fac draws (x0 : arr R) n,
  fac <> 1%R -> wf x0 -> ashape x0 = [n] -> (exists i, i < n /\ kept fac draws i) ->
  forall st y0, drop_forward fac true draws (Drop None) x0 = Ok (st, y0) ->
  (adjoint [n] [n] (fun x => obind (drop_forward fac true [] st x) (fun p => Ok (snd p))) (fun _ g => drop_bwd 0%R Rmult true st g) <-> fac = 0%R).
Proof.
  intros fac draws x0 n Hf W0 E0 (i0 & Hi0 & Hk0) st y0 Est.
  assert (L0 : length (adata x0) = n) by (unfold wf in W0; rewrite W0, E0; cbn; lia).
  unfold drop_forward, drop_fwd in Est. cbn [negb d_mask] in Est. set (mask := tab (length (adata x0)) _) in Est.
  assert (Lm : length mask = n) by (unfold mask; now rewrite tab_length). rewrite L0, Lm, Nat.leb_refl in Est. injection Est as <- _.
  assert (Fw : forall x, wf x -> ashape x = [n] -> obind (drop_forward fac true [] (Drop (Some mask)) x) (fun p => Ok (snd p))
             = Ok (Arr [n] (tab n (fun i => nth i (adata x) 0 * (nth i mask 0 / (1 - fac)))%R))).
  { intros x Wx Ex. assert (Lx : length (adata x) = n) by (unfold wf in Wx; rewrite Wx, Ex; cbn; lia).
    unfold drop_forward, drop_fwd. cbn [negb d_mask]. rewrite Lx, Lm, Nat.leb_refl. cbn [obind snd]. now rewrite Ex. }
  assert (Bw : forall g, wf g -> ashape g = [n] -> drop_bwd 0%R Rmult true (Drop (Some mask)) g = Ok (Arr [n] (tab n (fun i => nth i (adata g) 0 * nth i mask 0)%R))).
  { intros g Wg Eg. assert (Lg : length (adata g) = n) by (unfold wf in Wg; rewrite Wg, Eg; cbn; lia).
    unfold drop_bwd. cbn [negb d_mask]. rewrite Lg, Lm, Nat.leb_refl. now rewrite Eg. }
  assert (W1 : forall f : nat -> R, wf (Arr [n] (tab n f))) by (intros f; apply wf_arr; rewrite tab_length; cbn; lia).
  assert (Lw : forall x : arr R, wf x -> ashape x = [n] -> length (adata x) = n) by (intros x Wx Ex; unfold wf in Wx; rewrite Wx, Ex; cbn; lia).
  split.
  - intros Adj. set (e := Arr [n] (tab n (fun i => if Nat.eqb i0 i then 1 else 0)%R)).
    destruct (Adj x0 e W0 E0 (W1 _) eq_refl) as (b & Eb & _ & _ & Hb). rewrite Bw in Eb by (apply W1 || reflexivity). injection Eb as <-.
    destruct (Hb e (W1 _) eq_refl) as (y & Ey & _ & _ & Ei). rewrite Fw in Ey by (apply W1 || reflexivity). injection Ey as <-.
    cbn [adata e] in Ei. rewrite !(inner_tab _ _ n) in Ei by apply tab_length.
    rewrite (map_ext_in _ (fun i => if Nat.eqb i0 i then nth i mask 0 else 0)%R (seq 0 n)) in Ei.
    2:{ intros i Hi. apply in_seq in Hi. rewrite !nth_tab by lia. destruct (i0 =? i); ring. }
    rewrite (rsum_single (fun i => nth i mask 0%R) n i0 Hi0) in Ei.
    rewrite (map_ext_in _ (fun i => if Nat.eqb i0 i then nth i mask 0 / (1 - fac) else 0)%R (seq 0 n)) in Ei.
    2:{ intros i Hi. apply in_seq in Hi. rewrite !nth_tab by lia. destruct (i0 =? i); field; lra. }
    rewrite (rsum_single (fun i => nth i mask 0 / (1 - fac))%R n i0 Hi0) in Ei.
    assert (Em : nth i0 mask 0%R = 1%R). { unfold mask. rewrite nth_tab by lia. unfold kept in Hk0. destruct (Rlt_dec fac (nth i0 draws 0%R)); tauto. }
    rewrite Em in Ei. assert (1 - fac <> 0)%R by lra. apply (f_equal (fun v => v * (1 - fac))%R) in Ei. field_simplify in Ei; lra.
  - intros ->. intros x g Wx Ex Wg Eg. rewrite Bw by assumption. eexists. split; [reflexivity|]. split; [apply W1|]. split; [reflexivity|].
    intros x' Wx' Ex'. rewrite Fw by assumption. eexists. split; [reflexivity|]. split; [apply W1|]. split; [reflexivity|]. cbn [adata].
    rewrite !(inner_tab _ _ n) by (rewrite ?tab_length; auto). f_equal. apply map_ext_in. intros i Hi. apply in_seq in Hi. rewrite !nth_tab by lia. field.
Qed.
Print Assumptions C39_backward_adjoint_iff.

(** a larger input after the first training run reads beyond the mask *)
Theorem C39_larger_batch : forall fac draws draws' (x0 x : arr R) st y0,
  drop_forward fac true draws (Drop None) x0 = Ok (st, y0) -> length (adata x0) < length (adata x) ->
  drop_forward fac true draws' st x = UB.
Proof.
  intros fac draws draws' x0 x st y0 E H. unfold drop_forward, drop_fwd in *. cbn [negb d_mask] in E. rewrite tab_length, Nat.leb_refl in E. injection E as <- _.
  cbn [negb d_mask]. now rewrite tab_length, (proj2 (Nat.leb_gt _ _) H).
Qed.
Print Assumptions C39_larger_batch.

Example C39_larger_batch_case : exists st y, drop_forward 0 true [1]%R (Drop None) (Arr [1] [5]%R) = Ok (st, y) /\ length [5]%R < length [5; 6]%R.
Proof. eexists. eexists. split; [reflexivity|]. cbn. lia. Qed.

(** ** C50: the repeat operator *)

(** every slice along the axis is repeated in place, as numpy.repeat does; backward is the adjoint *)
Theorem C50_repeat : forall (A : Type) (zero : A) repeats cache (x : arr A) p a q,
  wf x -> ashape x = p ++ a :: q ->
  exists cache' y, repeat_fwd zero repeats (Some (length p)) cache x = Ok (cache', y) /\ wf y /\ ashape y = p ++ a * repeats :: q /\
    forall ip i j iq, valid p ip -> valid q iq -> i < a -> j < repeats ->
      at_index y (ip ++ (i * repeats + j) :: iq) = at_index x (ip ++ i :: iq).
Proof.
  intros A zero repeats cache x p a q W E.
  destruct (Nat.eq_dec repeats 1) as [->|Hrep].
  - exists cache, x. split; [reflexivity|]. split; [assumption|]. split; [now rewrite E, Nat.mul_1_r|]. intros ip i j iq _ _ _ Hj. do 2 f_equal. f_equal. lia.
  - assert (Hax : Nat.min (length p) (length (ashape x) - 1) = length p) by (rewrite E, app_length; cbn [length]; lia).
    destruct (repeat_fwd_ok zero repeats (Some (length p)) cache x p a q W E Hrep Hax) as (d & Ed & Ld & Hd).
    exists d, (Arr (p ++ a * repeats :: q) d). split; [assumption|]. split; [apply wf_arr; rewrite Ld, prod_app, prod_cons; ring|]. split; [reflexivity|].
    intros ip i j iq Vp Vq Hi Hj. unfold at_index. cbn [ashape adata]. rewrite E.
    assert (Lp := valid_length _ _ Vp). rewrite !offset_app by assumption. cbn [offset]. rewrite !prod_cons.
    assert (Op := valid_offset_lt _ _ Vp). assert (Oq := valid_offset_lt _ _ Vq).
    replace (offset p ip * (a * repeats * prod q) + ((i * repeats + j) * prod q + offset q iq))
      with ((offset p ip * a + i) * (repeats * prod q) + (j * prod q + offset q iq)) by ring.
    rewrite Hd by (assumption || nia). f_equal. ring.
Qed.
Print Assumptions C50_repeat.

Example C50_repeat_case : repeat_fwd 0%Z 2 (Some 1) [] (Arr [1; 2; 2] [1; 2; 3; 4]%Z) = Ok ([1; 2; 1; 2; 3; 4; 3; 4]%Z, Arr [1; 4; 2] [1; 2; 1; 2; 3; 4; 3; 4]%Z).
Proof. reflexivity. Qed.

(** without an axis, or with one that is too large, the last axis is meant *)
Theorem C50_repeat_axis : forall (A : Type) (zero : A) repeats cache (x : arr A) axis,
  ashape x <> [] -> (match axis with None => True | Some ax => length (ashape x) <= ax end) ->
  repeat_fwd zero repeats axis cache x = repeat_fwd zero repeats (Some (length (ashape x) - 1)) cache x.
Proof.
  intros A zero repeats cache x axis Hne H. unfold repeat_fwd. destruct (ashape x) eqn:E; [congruence|]. rewrite Nat.min_id. destruct axis as [ax|]; [|reflexivity].
  rewrite <- E in *. rewrite (Nat.min_r ax) by lia. reflexivity.
Qed.
Print Assumptions C50_repeat_axis.

Theorem C50_repeat_adjoint : forall repeats cache p a q,
  adjoint (p ++ a :: q) (p ++ a * repeats :: q)
    (fun x => obind (repeat_fwd 0%R repeats (Some (length p)) cache x) (fun r => Ok (snd r))) (repeat_bwd 0%R Rplus repeats (Some (length p))).
Proof.
  intros repeats cache p a q x0 g Wx0 Ex0 Wg Eg. destruct (Nat.eq_dec repeats 1) as [->|Hrep].
  - rewrite Nat.mul_1_r in *. exists g. split; [reflexivity|]. split; [assumption|]. split; [assumption|]. intros x Wx Ex. exists x. auto.
  - assert (Hax : forall x : arr R, ashape x = p ++ a :: q -> Nat.min (length p) (length (ashape x) - 1) = length p) by (intros x E; rewrite E, app_length; cbn [length]; lia).
    assert (Lg : length (adata g) = prod p * a * (repeats * prod q)) by (unfold wf in Wg; rewrite Wg, Eg, prod_app, prod_cons; ring).
    destruct (repeat_bwd_adjoint repeats (Some (length p)) x0 g p a q Ex0 Hrep (Hax x0 Ex0) Lg) as (b & Eb & Lb & Hb).
    exists (Arr (ashape x0) b). split; [assumption|]. split; [now apply wf_arr|]. split; [assumption|]. intros x Wx Ex.
    destruct (repeat_fwd_ok 0%R repeats (Some (length p)) cache x p a q Wx Ex Hrep (Hax x Ex)) as (d & Ed & Ld & Hd).
    exists (Arr (p ++ a * repeats :: q) d). rewrite Ed. split; [reflexivity|]. split; [apply wf_arr; rewrite Ld, prod_app, prod_cons; ring|]. split; [reflexivity|]. cbn [adata].
    apply Hb; [unfold wf in Wx; rewrite Wx, Ex, Ex0; reflexivity|assumption|]. intros it re j H1 H2 H3. specialize (Hd it re j H1 H2 H3).
    rewrite <- !nth_default_eq. unfold nth_default. now rewrite Hd.
Qed.
Print Assumptions C50_repeat_adjoint.

(** ** C51: spreading for the transposed convolution *)

Theorem C51_spread : forall (A : Type) (zero : A) dbg rk ck rs cs vp (x : arr A) n r c k,
  wf x -> ashape x = [n; r; c; k] -> rs <> 0 -> cs <> 0 -> (vp = true -> rk <> 0 /\ ck <> 0) ->
  let ro := if vp then rk - 1 else 0 in let co := if vp then ck - 1 else 0 in
  exists y, spread_fwd zero dbg rk ck rs cs vp x = Ok y /\ wf y /\ ashape y = [n; r * rs + 2 * ro; c * cs + 2 * co; k] /\
    (forall i v z w, i < n -> v < r -> z < c -> w < k -> at_index y [i; ro + v * rs; co + z * cs; w] = at_index x [i; v; z; w]) /\
    (forall i Y Z w, i < n -> Y < r * rs + 2 * ro -> Z < c * cs + 2 * co -> w < k ->
       (~ exists v z, v < r /\ z < c /\ Y = ro + v * rs /\ Z = co + z * cs) -> at_index y [i; Y; Z; w] = Some zero).
Proof.
  intros A zero dbg rk ck rs cs vp x n r c k W E Hrs Hcs Hvp ro co.
  destruct (spread_fwd_ok zero dbg rk ck rs cs vp x n r c k W E Hrs Hcs Hvp) as (d & Ed & Ld & H1 & H2). cbv zeta in *. fold ro co in H1, H2.
  assert (ER : spread_extent r rk rs vp = r * rs + 2 * ro) by (unfold spread_extent, ro; destruct vp; [destruct (Hvp eq_refl)|]; lia).
  assert (EC : spread_extent c ck cs vp = c * cs + 2 * co) by (unfold spread_extent, co; destruct vp; [destruct (Hvp eq_refl)|]; lia).
  rewrite ER, EC in *. exists (Arr [n; r * rs + 2 * ro; c * cs + 2 * co; k] d). split; [assumption|]. split; [now apply wf_arr|]. split; [reflexivity|]. split.
  - intros i v z w Hi Hv Hz Hw. rewrite at4. destruct (H1 i v z w Hi Hv Hz Hw) as (_ & _ & ->). destruct x as [sx dx]. cbn [ashape adata] in *. subst sx. now rewrite at4.
  - intros i Y Z w Hi HY HZ Hw Hno. rewrite at4. now apply H2.
Qed.
Print Assumptions C51_spread.

Example C51_spread_case : spread_fwd 0%Z true 2 1 2 1 true (Arr [1; 2; 1; 1] [3; 4]%Z) = Ok (Arr [1; 6; 1; 1] [0; 3; 0; 4; 0; 0]%Z).
Proof. reflexivity. Qed.

Theorem C51_spread_adjoint : forall dbg rk ck rs cs vp n r c k, rs <> 0 -> cs <> 0 -> (vp = true -> rk <> 0 /\ ck <> 0) ->
  adjoint [n; r; c; k] [n; spread_extent r rk rs vp; spread_extent c ck cs vp; k] (spread_fwd 0%R dbg rk ck rs cs vp) (spread_bwd 0%R rk ck rs cs vp).
Proof.
  intros dbg rk ck rs cs vp n r c k Hrs Hcs Hvp x0 g Wx0 Ex0 Wg Eg.
  destruct (spread_bwd_ok 0%R rk ck rs cs vp x0 g n r c k Ex0 Hrs Hcs Hvp Wg Eg) as (b & Eb & Lb & Hb).
  exists (Arr [n; r; c; k] b). split; [assumption|]. split; [now apply wf_arr|]. split; [reflexivity|]. intros x Wx Ex.
  destruct (spread_fwd_ok 0%R dbg rk ck rs cs vp x n r c k Wx Ex Hrs Hcs Hvp) as (y & Ey & Ly & H1 & H2). cbv zeta in *.
  eexists. split; [exact Ey|]. split; [now apply wf_arr|]. split; [reflexivity|]. cbn [adata].
  assert (Nth : forall (l m : list R) i j, nth_error l i = nth_error m j -> nth i l 0%R = nth j m 0%R).
  { intros l m i j H. rewrite <- !nth_default_eq. unfold nth_default. now rewrite H. }
  assert (HR : forall v, v < r -> (if vp then rk - 1 else 0) + v * rs < spread_extent r rk rs vp).
  { intros v Hv. assert ((v + 1) * rs <= r * rs) by (apply Nat.mul_le_mono_r; lia). unfold spread_extent. destruct vp; [destruct (Hvp eq_refl)|]; lia. }
  assert (HC : forall v, v < c -> (if vp then ck - 1 else 0) + v * cs < spread_extent c ck cs vp).
  { intros v Hv. assert ((v + 1) * cs <= c * cs) by (apply Nat.mul_le_mono_r; lia). unfold spread_extent. destruct vp; [destruct (Hvp eq_refl)|]; lia. }
  apply (spread_adjoint n r c k (spread_extent r rk rs vp) (spread_extent c ck cs vp) (if vp then rk - 1 else 0) rs (if vp then ck - 1 else 0) cs); auto.
  - now apply wf4.
  - now apply wf4.
  - intros i v z w Hi Hv Hz Hw. apply Nth. now apply H1.
  - intros i Y Z w Hi HY HZ Hw Hno. apply nth_error_nth. now apply H2.
Qed.
Print Assumptions C51_spread_adjoint.
