(** Properties C08-C17: broadcasting, sums and differences, scalar arithmetic, copies, reshape, products. *)
From Coq Require Import List Arith Lia Bool PeanoNat ZArith.
From Verif Require Import ListBase TensorModel TensorSpec TensorProofs TensorProofs2 AliasModel AliasProofs.
Import ListNotations.

(** ** C08 *)

(** In a debug build the computed shape is exactly NumPy's, and shapes with no broadcast are rejected. *)
Theorem C08_broadcast_shape_numpy : forall a b,
  (forall r, broadcast_shape true a b = Ok r <-> Broadcasts a b r) /\
  (broadcast_shape true a b = Abort <-> ~ exists r, Broadcasts a b r).
Proof.
  intros a b. split; [apply broadcast_shape_iff|]. split.
  - intros H [r Hr]. rewrite (broadcast_shape_ok true a b r Hr) in H. discriminate.
  - intros H. apply broadcast_shape_bad. intros r Hr. apply H. eauto.
Qed.
Print Assumptions C08_broadcast_shape_numpy.

(** A release build returns the same shape whenever there is one. *)
Theorem C08_broadcast_shape_release : forall a b r, Broadcasts a b r -> broadcast_shape false a b = Ok r.
Proof. intros a b r. apply broadcast_shape_ok. Qed.
Print Assumptions C08_broadcast_shape_release.

(** The operation is a partial commutative idempotent monoid with unit []. *)
Theorem C08_broadcast_shape_laws :
  (forall a, broadcast_shape true a a = Ok a) /\
  (forall a, broadcast_shape true [] a = Ok a) /\
  (forall a b, broadcast_shape true a b = broadcast_shape true b a) /\
  (forall a b c, obind (broadcast_shape true a b) (fun ab => broadcast_shape true ab c)
               = obind (broadcast_shape true b c) (fun bc => broadcast_shape true a bc)).
Proof.
  assert (D : forall a b, (exists r, broadcast_shape true a b = Ok r /\ Broadcasts a b r) \/
                          (broadcast_shape true a b = Abort /\ forall r, ~ Broadcasts a b r)).
  { intros a b. destruct (find_bad a b (Nat.max (length a) (length b))) as [G|(j & Hj & G)].
    - left. destruct (Broadcasts_build a b G) as [r Hr]. exists r. split; [now apply broadcast_shape_ok|assumption].
    - right. assert (N : forall r, ~ Broadcasts a b r) by (intros r Hr; exact (G _ (Broadcasts_all a b r j Hr))).
      split; [now apply broadcast_shape_bad|assumption]. }
  split; [intros a; apply broadcast_shape_ok, Broadcasts_refl|].
  split; [intros a; apply broadcast_shape_ok, Broadcasts_nil|]. split.
  - intros a b. destruct (D a b) as [(r & -> & B)|[-> N]].
    + symmetry. apply broadcast_shape_ok. now apply Broadcasts_sym.
    + symmetry. apply broadcast_shape_bad. intros r B. exact (N r (Broadcasts_sym _ _ _ B)).
  - intros a b c. destruct (D a b) as [(ab & -> & B1)|[-> N1]]; cbn [obind].
    + destruct (D ab c) as [(r & -> & B2)|[-> N2]].
      * destruct (Broadcasts_assoc _ _ _ _ _ B1 B2) as (bc & B3 & B4).
        rewrite (broadcast_shape_ok true _ _ _ B3). cbn [obind]. now rewrite (broadcast_shape_ok true _ _ _ B4).
      * destruct (D b c) as [(bc & -> & B3)|[-> N3]]; cbn [obind]; [|reflexivity].
        symmetry. apply broadcast_shape_bad. intros r B4.
        destruct (Broadcasts_assoc c b a bc r (Broadcasts_sym _ _ _ B3) (Broadcasts_sym _ _ _ B4)) as (ba & B5 & B6).
        pose proof (Broadcasts_fun _ _ _ _ B1 (Broadcasts_sym _ _ _ B5)) as <-. exact (N2 r (Broadcasts_sym _ _ _ B6)).
    + destruct (D b c) as [(bc & -> & B3)|[-> N3]]; cbn [obind]; [|reflexivity].
      symmetry. apply broadcast_shape_bad. intros r B4.
      destruct (Broadcasts_assoc c b a bc r (Broadcasts_sym _ _ _ B3) (Broadcasts_sym _ _ _ B4)) as (ba & B5 & _).
      exact (N1 ba (Broadcasts_sym _ _ _ B5)).
Qed.
Print Assumptions C08_broadcast_shape_laws.

Example C08_example : broadcast_shape true [8; 1; 6; 1] [7; 1; 5] = Ok [8; 7; 6; 5] /\ broadcast_shape true [4; 1] [8; 4; 3] = Ok [8; 4; 3]
  /\ broadcast_shape true [2; 3] [4; 3] = Abort.
Proof. vm_compute. auto. Qed.

(** ** C09 *)

(** Broadcasting to a shape the tensor stretches to: right shape, right elements, nothing existing changed; the result
    shares the operand's storage exactly when only leading ones were added. *)
Theorem C09_broadcast_tensor_elements : forall (A : Type) (zero : A) dbg t S (h : list (list A)),
  well_formed h t -> Stretches (shape t) S ->
  exists t' ext, broadcast_tensor zero dbg t S h = Ok (t', h ++ ext) /\ shape t' = S /\ well_formed (h ++ ext) t' /\
    (forall idx, valid S idx -> elem (h ++ ext) t' idx = elem h t (source_index (shape t) idx)) /\
    (ref t' = ref t <-> padded (length S) (shape t) = S).
Proof.
  intros A zero dbg t S h (d & Hd & Hl) St.
  destruct (broadcast_tensor_full zero dbg t S h d Hd Hl St) as (t' & ext & d' & R1 & R2 & R3 & R4 & R5 & R6 & R7).
  exists t', ext. split; [exact R1|]. split; [exact R2|]. split; [exists d'; rewrite R2; auto|]. split.
  - intros idx V. unfold elem. rewrite R3, Hd, R2. now apply R5.
  - split; [|intros E; now apply R6]. intros E.
    destruct (list_eq_dec Nat.eq_dec (padded (length S) (shape t)) S) as [|N]; [assumption|]. specialize (R7 N).
    assert (ref t < length h) by (apply nth_error_Some; congruence). lia.
Qed.
Print Assumptions C09_broadcast_tensor_elements.

(** In a debug build every other target shape is rejected, except that a target of smaller rank is not checked at all. *)
Theorem C09_broadcast_tensor_rejects : forall (A : Type) (zero : A) t S (h : list (list A)),
  well_formed h t -> ~ Stretches (shape t) S ->
  broadcast_tensor zero true t S h = if length S <? length (shape t) then UB else Abort.
Proof.
  intros A zero t S h (d & Hd & Hl) N. destruct (Nat.ltb_spec (length S) (length (shape t))).
  - now apply broadcast_tensor_long.
  - now apply (broadcast_tensor_reject zero t S h d).
Qed.
Print Assumptions C09_broadcast_tensor_rejects.

Example C09_example :
  broadcast_tensor 0 true (mkT [2; 1] 0) [2; 2; 3] [[7; 9]]
  = Ok (mkT [2; 2; 3] 2, [[7; 9]; [7; 7; 7; 9; 9; 9]; [7; 7; 7; 9; 9; 9; 7; 7; 7; 9; 9; 9]]).
Proof. vm_compute. reflexivity. Qed.

(** ** C10, C11 *)

(** f is + or -: the value at every index of the broadcast shape, in any heap and with any aliasing of the operands *)
Theorem C10_sum_difference_values : forall (A : Type) (zero : A) dbg f lhs rhs r (h : list (list A)),
  well_formed h lhs -> well_formed h rhs -> Broadcasts (shape lhs) (shape rhs) r ->
  exists t h', zip_broadcast zero dbg f lhs rhs h = Ok (t, h') /\ shape t = r /\ well_formed h' t /\
    forall idx, valid r idx -> exists x y,
      elem h lhs (source_index (shape lhs) idx) = Some x /\ elem h rhs (source_index (shape rhs) idx) = Some y /\
      elem h' t idx = Some (f x y).
Proof.
  intros A zero dbg f lhs rhs r h (dl & Hl & Ll) (dr & Hr & Lr) B.
  destruct (zip_broadcast_full zero dbg f lhs rhs r h dl dr Hl Ll Hr Lr B) as (t & h' & res & R1 & R2 & R3 & R4 & R5 & _).
  exists t, h'. split; [exact R1|]. split; [exact R2|]. split; [exists res; rewrite R2; auto|].
  intros idx V. destruct (R5 idx V) as (x & y & H1 & H2 & H3). exists x, y. unfold elem. rewrite Hl, Hr, R3, R2. auto.
Qed.
Print Assumptions C10_sum_difference_values.

Example C10_example :
  zip_broadcast 0%Z true Z.sub (mkT [2; 1] 0) (mkT [3] 1) [[10; 20]; [1; 2; 3]]%Z
  = Ok (mkT [2; 3] 2, [[10; 20]; [1; 2; 3]; [9; 8; 7; 19; 18; 17]; [1; 2; 3; 1; 2; 3]]%Z).
Proof. vm_compute. reflexivity. Qed.

(** What is changed: nothing but, possibly, the left operand's storage; and that exactly when the left operand already has
    the broadcast shape up to leading ones.  In that case it is overwritten with the result. *)
Theorem C11_sum_difference_frame : forall (A : Type) (zero : A) dbg f lhs rhs r (h : list (list A)) t h',
  well_formed h lhs -> well_formed h rhs -> Broadcasts (shape lhs) (shape rhs) r ->
  zip_broadcast zero dbg f lhs rhs h = Ok (t, h') ->
  (forall s, s < length h -> s <> ref lhs -> nth_error h' s = nth_error h s) /\
  (padded (length r) (shape lhs) <> r -> nth_error h' (ref lhs) = nth_error h (ref lhs) /\ length h <= ref t) /\
  (padded (length r) (shape lhs) = r -> ref t = ref lhs /\ contents h' lhs = contents h' t).
Proof.
  intros A zero dbg f lhs rhs r h t h' (dl & Hl & Ll) (dr & Hr & Lr) B E.
  destruct (zip_broadcast_full zero dbg f lhs rhs r h dl dr Hl Ll Hr Lr B) as (t0 & h0 & res & R1 & R2 & R3 & R4 & R5 & R6 & R7 & R8).
  rewrite R1 in E. injection E as <- <-.
  assert (HL : ref lhs < length h) by (apply nth_error_Some; congruence). split; [|split].
  - intros s Hs Hne. apply R8; [assumption|].
    destruct (list_eq_dec Nat.eq_dec (padded (length r) (shape lhs)) r) as [E|N].
    + rewrite (R6 E). assumption.
    + specialize (R7 N). lia.
  - intros N. specialize (R7 N). split; [|assumption]. apply R8; [assumption|lia].
  - intros E. specialize (R6 E). split; [assumption|]. unfold contents. now rewrite R6.
Qed.
Print Assumptions C11_sum_difference_frame.

(** The promise "a + b leaves a alone" is false: here a is [1;2] before and [11;22] after. *)
Theorem C11_operand_unchanged_refuted :
  ~ (forall (lhs rhs t : tensor) r (h h' : list (list Z)),
       well_formed h lhs -> well_formed h rhs -> Broadcasts (shape lhs) (shape rhs) r ->
       zip_broadcast 0%Z true Z.add lhs rhs h = Ok (t, h') -> contents h' lhs = contents h lhs).
Proof.
  intros H.
  specialize (H (mkT [2] 0) (mkT [2] 1) (mkT [2] 0) [2] [[1; 2]; [10; 20]]%Z [[11; 22]; [10; 20]]%Z).
  enough (contents [[11; 22]; [10; 20]]%Z (mkT [2] 0) = contents [[1; 2]; [10; 20]]%Z (mkT [2] 0)) as E by discriminate E.
  apply H.
  - exists [1; 2]%Z. auto.
  - exists [10; 20]%Z. auto.
  - apply Broadcasts_refl.
  - reflexivity.
Qed.
Print Assumptions C11_operand_unchanged_refuted.

(** ** C12 *)

(** t + x, x + t, t - x, x - t, t * x, x * t, t / x, -t are all [scalar_op f] for the evident f: a fresh tensor of the same
    shape with f applied to each element, every existing storage as it was *)
Theorem C12_scalar_arithmetic : forall (A : Type) (zero : A) f t (h : list (list A)),
  well_formed h t ->
  exists t' h', scalar_op zero f t h = Ok (t', h') /\ shape t' = shape t /\ ref t' = length h /\
    (forall s, s < length h -> nth_error h' s = nth_error h s) /\
    (forall idx, valid (shape t) idx -> exists x, elem h t idx = Some x /\ elem h' t' idx = Some (f x)).
Proof.
  intros A zero f t h (d & Hd & Hl). exists (mkT (shape t) (length h)), (h ++ [map f d]).
  split; [now apply scalar_op_ok|]. split; [reflexivity|]. split; [reflexivity|]. split.
  - intros s Hs. now rewrite nth_error_app1.
  - intros idx V. pose proof (valid_offset_lt _ _ V). unfold elem. cbn [shape ref]. rewrite nth_error_alloc, Hd.
    destruct (nth_error d (offset (shape t) idx)) as [x|] eqn:E; [|apply nth_error_None in E; lia].
    exists x. split; [reflexivity|]. now apply map_nth_error.
Qed.
Print Assumptions C12_scalar_arithmetic.

Example C12_example : scalar_op 0%Z (fun v => 5 - v)%Z (mkT [2; 2] 0) [[1; 2; 3; 4]]%Z = Ok (mkT [2; 2] 1, [[1; 2; 3; 4]; [4; 3; 2; 1]]%Z).
Proof. reflexivity. Qed.

(** ** C13 *)

(** After y = x, whatever in-place operations follow (through any names), x and y show the same elements, as long as neither
    of the two is assigned to. *)
Theorem C13_copy_shares : forall (A : Type) (zero : A) dbg (s : state A) x sh d s1 p s2,
  seen s x = Some (sh, d) -> step zero dbg s (Copy x) = Ok s1 -> exec zero dbg s1 p = Ok s2 ->
  Forall (fun o => rebound o <> Some x /\ rebound o <> Some (length (env s))) p ->
  seen s1 (length (env s)) = Some (sh, d) /\
  option_map snd (seen s2 x) = option_map snd (seen s2 (length (env s))).
Proof. intros A zero dbg. exact (copy_shares zero dbg). Qed.
Print Assumptions C13_copy_shares.

(** After y = x.deep_copy(): no program that writes neither to y nor to an alias of y changes what y shows, and no program
    that writes only to y and to tensors made later from y or from scratch changes what any older name shows. *)
Theorem C13_deep_copy_independent : forall (A : Type) (zero : A) dbg (s : state A) x sh d s1 p s2,
  live s -> seen s x = Some (sh, d) -> length d = prod sh ->
  step zero dbg s (DeepCopy x) = Ok s1 -> exec zero dbg s1 p = Ok s2 ->
  let y := length (env s) in
  seen s1 y = Some (sh, d) /\
  (Forall (fun o => written o <> Some y /\ aliased o <> Some y) p -> seen s2 y = Some (sh, d)) /\
  (Forall (fun o => (forall z, written o = Some z -> y <= z) /\ (forall z, aliased o = Some z -> y <= z)) p ->
   forall z, z < y -> seen s2 z = seen s z).
Proof. intros A zero dbg. exact (deep_copy_independent zero dbg). Qed.
Print Assumptions C13_deep_copy_independent.

Example C13_example :
  let s := mkS [mkT [2] 0] [[1; 2]%Z] in
  exec 0%Z true s [Copy 0; DeepCopy 0; SetElem 1 0 7%Z; ZipIn Z.add 0 2; MapIn (Z.mul 2) 2]
  = Ok (mkS [mkT [2] 0; mkT [2] 0; mkT [2] 1] [[8; 4]; [2; 4]]%Z).
Proof. vm_compute. reflexivity. Qed.

(** ** C14 *)

(** the shape a request stands for, given the number of elements: a trailing -1 is the quotient *)
Definition requested (size : nat) (rs : list (option nat)) (s : list nat) : Prop :=
  exists pre, (exists k, rs = map Some pre ++ [Some k] /\ s = pre ++ [k]) \/
              (rs = map Some pre ++ [None] /\ prod pre <> 0 /\ s = pre ++ [size / prod pre]).

(** A request of the same size only changes this object's shape; a request of another size is not rejected: all aliases lose
    their elements (they become the right number of zeros), everything else is untouched. *)
Theorem C14_reshape : forall (A : Type) (zero : A) t (h : list (list A)) d rs s,
  nth_error h (ref t) = Some d -> requested (length d) rs s ->
  reshape_req zero t rs h
  = Ok (mkT s (ref t), if prod s =? length d then h else upd h (ref t) (repeat zero (prod s))).
Proof.
  intros A zero t h d rs s Hd (pre & R).
  assert (RL : forall o, removelast (map Some pre ++ [o]) = map Some pre) by (intros; apply removelast_last).
  assert (LL : forall o, last (map Some pre ++ [o]) None = o) by (intros; apply last_last).
  assert (E : reshape_req zero t rs h = resize zero t s h).
  { unfold reshape_req. rewrite (bind_ok _ _ _ _ _ (data_ok _ _ _ Hd)).
    destruct R as [(k & -> & ->)|(-> & Hp & ->)].
    - rewrite RL, LL, all_known_map. destruct (map Some pre ++ [Some k]) eqn:E; [destruct (map Some pre); discriminate|]. reflexivity.
    - rewrite RL, LL, all_known_map. destruct (map Some pre ++ [None]) eqn:E; [destruct (map Some pre); discriminate|].
      destruct (Nat.eqb_spec (prod pre) 0); [contradiction|]. reflexivity. }
  rewrite E. destruct (Nat.eqb_spec (prod s) (length d)).
  - apply (resize_same zero t s h d); auto.
  - apply (resize_diff zero t s h d); auto.
Qed.
Print Assumptions C14_reshape.

(** elements in row-major order survive an equal-size reshape: position by position, through both shapes *)
Theorem C14_reshape_elements : forall (A : Type) (zero : A) t s (h : list (list A)),
  well_formed h t -> s <> [] -> prod s = prod (shape t) ->
  exists t', reshape zero t s h = Ok (t', h) /\ shape t' = s /\ well_formed h t' /\
    forall idx idx', valid (shape t) idx -> valid s idx' -> offset (shape t) idx = offset s idx' ->
      elem h t' idx' = elem h t idx.
Proof.
  intros A zero t s h (d & Hd & Hl) Hs Hp. exists (mkT s (ref t)).
  split; [apply (reshape_same zero t s h d); congruence|]. split; [reflexivity|].
  split; [exists d; cbn [ref shape]; split; congruence|].
  intros idx idx' _ _ E. unfold elem. cbn [ref shape]. now rewrite Hd, E.
Qed.
Print Assumptions C14_reshape_elements.

(** "reshape keeps the elements or reports an error" is false: six elements asked for as 4x2 become eight zeros, also for the
    other name of the storage *)
Theorem C14_reshape_checked_refuted :
  ~ (forall (t alias t' : tensor) s (h h' : list (list Z)),
       well_formed h t -> well_formed h alias -> reshape 0%Z t s h = Ok (t', h') -> contents h' alias = contents h alias).
Proof.
  intros H. specialize (H (mkT [2; 3] 0) (mkT [6] 0) (mkT [4; 2] 0) [4; 2] [[1; 2; 3; 4; 5; 6]%Z]).
  specialize (H [[0; 0; 0; 0; 0; 0; 0; 0]%Z]).
  enough (contents [[0; 0; 0; 0; 0; 0; 0; 0]]%Z (mkT [6] 0) = contents [[1; 2; 3; 4; 5; 6]]%Z (mkT [6] 0)) as E by discriminate E.
  apply H; try reflexivity; exists [1; 2; 3; 4; 5; 6]%Z; auto.
Qed.
Print Assumptions C14_reshape_checked_refuted.

Example C14_example :
  reshape_req 0 (mkT [2; 3] 0) [Some 3; None] [[1; 2; 3; 4; 5; 6]] = Ok (mkT [3; 2] 0, [[1; 2; 3; 4; 5; 6]]) /\
  reshape_req 0 (mkT [2; 3] 0) [Some 4; None] [[1; 2; 3; 4; 5; 6]] = Ok (mkT [4; 1] 0, [[0; 0; 0; 0]]).
Proof. vm_compute. auto. Qed.

(** ** C15 *)

(** A (stored m x n, or n x m when transposed) times B (stored n x k, or k x n): the first m*k elements of C are the product
    matrix, the rest of C is as before; no access is out of bounds. *)
Theorem C15_gemm : forall (A : Type) (zero : A) (plus mul : A -> A -> A) a at_ b bt m n k c0,
  length a = m * n -> length b = n * k -> m * k <= length c0 ->
  exists c, gemm_cpu zero plus mul a at_ b bt m n k c0 = Some c /\ length c = length c0 /\
    (forall r j, r < m -> j < k ->
       nth_error c (r * k + j)
       = Some (dot zero plus mul n (fun i => op_entry zero a at_ m n r i) (fun i => op_entry zero b bt n k i j))) /\
    (forall p, m * k <= p -> nth_error c p = nth_error c0 p).
Proof.
  intros A zero plus mul a at_ b bt m n k c0 La Lb Lc.
  eexists. split; [apply gemm_cpu_ok; lia|]. split; [|split].
  - rewrite app_length, tab2_length, skipn_length. lia.
  - intros r j Hr Hj. rewrite nth_error_app1 by (rewrite tab2_length; nia). rewrite nth_error_tab2 by assumption.
    unfold dotn, dot, opA, opB, op_entry, entry. reflexivity.
  - intros p Hp. rewrite nth_error_app2 by (now rewrite tab2_length). rewrite tab2_length.
    rewrite <- (firstn_skipn (m * k) c0) at 2. rewrite nth_error_app2 by (rewrite firstn_length; lia).
    rewrite firstn_length. f_equal. lia.
Qed.
Print Assumptions C15_gemm.

Example C15_example :
  gemm_cpu 0%Z Z.add Z.mul [1; 4; 2; 5; 3; 6]%Z true [1; 2; 3; 4; 5; 6]%Z false 2 3 2 [9; 9; 9; 9; 9]%Z = Some [22; 28; 49; 64; 9]%Z.
Proof. vm_compute. reflexivity. Qed.

(** ** C16 *)

(** (m,n) * (n,k): shape (m,k), matrix-product elements, operands and all else unchanged *)
Theorem C16_matrix_product : forall (A : Type) (zero : A) dbg (plus mul : A -> A -> A) lhs rhs (h : list (list A)) m n k dl dr,
  shape lhs = [m; n] -> shape rhs = [n; k] -> well_formed h lhs -> well_formed h rhs ->
  contents h lhs = Some dl -> contents h rhs = Some dr ->
  exists t c, multiply zero dbg plus mul lhs rhs h = Ok (t, h ++ [c]) /\ shape t = [m; k] /\ well_formed (h ++ [c]) t /\
    forall r j, r < m -> j < k ->
      elem (h ++ [c]) t [r; j] = Some (dot zero plus mul n (fun i => entry zero dl n r i) (fun i => entry zero dr k i j)).
Proof.
  intros A zero dbg plus mul lhs rhs h m n k dl dr Sl Sr (dl' & Hl & Ll) (dr' & Hr & Lr) Cl Cr. unfold contents in Cl, Cr.
  assert (dl' = dl) by congruence. assert (dr' = dr) by congruence. subst dl' dr'.
  rewrite Sl in Ll. rewrite Sr in Lr. cbn [prod fold_right] in Ll, Lr.
  eexists _, _. split; [apply (multiply_2d zero dbg plus mul lhs rhs h m n k dl dr); auto; lia|].
  split; [reflexivity|]. split.
  - eexists. split; [apply nth_error_alloc|]. rewrite tab2_length. cbn. lia.
  - intros r j Hr' Hj. unfold elem. cbn [ref shape]. rewrite nth_error_alloc. cbn [offset prod fold_right].
    replace (r * (k * 1) + (j * 1 + 0)) with (r * k + j) by lia. now rewrite nth_error_tab2.
Qed.
Print Assumptions C16_matrix_product.

(** a 1-D left operand of length n acts as a 1 x n row *)
Theorem C16_row_product : forall (A : Type) (zero : A) dbg (plus mul : A -> A -> A) lhs rhs (h : list (list A)) n k dl dr,
  shape lhs = [n] -> shape rhs = [n; k] -> well_formed h lhs -> well_formed h rhs ->
  contents h lhs = Some dl -> contents h rhs = Some dr ->
  exists t c, multiply zero dbg plus mul lhs rhs h = Ok (t, h ++ [c]) /\ shape t = [1; k] /\ well_formed (h ++ [c]) t /\
    forall j, j < k ->
      elem (h ++ [c]) t [0; j] = Some (dot zero plus mul n (fun i => nth i dl zero) (fun i => entry zero dr k i j)).
Proof.
  intros A zero dbg plus mul lhs rhs h n k dl dr Sl Sr (dl' & Hl & Ll) (dr' & Hr & Lr) Cl Cr. unfold contents in Cl, Cr.
  assert (dl' = dl) by congruence. assert (dr' = dr) by congruence. subst dl' dr'.
  rewrite Sl in Ll. rewrite Sr in Lr. cbn [prod fold_right] in Ll, Lr.
  eexists _, _. split; [apply (multiply_row zero dbg plus mul lhs rhs h n k dl dr); auto; lia|].
  split; [reflexivity|]. split.
  - eexists. split; [apply nth_error_alloc|]. rewrite tab2_length. cbn. lia.
  - intros j Hj. unfold elem. cbn [ref shape]. rewrite nth_error_alloc. cbn [offset prod fold_right].
    replace (0 * (k * 1) + (j * 1 + 0)) with (0 * k + j) by lia. rewrite nth_error_tab2 by lia. reflexivity.
Qed.
Print Assumptions C16_row_product.

(** A 1-D right operand of length p with an (m,n) left operand, exactly: p = m*n is the only length that is not destroyed;
    a debug build goes on only if n = m*n. *)
Theorem C16_vector_product : forall (A : Type) (zero : A) dbg (plus mul : A -> A -> A) lhs rhs (h : list (list A)) m n p dl dr,
  shape lhs = [m; n] -> shape rhs = [p] -> ref lhs <> ref rhs ->
  contents h lhs = Some dl -> length dl = m * n -> contents h rhs = Some dr -> length dr = p ->
  let dr' := if p =? m * n then dr else repeat zero (m * n) in
  multiply zero dbg plus mul lhs rhs h
  = if dbg && negb (n =? m * n) then Abort
    else Ok (mkT [m; 1] (length h),
             upd h (ref rhs) dr' ++ [tab m (fun r => dot zero plus mul n (fun i => entry zero dl n r i) (fun i => nth i dr' zero))]).
Proof. intros A zero dbg plus mul. exact (multiply_vector zero dbg plus mul). Qed.
Print Assumptions C16_vector_product.

(** "matrix times vector" is wrong for every matrix with at least two rows: a debug build aborts, a release build replaces the
    vector by zeros *)
Theorem C16_matrix_vector_refuted : forall (A : Type) (zero : A) dbg (plus mul : A -> A -> A) lhs rhs (h : list (list A)) m n dl dr,
  shape lhs = [m; n] -> shape rhs = [n] -> ref lhs <> ref rhs -> 2 <= m -> 1 <= n ->
  contents h lhs = Some dl -> length dl = m * n -> contents h rhs = Some dr -> length dr = n ->
  match multiply zero dbg plus mul lhs rhs h with
  | Ok (_, h') => dbg = false /\ contents h' rhs = Some (repeat zero (m * n))
  | Abort => dbg = true
  | UB => False
  end.
Proof.
  intros A zero dbg plus mul lhs rhs h m n dl dr Sl Sr Ne Hm Hn Hl Ll Hr Lr.
  rewrite (C16_vector_product A zero dbg plus mul lhs rhs h m n n dl dr Sl Sr Ne Hl Ll Hr Lr).
  destruct (Nat.eqb_spec n (m * n)); [nia|]. destruct dbg; cbn [andb negb]; [reflexivity|]. split; [reflexivity|].
  unfold contents in *. assert (ref rhs < length h) by (apply nth_error_Some; congruence).
  rewrite nth_error_app1 by (now rewrite upd_length). now apply nth_error_upd_same.
Qed.
Print Assumptions C16_matrix_vector_refuted.

Example C16_example :
  multiply 0%Z true Z.add Z.mul (mkT [2; 3] 0) (mkT [3; 1] 1) [[1; 2; 3; 4; 5; 6]; [1; 1; 1]]%Z
    = Ok (mkT [2; 1] 2, [[1; 2; 3; 4; 5; 6]; [1; 1; 1]; [6; 15]]%Z) /\
  multiply 0%Z false Z.add Z.mul (mkT [2; 3] 0) (mkT [3] 1) [[1; 2; 3; 4; 5; 6]; [1; 1; 1]]%Z
    = Ok (mkT [2; 1] 2, [[1; 2; 3; 4; 5; 6]; [0; 0; 0; 0; 0; 0]; [0; 0]]%Z).
Proof. vm_compute. auto. Qed.

(** ** C17 *)

(** The operand with more elements (the left one on a tie) is multiplied by the other one tiled cyclically; no existing
    storage changes.  Sizes that do not divide are rejected in a debug build; an empty smaller operand divides by zero. *)
Theorem C17_elementwise_product : forall (A : Type) (zero : A) dbg (mul : A -> A -> A) lhs rhs (h : list (list A)) dl dr,
  contents h lhs = Some dl -> length dl = prod (shape lhs) -> contents h rhs = Some dr -> length dr = prod (shape rhs) ->
  let swap := length dl <? length dr in
  let big := if swap then rhs else lhs in
  let db := if swap then dr else dl in
  let ds := if swap then dl else dr in
  (length ds = 0 -> elementwise_product zero dbg mul lhs rhs h = UB) /\
  (length ds <> 0 -> (exists q, length db = q * length ds) ->
     elementwise_product zero dbg mul lhs rhs h
     = Ok (mkT (shape big) (length h), h ++ [tab (length db) (fun p => mul (nth p db zero) (nth (p mod length ds) ds zero))])) /\
  (length ds <> 0 -> ~ (exists q, length db = q * length ds) -> dbg = true -> elementwise_product zero dbg mul lhs rhs h = Abort).
Proof.
  intros A zero dbg mul lhs rhs h dl dr Hl Ll Hr Lr swap big db ds. unfold contents in *.
  assert (E : elementwise_product zero dbg mul lhs rhs h
              = elementwise_product_ordered zero dbg mul big (if swap then lhs else rhs) h).
  { unfold elementwise_product, bind, data. rewrite Hl, Hr. unfold big, swap. now destruct (length dl <? length dr). }
  rewrite E. clear E.
  assert (Hb : nth_error h (ref big) = Some db /\ length db = prod (shape big)).
  { unfold big, db. destruct swap; auto. }
  assert (Hs : nth_error h (ref (if swap then lhs else rhs)) = Some ds) by (unfold ds; destruct swap; auto).
  destruct Hb as [Hb Lb]. split; [|split].
  - intros Z. unfold elementwise_product_ordered, bind, data. rewrite Hb, Hs, Z. reflexivity.
  - intros N [q Q]. now apply (product_ordered_ok zero dbg mul big _ h db ds q).
  - intros N Q ->. unfold elementwise_product_ordered, bind, data. rewrite Hb, Hs.
    destruct (Nat.eqb_spec (length ds) 0); [contradiction|]. unfold better_assert.
    destruct (Nat.eqb_spec (length ds * (length db / length ds)) (length db)) as [E|_]; [|reflexivity].
    exfalso. apply Q. exists (length db / length ds). lia.
Qed.
Print Assumptions C17_elementwise_product.

(** Tiling picks the element NumPy's broadcasting picks, at every index, exactly when the smaller shape is, after leading ones,
    a tail of the larger one. *)
Theorem C17_tiling_is_broadcasting_iff : forall u U,
  Stretches u U -> 0 < prod U ->
  ((forall idx, valid U idx -> offset U idx mod prod u = offset u (source_index u idx)) <-> TailOf u U).
Proof.
  intros u U St HP. apply Stretches_padded in St. destruct St as [HL F]. unfold TailOf.
  assert (E : forall idx, valid U idx -> offset u (source_index u idx) = offset (padded (length U) u) (clamp (padded (length U) u) idx)).
  { intros idx V. symmetry. apply offset_clamp_padded; [now apply valid_length|assumption]. }
  split.
  - intros H. apply (tile_tail (padded (length U) u) U F HP). intros idx V. rewrite prod_padded, <- E by assumption. now apply H.
  - intros [k Ek] idx V. rewrite E by assumption. rewrite <- (prod_padded (length U) u).
    apply (tail_tile k); [now apply padded_length|assumption|assumption].
Qed.
Print Assumptions C17_tiling_is_broadcasting_iff.

(** e.g. scaling the rows of a 2x3 matrix by a 2x1 column multiplies by the wrong factors *)
Theorem C17_column_scaling_refuted :
  elementwise_product 0%Z true Z.mul (mkT [2; 3] 0) (mkT [2; 1] 1) [[1; 1; 1; 1; 1; 1]; [10; 20]]%Z
  = Ok (mkT [2; 3] 2, [[1; 1; 1; 1; 1; 1]; [10; 20]; [10; 20; 10; 20; 10; 20]]%Z) /\
  Stretches [2; 1] [2; 3] /\ ~ TailOf [2; 1] [2; 3].
Proof.
  split; [reflexivity|]. assert (S : Stretches [2; 1] [2; 3]).
  { split; [cbn; lia|]. intros [|[|j]] Hj; cbn in *; unfold dimr; cbn; auto. }
  split; [assumption|]. intros T0. pose proof (proj2 (C17_tiling_is_broadcasting_iff _ _ S ltac:(cbn; lia)) T0) as T.
  specialize (T [0; 1]). cbn in T. assert (V : valid [2; 3] [0; 1]) by (repeat constructor). specialize (T V). discriminate.
Qed.
Print Assumptions C17_column_scaling_refuted.

Example C17_example : TailOf [1; 3] [2; 3] /\
  elementwise_product 0%Z true Z.mul (mkT [3] 1) (mkT [2; 3] 0) [[1; 2; 3; 4; 5; 6]; [1; 10; 100]]%Z
  = Ok (mkT [2; 3] 2, [[1; 2; 3; 4; 5; 6]; [1; 10; 100]; [1; 20; 300; 4; 50; 600]]%Z).
Proof. split; [exists 1; reflexivity|reflexivity]. Qed.
