(** C81: views of arrays and strided iterators. *)
From Coq Require Import List Bool NArith ZArith Lia.
From Verif Require Import TensorModel ViewModel ViewSpec ViewProofs.
Import ListNotations.
Local Open Scope N_scope.

(** A view of any rank of a part of an array: an element whose indices are below the extents is the one at its row-major position, no
    pointer leaves the array on the way, and every element of the part is reached by exactly one list of indices. *)
Theorem C81_elements : forall size dbg p shape, size < 2 ^ 64 -> p + elems shape <= size ->
  (forall idx, valid shape idx -> at_ size dbg p shape idx = Ok (p + position shape idx, [])) /\
  (forall l, p <= l < p + elems shape -> exists idx, valid shape idx /\ at_ size dbg p shape idx = Ok (l, []) /\
     forall idx', valid shape idx' -> at_ size dbg p shape idx' = Ok (l, []) -> idx' = idx).
Proof.
  intros size dbg p shape Hs Hp. assert (A : forall idx, valid shape idx -> at_ size dbg p shape idx = Ok (p + position shape idx, [])) by (intros idx V; now apply at_ok).
  split; [exact A|]. intros l Hl. destruct (position_onto shape (l - p) ltac:(lia)) as (idx & V & E). exists idx. split; [exact V|]. split.
  - rewrite (A idx V), E. do 2 f_equal. lia.
  - intros idx' V' E'. rewrite (A idx' V') in E'. injection E' as E'. apply (position_inj shape); try assumption. lia.
Qed.
Print Assumptions C81_elements.

(** Indices at or above their extents, views of rank up to 4, or any rank in a release build: nothing is checked; the access goes to
    the row-major position, whatever element that is, or out of the array. *)
Theorem C81_unchecked : forall size dbg p shape idx, size < 2 ^ 64 -> p <= size -> shape <> [] -> Forall (fun n => 1 <= n) shape -> elems shape < 2 ^ 64 ->
  dbg = false \/ (length shape <= 4)%nat -> length idx = length shape -> p + position shape idx < 2 ^ 64 ->
  at_ size dbg p shape idx = if p + position shape idx <? size then Ok (p + position shape idx, []) else UB.
Proof. intros size dbg p shape idx Hs Hp Hn F He Hd L Hq. now apply at_any. Qed.
Print Assumptions C81_unchecked.

(** Higher ranks in a debug build: an index that is too large stops the program, unless it is one of the last four. *)
Theorem C81_checked : forall size p pre n rest is i idx, size < 2 ^ 64 -> p + elems (pre ++ n :: rest) <= size -> Forall (fun n => 1 <= n) rest ->
  (4 <= length rest)%nat -> valid pre is -> n <= i -> 1 <= n -> at_ size true p (pre ++ n :: rest) (is ++ i :: idx) = Abort.
Proof.
  intros size p pre n rest is i idx Hs Hp F L V Hi Hn. revert p Hp. induction V as [|m j pre is Hj V IH]; intros p Hp; cbn [app at_].
  - destruct rest as [|a [|b [|c [|d rest]]]]; cbn in L; try lia. unfold sub. rewrite (proj2 (N.ltb_ge _ _) Hi). reflexivity.
  - assert (Vr : exists js, valid (pre ++ n :: rest) js).
    { exists (is ++ 0 :: map (fun _ => 0) rest). unfold valid. apply Forall2_app; [exact V|]. constructor; [lia|]. clear - F. induction F; cbn [map]; constructor; auto; lia. }
    destruct Vr as [js Vr]. cbn [app] in Hp. rewrite (sub_ok size Hs true p m _ j js Hj Vr Hp). cbn [obind fst snd]. apply IH. cbn [elems] in Hp. nia.
Qed.
Print Assumptions C81_checked.

(** The promise that an index out of range is noticed in a debug build is broken for matrices, cubes and 4-D views: one past the end of
    a row is the start of the next. *)
Theorem C81_matrix_bounds_refuted : exists size p shape idx idx', ~ valid shape idx /\ valid shape idx' /\ at_ size true p shape idx = at_ size true p shape idx' /\ at_ size true p shape idx' <> UB.
Proof. exists 6, 0, [2; 3], [0; 3], [1; 0]. split; [intros V; inversion V as [|? ? ? ? _ V']; subst; inversion V'; lia|]. split; [repeat constructor|]. split; [reflexivity|discriminate]. Qed.
Print Assumptions C81_matrix_bounds_refuted.

(** Matrices: rows from row_begin to row_end, columns by strided iterators.  A column can be walked by counting; it can be walked to its
    col_end exactly if the array goes on for as many elements as the column's number, otherwise forming col_end is undefined. *)
Theorem C81_rows_and_columns : forall size p r c, size < 2 ^ 64 -> 1 <= r -> 1 <= c -> p + r * c <= size -> let v := V2 p r c false in
  (forall i, i < r -> row_begin size v i = Ok (p + i * c) /\ row_end size v i = Ok (p + i * c + c) /\ forall j, j < c -> at2 size v i j = Ok (p + i * c + j)) /\
  (forall j, j < c -> let column := map (fun i => p + N.of_nat i * c + j) (seq 0 (N.to_nat r)) in
     exists b, col_begin size v j = Ok b /\ steps size (N.to_nat r) b = Ok column /\
       (p + r * c + j <= size -> exists e, col_end size v j = Ok e /\ walk size (N.to_nat r) b e = Ok column /\ forall dbg, minus dbg e b = Ok (Z.of_N r)) /\
       (size < p + r * c + j -> col_end size v j = UB)).
Proof.
  intros size p r c Hs Hr Hc Hp v. split.
  - intros i Hi. unfold row_begin, row_end, at2, index2. cbn [data2 row2 col2 transposed v]. rewrite (w64_small (i * c)) by nia. rewrite (w64_small (i + 1)) by nia. rewrite w64_small by nia.
    rewrite !padd_ok by nia. split; [reflexivity|]. split; [f_equal; lia|]. intros j Hj. cbn [obind]. rewrite padd_ok by nia. cbn [obind]. unfold deref. rewrite (proj2 (N.ltb_lt _ _)) by nia. f_equal.
  - intros j Hj column. unfold col_begin, col_end. unfold col_begin. unfold v. cbn [data2 row2 col2]. rewrite padd_ok by nia. cbn [obind]. eexists. split; [reflexivity|].
    assert (Ec : column = map (fun i => Z.to_N (Z.of_N (p + j) + Z.of_nat i * Z.of_N c)) (seq 0 (N.to_nat r))) by (apply map_ext; intros i; lia).
    split; [rewrite Ec; apply steps_ok; nia|]. split; intros Hj'.
    + unfold plus, zadd. cbn [iter step]. rewrite (proj2 (Z.leb_le _ _)) by nia. rewrite (proj2 (Z.leb_le _ _)) by nia. cbn [andb obind]. eexists. split; [reflexivity|]. split.
      * rewrite Ec. replace (Z.of_N (p + j) + Z.of_N c * Z.of_N r)%Z with (Z.of_N (p + j) + Z.of_nat (N.to_nat r) * Z.of_N c)%Z by lia. apply walk_ok; nia.
      * intros dbg. unfold minus. cbn [iter step]. rewrite Z.eqb_refl, andb_false_r. rewrite (proj2 (Z.eqb_neq _ _)) by lia. f_equal.
        replace (Z.of_N (p + j) + Z.of_N c * Z.of_N r - Z.of_N (p + j))%Z with (Z.of_N r * Z.of_N c)%Z by lia. apply Z.quot_mul. lia.
    + unfold plus, zadd. cbn [iter step]. rewrite (proj2 (Z.leb_le _ _)) by nia. rewrite (proj2 (Z.leb_gt _ _)) by nia. reflexivity.
Qed.
Print Assumptions C81_rows_and_columns.

(** Walking a column of a view of a whole array up to col_end is undefined for every column but the first. *)
Theorem C81_column_end_refuted : forall r c j, 1 <= r -> 1 <= c -> r * c < 2 ^ 64 -> j < c -> col_end (r * c) (V2 0 r c false) j = UB <-> 0 < j.
Proof.
  intros r c j Hr Hc Hs Hj. destruct (C81_rows_and_columns (r * c) 0 r c Hs Hr Hc ltac:(lia)) as [_ H]. destruct (H j Hj) as (b & _ & _ & H1 & H2). split.
  - intros E. destruct (N.eq_dec j 0) as [->|]; [|lia]. destruct (H1 ltac:(lia)) as (e & E' & _). congruence.
  - intros Hj'. apply H2. lia.
Qed.
Print Assumptions C81_column_end_refuted.

(** A transposed matrix of r rows and c columns: v[j][i] is element (i, j) of the matrix whose columns lie one after the other; but
    row_begin and col_begin do not know of the transposition. *)
Theorem C81_transposed : forall size p r c, size < 2 ^ 64 -> 1 <= r -> 1 <= c -> p + r * c <= size -> let v := V2 p r c true in
  (forall i j, i < r -> j < c -> at2 size v j i = Ok (p + position [c; r] [j; i])) /\
  (forall i, i < N.min r c -> row_begin size v i = index2 size v i <-> i = 0 \/ r = c) /\
  (forall j, col_begin size v j = col_begin size (V2 p r c false) j).
Proof.
  intros size p r c Hs Hr Hc Hp v. split; [|split].
  - intros i j Hi Hj. unfold at2, index2. cbn [data2 row2 col2 transposed v position elems]. rewrite w64_small by nia. rewrite padd_ok by nia. cbn [obind]. rewrite padd_ok by nia. cbn [obind].
    unfold deref. rewrite (proj2 (N.ltb_lt _ _)) by nia. f_equal. lia.
  - intros i Hi. unfold row_begin, index2. cbn [data2 row2 col2 transposed v]. rewrite !w64_small by nia. rewrite !padd_ok by nia. split; [intros [= E]; nia|]. intros [->| ->]; reflexivity.
  - reflexivity.
Qed.
Print Assumptions C81_transposed.

(** Strided iterators inside an array: forward and back, in one leap or several, indexing and differences agree. *)
Theorem C81_iterators : forall size dbg s a b, (step s <> 0)%Z ->
  let inside d := (0 <= iter s + step s * d <= Z.of_N size)%Z in
  (inside 0%Z -> inside 1%Z -> exists t, next size s = Ok t /\ plus size s 1 = Ok t /\ prev size t = Ok s) /\
  (inside a -> inside (a + b)%Z -> exists t u, plus size s a = Ok t /\ plus size t b = Ok u /\ plus size s (a + b) = Ok u /\
     minus dbg u t = Ok b /\ (same t u = true <-> b = 0%Z) /\ nth_stride size s a = star size t).
Proof.
  intros size dbg [q d] a b Hd inside. cbn [iter step] in *. unfold inside. split.
  - intros H0 H1. unfold next, plus, prev, zadd. cbn [iter step]. eexists. rewrite (proj2 (Z.leb_le 0 (q + d))) by lia. rewrite (proj2 (Z.leb_le (q + d) (Z.of_N size))) by lia. cbn [andb obind].
    split; [reflexivity|]. replace (d * 1)%Z with d by lia. rewrite (proj2 (Z.leb_le 0 (q + d))) by lia. rewrite (proj2 (Z.leb_le (q + d) (Z.of_N size))) by lia. split; [reflexivity|].
    cbn [iter step]. replace (q + d + - d)%Z with q by lia. rewrite (proj2 (Z.leb_le 0 q)) by lia. rewrite (proj2 (Z.leb_le q (Z.of_N size))) by lia. reflexivity.
  - intros Ha Hb. unfold plus, nth_stride, zadd. cbn [iter step]. rewrite (Z.mul_comm a d). rewrite (proj2 (Z.leb_le 0 (q + d * a))) by lia. rewrite (proj2 (Z.leb_le (q + d * a) (Z.of_N size))) by lia. cbn [andb obind].
    do 2 eexists. split; [reflexivity|]. cbn [iter step]. replace (q + d * a + d * b)%Z with (q + d * (a + b))%Z by lia.
    rewrite (proj2 (Z.leb_le 0 (q + d * (a + b)))) by lia. rewrite (proj2 (Z.leb_le (q + d * (a + b)) (Z.of_N size))) by lia. cbn [andb obind].
    split; [reflexivity|]. split; [reflexivity|]. split; [|split; [|reflexivity]].
    + unfold minus. cbn [iter step]. rewrite Z.eqb_refl, andb_false_r. rewrite (proj2 (Z.eqb_neq _ _) Hd). f_equal. replace (q + d * (a + b) - (q + d * a))%Z with (b * d)%Z by lia. now apply Z.quot_mul.
    + unfold same. cbn [iter step]. rewrite Z.eqb_refl, andb_true_r. rewrite Z.eqb_eq. nia.
Qed.
Print Assumptions C81_iterators.

(** a view of rank 7 as in the documentation, views of rank 4 and 5 of an array of 24 elements, a column *)
Example C81_case :
  (exists l, at_ 5040 true 0 [1; 1; 6; 4; 5; 6; 7] [0; 0; 5; 3; 4; 5; 6] = Ok (l, [])) /\ valid [1; 1; 6; 4; 5; 6; 7] [0; 0; 5; 3; 4; 5; 6] /\
  at_ 24 true 0 [1; 2; 3; 4] [0; 1; 2; 3] = Ok (23, []) /\ at_ 24 true 0 [1; 1; 2; 3; 4] [1; 0; 1; 2; 3] = Abort /\ at_ 24 true 0 [1; 1; 2; 3; 4] [0; 0; 0; 2; 4] = Ok (12, []) /\
  steps 6 2 (Stride 1 3) = Ok [1; 4] /\ col_end 6 (V2 0 2 3 false) 1 = UB.
Proof. split; [eexists; reflexivity|]. split; [repeat constructor|]. repeat split. Qed.
