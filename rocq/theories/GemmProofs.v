(** The row-major product from the column-major BLAS. *)
From Coq Require Import List Arith Bool PeanoNat NArith ZArith Reals Lia.
From Verif Require Import ListBase TensorSpec TensorModel TensorProofs2 TensorProps GemmModel GemmSpec.
Import ListNotations.
Local Open Scope nat_scope.

Lemma region_length M p len : p + len <= length M -> length (region M p len) = len.
Proof. intros H. unfold region. rewrite firstn_length, skipn_length. lia. Qed.

Lemma nth_error_skipn {A} (l : list A) n i : nth_error (skipn n l) i = nth_error l (n + i).
Proof. revert l. induction n; intros [|x l]; cbn [skipn Nat.add nth_error]; auto. now destruct i. Qed.
Lemma nth_error_firstn {A} (l : list A) n i : nth_error (firstn n l) i = if i <? n then nth_error l i else None.
Proof.
  revert l i. induction n; intros [|x l] [|i]; cbn [firstn nth_error]; auto.
  - now destruct (S i <? S n).
  - rewrite IHn. reflexivity.
Qed.
Lemma region_at M p len i : i < len -> nth_error (region M p len) i = nth_error M (p + i).
Proof. intros H. unfold region. rewrite nth_error_firstn, nth_error_skipn. now destruct (Nat.ltb_spec i len); [|lia]. Qed.
Lemma region_nth M p len i : i < len -> p + len <= length M -> nth_error M (p + i) = Some (nth i (region M p len) 0%R).
Proof. intros H L. rewrite <- (region_at M p len i H). apply nth_error_nth'. rewrite region_length; lia. Qed.

Lemma to_int_small x : (N.of_nat x < 2147483648)%N -> to_int x = Z.of_nat x.
Proof.
  intros H. unfold to_int. rewrite Z.mod_small by lia. destruct (Z.ltb_spec (Z.of_nat x) 2147483648); [reflexivity|lia].
Qed.

Lemma inner_ok M pa pb K f g :
  (forall l, l < K -> nth_error M (pa l) = Some (f l)) -> (forall l, l < K -> nth_error M (pb l) = Some (g l)) ->
  inner M pa pb K = Some (dot 0%R Rplus Rmult K f g).
Proof.
  induction K; intros HA HB; [reflexivity|]. unfold inner, dot in *. rewrite seq_S, !fold_left_app, IHK by (intros; auto with arith).
  cbn [fold_left Nat.add]. now rewrite HA, HB by lia.
Qed.

(** a loop that stores one value per index *)
Section Stores.
Context {I : Type} (addr : I -> nat) (val : I -> R) (body : I -> memory -> outcome memory) (good : memory -> Prop) (ok : I -> Prop).
Hypothesis stores : forall i M, ok i -> good M -> body i M = Ok (upd M (addr i) (val i)) /\ addr i < length M /\ good (upd M (addr i) (val i)).
Hypothesis once : forall i j, ok i -> ok j -> addr i = addr j -> val i = val j.

Lemma stores_ok l : forall M, good M -> Forall ok l ->
  exists M', fold_left (fun acc i => obind acc (body i)) l (Ok M) = Ok M' /\ length M' = length M /\
    (forall i, In i l -> nth_error M' (addr i) = Some (val i)) /\
    (forall q, (forall i, In i l -> addr i <> q) -> nth_error M' q = nth_error M q).
Proof.
  induction l as [|i l IH]; intros M G F.
  - exists M. split; [reflexivity|]. split; [reflexivity|]. split; [intros ? []|auto].
  - apply Forall_cons_iff in F. destruct F as [Oi F]. destruct (stores i M Oi G) as (E & L & G').
    destruct (IH _ G' F) as (M' & E' & L' & S1 & S2). exists M'. cbn [fold_left obind]. rewrite E.
    split; [exact E'|]. rewrite upd_length in L'. split; [exact L'|]. split.
    + intros j [<-|J]; [|auto].
      destruct (in_dec Nat.eq_dec (addr i) (map addr l)) as [X|X].
      * apply in_map_iff in X. destruct X as (j & Ej & J). rewrite <- Ej, (S1 j J). f_equal.
        apply once; auto. rewrite Forall_forall in F. auto.
      * rewrite S2; [now apply nth_error_upd_same|]. intros j J Ej. apply X. rewrite <- Ej. now apply in_map.
    + intros q Q. rewrite S2 by (intros j J; apply Q; now right). apply nth_error_upd_other. apply Q. now left.
Qed.
End Stores.

(** the leading dimensions are accepted *)
Definition leading (p : product) : Prop :=
  1 <= cols p /\ 1 <= (if tB p then common p else cols p) /\ 1 <= (if tA p then rows p else common p).
Definition small (n : nat) : Prop := (N.of_nat n < 2147483648)%N.

Definition row_major (p : product) (M : memory) : outcome memory :=
  blas_gemm (tB p) (tA p) (to_int (cols p)) (to_int (rows p)) (to_int (common p)) 1%R (pB p) (to_int (if tB p then common p else cols p))
            (pA p) (to_int (if tA p then rows p else common p)) 0%R (pC p) (to_int (cols p)) M.

Definition entry_of (p : product) (M : memory) (r c : nat) : R :=
  dot 0%R Rplus Rmult (common p) (fun i => op_entry 0%R (region M (pA p) (rows p * common p)) (tA p) (rows p) (common p) r i)
                                 (fun i => op_entry 0%R (region M (pB p) (common p * cols p)) (tB p) (common p) (cols p) i c).

Lemma dot_comm n f g : dot 0%R Rplus Rmult n f g = dot 0%R Rplus Rmult n g f.
Proof.
  induction n; [reflexivity|]. unfold dot in *. rewrite seq_S, !fold_left_app, IHn. cbn [fold_left]. now rewrite Rmult_comm.
Qed.

Lemma if_small (b : bool) x y : small x -> small y -> small (if b then x else y).
Proof. now destruct b. Qed.

Theorem row_major_ok p M :
  placed (length M) p -> small (rows p) -> small (common p) -> small (cols p) -> leading p ->
  exists M', row_major p M = Ok M' /\ multiplied p M M'.
Proof.
  intros (LA & LB & LC & DA & DB) S1 S2 S3 (K1 & K2 & K3). unfold row_major, blas_gemm.
  rewrite (to_int_small _ S1), (to_int_small _ S2), (to_int_small _ S3).
  rewrite (to_int_small _ (if_small (tB p) _ _ S2 S3)), (to_int_small _ (if_small (tA p) _ _ S1 S2)).
  match goal with |- context [if ?b then Abort else _] => replace b with false end.
  2:{ symmetry. rewrite !orb_false_iff, !Z.ltb_ge. destruct (tA p), (tB p); lia. }
  rewrite !Nat2Z.id.
  destruct p as [A ta B tb m n k C db]. cbn [pA tA pB tB rows common cols pC] in *.
  set (p := Product A ta B tb m n k C db).
  destruct (stores_ok (fun ji : nat * nat => C + (fst ji * k + snd ji)) (fun ji => entry_of p M (fst ji) (snd ji))
     (fun ji => blas_element tb ta n 1%R B (if tb then n else k) A (if ta then m else n) 0%R C k (snd ji) (fst ji))
     (fun M1 => length M1 = length M /\ (forall q, A <= q < A + m * n -> nth_error M1 q = nth_error M q) /\ (forall q, B <= q < B + n * k -> nth_error M1 q = nth_error M q))
     (fun ji => fst ji < m /\ snd ji < k)) with (l := list_prod (seq 0 m) (seq 0 k)) (M := M) as (M' & E & L & V & O).
  - intros [r c] M1 [Hr Hc] (L1 & GA & GB). cbn [fst snd] in *.
    assert (IN : C + (r * k + c) < length M1) by nia.
    split.
    + unfold blas_element.
      rewrite (inner_ok M1 _ _ n (fun i => op_entry 0%R (region M B (n * k)) tb n k i c) (fun i => op_entry 0%R (region M A (m * n)) ta m n r i)).
      * destruct (nth_error M1 (C + (r * k + c))) as [z|] eqn:Z; [|apply nth_error_None in Z; lia].
        destruct (Req_EM_T 0 0) as [_|X]; [|now destruct X]. f_equal. f_equal. rewrite Rmult_1_l. unfold entry_of. apply dot_comm.
      * intros l Hl. unfold at_col, op_entry, entry. destruct tb.
        -- rewrite GB by nia. apply region_nth; nia.
        -- rewrite GB by nia. apply region_nth; nia.
      * intros l Hl. unfold at_col, op_entry, entry. destruct ta.
        -- rewrite GA by nia. apply region_nth; nia.
        -- rewrite GA by nia. apply region_nth; nia.
    + split; [exact IN|]. split; [now rewrite upd_length|]. assert (r * k + c < m * k) by nia.
      split; intros q Q; rewrite nth_error_upd_other by lia; auto.
  - intros [r c] [r' c'] [H1 H2] [H3 H4] EQ. cbn [fst snd] in *. assert (r = r') by nia. assert (c = c') by nia. now subst.
  - auto.
  - apply Forall_forall. intros [r c] H. apply in_prod_iff in H. rewrite !in_seq in H. cbn [fst snd]. lia.
  - exists M'. split; [exact E|]. split; [exact L|]. split.
    + intros r c Hr Hc. apply (V (r, c)). apply in_prod_iff. rewrite !in_seq. cbn [rows cols p] in *. lia.
    + intros q Q. apply O. intros [r c] H EQ. apply in_prod_iff in H. rewrite !in_seq in H. cbn [fst snd pC rows cols p] in *.
      assert (r * k + c < m * k) by nia. lia.
Qed.

Theorem row_major_stops p M :
  small (rows p) -> small (common p) -> small (cols p) -> ~ leading p -> row_major p M = Abort.
Proof.
  intros S1 S2 S3 K. unfold row_major, blas_gemm.
  rewrite (to_int_small _ S1), (to_int_small _ S2), (to_int_small _ S3).
  rewrite (to_int_small _ (if_small (tB p) _ _ S2 S3)), (to_int_small _ (if_small (tA p) _ _ S1 S2)).
  match goal with |- context [if ?b then Abort else _] => destruct b eqn:E; [reflexivity|] end.
  exfalso. apply K. rewrite !orb_false_iff, !Z.ltb_ge in E. unfold leading. destruct (tA p), (tB p); lia.
Qed.

Theorem gemm_host_ok p M : placed (length M) p ->
  exists M', gemm_host (pA p) (tA p) (pB p) (tB p) (rows p) (common p) (cols p) (pC p) M = Ok M' /\ multiplied p M M'.
Proof.
  intros (LA & LB & LC & DA & DB). unfold gemm_host.
  match goal with |- context [if ?b then _ else UB] => replace b with true end.
  2:{ symmetry. unfold apart. rewrite !andb_true_iff, !orb_true_iff, !Nat.leb_le. lia. }
  destruct (C15_gemm R 0%R Rplus Rmult (region M (pA p) (rows p * common p)) (tA p) (region M (pB p) (common p * cols p)) (tB p) (rows p) (common p) (cols p) (region M (pC p) (rows p * cols p)))
    as (c & E & L & V & _).
  1-2: apply region_length; lia. { rewrite region_length; lia. }
  unfold region in E at 1 2 3. rewrite E. rewrite region_length in L by lia. eexists. split; [reflexivity|]. split; [|split].
  - rewrite !app_length, firstn_length, skipn_length. lia.
  - intros r j Hr Hj. assert (r * cols p + j < rows p * cols p) by nia.
    rewrite nth_error_app2 by (rewrite firstn_length; lia). rewrite firstn_length, Nat.min_l by lia.
    replace (pC p + (r * cols p + j) - pC p) with (r * cols p + j) by lia. rewrite nth_error_app1 by lia. apply V; assumption.
  - intros q [Q|Q].
    + rewrite nth_error_app1 by (rewrite firstn_length; lia). rewrite nth_error_firstn. now destruct (Nat.ltb_spec q (pC p)); [|lia].
    + rewrite nth_error_app2 by (rewrite firstn_length; lia). rewrite firstn_length, Nat.min_l by lia.
      rewrite nth_error_app2 by lia. rewrite nth_error_skipn. f_equal. lia.
Qed.

(** what multiplied says fixes the memory *)
Lemma multiplied_det p M M1 M2 : multiplied p M M1 -> multiplied p M M2 -> M1 = M2.
Proof.
  intros (L1 & V1 & O1) (L2 & V2 & O2). apply list_eq_nth; [congruence|]. intros q Q.
  destruct (le_lt_dec (pC p) q) as [H|H]; [|rewrite O1, O2 by auto; reflexivity].
  destruct (le_lt_dec (pC p + rows p * cols p) q) as [H'|H']; [rewrite O1, O2 by auto; reflexivity|].
  assert (cols p <> 0) by nia.
  set (d := q - pC p). assert (Ed : d = cols p * (d / cols p) + d mod cols p) by (apply Nat.div_mod; assumption).
  assert (d mod cols p < cols p) by (apply Nat.mod_upper_bound; assumption).
  assert (d / cols p < rows p) by (apply Nat.div_lt_upper_bound; [assumption|]; unfold d; nia).
  replace q with (pC p + (d / cols p * cols p + d mod cols p)) by (unfold d in *; nia).
  rewrite V1, V2 by assumption. reflexivity.
Qed.
