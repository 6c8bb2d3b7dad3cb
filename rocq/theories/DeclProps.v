(** C76: the shape an expression announces is the shape it gets. *)
From Coq Require Import List Arith Lia Bool PeanoNat NArith ZArith Reals.
From Verif Require Import ListBase TensorModel TensorProofs ArrayModel ArrayProofs LayerModel GraphModel OpModel DeclModel DeclSpec DeclProofs DeclProofs2.
Import ListNotations.
Local Open Scope N_scope.

(** For every operator with one operand: if the forward action, whatever its buffers hold, makes y of x and the case is a right one, then
    the calculator makes the extents of y of those of x. *)
Theorem C76_one_operand dbg o x y :
  forward1 dbg o x y -> sound_array x -> fits (ashape y) -> right1 o (ashape x) ->
  calc1 dbg o (extents x) = Ok (extents y).
Proof.
  intros F [W Fx] Fy Rt. destruct (forward1_gives _ _ _ _ F W Rt) as [_ G]. now apply calc1_gives.
Qed.
Print Assumptions C76_one_operand.

(** The same for two operands. *)
Theorem C76_two_operands dbg o x y z :
  forward2 dbg o x y z -> sound_array x -> sound_array y -> fits (ashape z) -> right2 o (ashape x) (ashape y) ->
  calc2 dbg o (extents x) (extents y) = Ok (extents z).
Proof.
  intros F [Wx _] [Wy _] Fz Rt. destruct (forward2_gives _ _ _ _ _ F Wx Wy) as [_ G]. now apply calc2_gives.
Qed.
Print Assumptions C76_two_operands.

(** Whole expressions, values among the operands included. *)
Theorem C76_expressions dbg leaf e y :
  plainly dbg leaf e y ->
  evaluates dbg leaf e y /\ announced dbg (fun n => extents (leaf n)) e = Ok (extents y) /\ length (adata y) = prod (ashape y).
Proof.
  intros P. destruct (plainly_announced _ _ _ _ P) as (E & W & _). split; [|auto].
  clear E W. induction P; econstructor; eassumption.
Qed.
Print Assumptions C76_expressions.

(** flatten multiplies the extents in an int: its announcement is right exactly below 2^31 elements for each batch element. *)
Theorem C76_flatten_exactly dbg x y :
  forward1 dbg Flatten x y -> sound_array x ->
  (calc1 dbg Flatten (extents x) = Ok (extents y) <-> N.of_nat (prod (tl (ashape x))) < 2147483648).
Proof.
  intros F [W [Fx Px]]. cbn [forward1] in F. unfold flatten_op in F. apply check_ok in F. unfold extents. destruct (ashape x) as [|b r] eqn:Es; [discriminate|].
  destruct (Nat.eqb_spec b 0); [discriminate|]. injection F as <-. cbn [ashape tl calc1 map].
  rewrite W, prod_cons, (Nat.mul_comm b), Nat.div_mul by assumption. fold shape_N. rewrite iprod_int. rewrite prod_cons in Px.
  assert (Pr : N.of_nat (prod r) < limit) by nia. split.
  - intros E. injection E as E. destruct (N.lt_ge_cases (N.of_nat (prod r)) 2147483648) as [H|H]; [exact H|]. now apply to_int_large in E.
  - intros H. now rewrite to_int_small.
Qed.
Print Assumptions C76_flatten_exactly.

(** The element-wise product takes the shape of the operand with more elements, but announces the one with more axes. *)
Theorem C76_product_exactly dbg x y z :
  forward2 dbg Product x y z -> sound_array x -> sound_array y ->
  (calc2 dbg Product (extents x) (extents y) = Ok (extents z) <-> right2 Product (ashape x) (ashape y)).
Proof.
  intros F [Wx Fx] [Wy Fy]. destruct (forward2_gives _ _ _ _ _ F Wx Wy) as [_ G]. cbn [gives2] in G. split.
  - intros E. cbn [calc2 right2] in *. injection E as E. unfold extents in E. rewrite !map_length, G in E.
    destruct (prod (ashape x) <? prod (ashape y))%nat eqn:P; destruct (length (ashape y) <? length (ashape x))%nat eqn:L.
    + apply shape_N_inj in E. rewrite E in L. now rewrite Nat.ltb_irrefl in L.
    + now apply Nat.ltb_ge in L.
    + apply Nat.ltb_lt in L. auto.
    + apply shape_N_inj in E. auto.
  - intros Rt. apply calc2_gives; [exact G|exact Rt|]. rewrite G. now destruct (_ <? _)%nat.
Qed.
Print Assumptions C76_product_exactly.

(** cross_entropy_loss makes one number and announces the shape of an operand. *)
Theorem C76_cross_entropy_exactly dbg smooth x y z :
  forward2 dbg (CrossEntropy smooth) x y z -> sound_array x -> sound_array y ->
  ashape z = [1%nat] /\
  (calc2 dbg (CrossEntropy smooth) (extents x) (extents y) = Ok (extents z) <-> right2 (CrossEntropy smooth) (ashape x) (ashape y)).
Proof.
  intros F [Wx _] [Wy _]. destruct (forward2_gives _ _ _ _ _ F Wx Wy) as [_ G]. cbn [gives2] in G. split; [exact G|].
  cbn [calc2 right2]. unfold extents. rewrite !map_length, G. change (map N.of_nat [1%nat]) with (shape_N [1%nat]). split.
  - intros E. injection E as E. destruct (_ <? _)%nat; now apply (shape_N_inj _ [1%nat]) in E.
  - intros E. destruct (_ <? _)%nat; now rewrite E.
Qed.
Print Assumptions C76_cross_entropy_exactly.

(** reduce_sum, reduce_max and reduce_min with their default axis: the forward action reduces the last axis, but asking for the shape
    copies the extents behind the end of the vector, unless there is but one. *)
Theorem C76_reduce_default_refuted dbg k x y :
  forward1 dbg (Reduce k None) x y -> sound_array x ->
  ashape y = firstn (length (ashape x) - 1) (ashape x) /\
  (length (ashape x) = 1%nat -> calc1 dbg (Reduce k None) (extents x) = Ok (extents y)) /\
  ((2 <= length (ashape x))%nat -> calc1 dbg (Reduce k None) (extents x) = UB).
Proof.
  intros F [W Fx]. cbn [forward1] in F. cbv zeta in F.
  assert (G : ashape x <> [] /\ ashape y = firstn (length (ashape x) - 1) (ashape x)).
  { unfold unew, op_reduce_sum, op_reduce_max, op_reduce_min, op_reduce_by, axis_parts, OpModel.pick_axis in F.
    destruct k; cbn [fst snd ashape adata] in F; destruct (ashape x) as [|a s] eqn:Es; try discriminate; rewrite <- Es in *.
    1,2: destruct (_ =? 0)%nat; [discriminate|].
    all: assert (Q : forall (a b : list nat) (c d : list R), Some (a, c) = Some (b, d) -> a = b) by congruence; apply Q in F; rewrite Nat.min_r in F by lia; split; [congruence|]; rewrite <- F, skipn_all2, app_nil_r; [reflexivity|rewrite Es; cbn [length]; lia]. }
  destruct G as [G Ey]. split; [exact Ey|]. unfold extents. rewrite Ey. cbn [calc1]. split.
  - destruct (ashape x) as [|a [|]]; try discriminate. reflexivity.
  - destruct (ashape x) as [|a [|b t]]; cbn [length]; try lia. reflexivity.
Qed.
Print Assumptions C76_reduce_default_refuted.

(** An unknown batch (-1UL in front of the shape) does not survive a reshape: of k elements for each batch element it makes a batch of
    (2^64 - k) / k, rounded down, which is neither unknown nor possible. *)
Theorem C76_unknown_batch_refuted dbg new rest k :
  prod new = k -> prod rest = k -> (2 <= k)%nat -> N.of_nat k < limit ->
  calc1 dbg (Reshape new true) (unknown :: map N.of_nat rest) = Ok ((word - N.of_nat k) / N.of_nat k :: map N.of_nat new) /\
  0 < (word - N.of_nat k) / N.of_nat k /\ (word - N.of_nat k) / N.of_nat k <> unknown.
Proof.
  intros E1 E2 H1 H2. pose proof limit_word as LW. cbn [calc1]. fold (shape_N new). fold (shape_N rest). rewrite wprod_wraps, E1, wrap_small by lia.
  destruct (N.eqb_spec (N.of_nat k) 0); [lia|]. assert (P : wprod (unknown :: shape_N rest) = word - N.of_nat k).
  { unfold wprod. cbn [fold_left]. rewrite N.mul_1_l, wprod_gen, E2. replace (unknown * N.of_nat k) with (word - N.of_nat k + (N.of_nat k - 1) * word) by (unfold unknown, word in *; lia).
    unfold wrap. rewrite N.mod_add by discriminate. apply N.mod_small. unfold word, limit in *. lia. }
  rewrite P. split; [reflexivity|]. split.
  - apply N.div_str_pos. lia.
  - assert ((word - N.of_nat k) / N.of_nat k <= (word - N.of_nat k) / 2) by (apply N.div_le_compat_l; lia).
    assert ((word - N.of_nat k) / 2 < word - N.of_nat k) by (apply N.div_lt; lia). unfold unknown. lia.
Qed.
Print Assumptions C76_unknown_batch_refuted.

(** ** Cases *)
Module Case.
Open Scope R_scope.
(** a dense layer on two rows of three numbers: x w + b *)
Definition x := Arr [2%nat; 3%nat] [1; 2; 3; 4; 5; 6].
Definition w := Arr [3%nat; 2%nat] [1; 0; 0; 1; 1; 1].
Definition b := Arr [1%nat; 2%nat] [10; 20].
Definition leaf (n : nat) : arr R := match n with 0%nat => x | 1%nat => w | _ => b end.
Definition dense : ex := Bin Plus (Bin Matmul (Leaf 0) (Leaf 1)) (Leaf 2).

Lemma fits_small s : (forall n, In n s -> (n < 100)%nat) -> (prod s < 100)%nat -> fits s.
Proof. intros H P. split; [apply Forall_forall; intros n I; specialize (H n I)|]; unfold limit; lia. Qed.

Example announced_dense : announced true (fun n => extents (leaf n)) dense = Ok [2%N; 2%N].
Proof. reflexivity. Qed.

Example plain_product : exists y, plainly true leaf (Bin Matmul (Leaf 0) (Leaf 1)) y /\ ashape y = [2%nat; 2%nat].
Proof.
  eexists. split.
  - apply (pl_bin true leaf Matmul (Leaf 0) (Leaf 1) x w (Arr [2%nat; 2%nat] [0 + 1 * 1 + 2 * 0 + 3 * 1; 0 + 1 * 0 + 2 * 1 + 3 * 1; 0 + 4 * 1 + 5 * 0 + 6 * 1; 0 + 4 * 0 + 5 * 1 + 6 * 1])).
    + apply (pl_leaf true leaf 0). split; [reflexivity|]. apply fits_small; cbn; [intros n H; lia|lia].
    + apply (pl_leaf true leaf 1). split; [reflexivity|]. apply fits_small; cbn; [intros n H; lia|lia].
    + exact I.
    + reflexivity.
    + apply fits_small; cbn; [intros n H; lia|lia].
  - reflexivity.
Qed.

(** flatten of a batch of two 2 by 3 images *)
Example plain_flatten : exists y, plainly true (fun _ => Arr [2%nat; 2%nat; 3%nat] [1; 2; 3; 4; 5; 6; 7; 8; 9; 10; 11; 12]) (Un Flatten (Leaf 0)) y /\ ashape y = [2%nat; 6%nat].
Proof.
  eexists. split.
  - eapply (pl_un true _ Flatten (Leaf 0)).
    + apply pl_leaf. split; [reflexivity|]. apply fits_small; cbn; [intros n H; lia|lia].
    + cbn. lia.
    + cbn [forward1]. reflexivity.
    + apply fits_small; cbn; [intros n H; lia|lia].
  - reflexivity.
Qed.

(** a 4 by 3 matrix times one row: the product is 4 by 3, announced is 1 by 3 *)
Example product_wrong : calc2 true Product [4%N; 3%N] [1%N; 3%N] = Ok [1%N; 3%N] /\ ~ right2 Product [4%nat; 3%nat] [1%nat; 3%nat].
Proof. split; [reflexivity|]. cbn. intros [H|H]; [lia|discriminate]. Qed.

(** a 65536 by 65536 image for each batch element flattens to nothing *)
Example flatten_wrong : calc1 true Flatten [1; 65536; 65536]%N = Ok [1; 0]%N.
Proof. reflexivity. Qed.

(** an image of unknown batch: 28 by 28, reshaped to 784 *)
Example unknown_wrong : calc1 true (Reshape [784%nat] true) [unknown; 28; 28]%N = Ok [23529010298098916; 784]%N.
Proof. reflexivity. Qed.

Example hint_batch : hint [28; 28; 1]%N = Ok [1; 28; 28; 1]%N /\ hint [unknown; 28]%N = Ok [unknown; 28]%N.
Proof. split; reflexivity. Qed.
End Case.
