(** Element-by-element characterisations of the layer operators. *)
From Coq Require Import List Arith Lia Bool PeanoNat ZArith Reals Lra Permutation.
From Verif Require Import ListBase Loops TensorModel TensorProofs ArrayModel ArrayProofs LayerModel LayerSpec LayerProofs.
Import ListNotations.

Lemma at4 {A} N R C K (d : list A) n r c k : at_index (Arr [N; R; C; K] d) [n; r; c; k] = nth_error d (pos4 R C K n r c k).
Proof. unfold at_index. cbn [ashape adata]. now rewrite pos4_offset. Qed.

Lemma resized_length {A} (zero : A) cache n : length (resized zero cache n) = n.
Proof. unfold resized. destruct (Nat.eqb_spec (length cache) n); [assumption|apply repeat_length]. Qed.

Lemma resized_nil {A} (zero : A) n : resized zero [] n = repeat zero n.
Proof. unfold resized. destruct n; reflexivity. Qed.

Lemma resized_same {A} (zero : A) d n : length d = n -> resized zero d n = d.
Proof. intros H. unfold resized. now rewrite (proj2 (Nat.eqb_eq _ _) H). Qed.

Lemma nth_repeat_any {A} (x : A) n i : nth i (repeat x n) x = x.
Proof. revert i. induction n; intros [|i]; cbn; auto. Qed.

Lemma nth_error_repeat_lt {A} (x : A) n i : i < n -> nth_error (repeat x n) i = Some x.
Proof. intros H. rewrite nth_error_nth' with (d := x) by now rewrite repeat_length. now rewrite nth_repeat_any. Qed.

Lemma fill_ok {A} cache s (ws : list (nat * A)) :
  (forall w, In w ws -> fst w < length cache) -> fill cache s ws = Ok (writes ws cache, Arr s (writes ws cache)).
Proof. intros H. unfold fill. now rewrite (proj2 (in_bounds_spec _ _) H). Qed.

Lemma with4_ok {A T} dbg (x : arr A) n r c k (f : nat -> nat -> nat -> nat -> outcome T) :
  wf x -> ashape x = [n; r; c; k] -> with4 dbg x f = f n r c k.
Proof.
  intros W E. unfold with4. unfold wf in W. rewrite W. rewrite E. cbn [length Nat.eqb check]. now rewrite Nat.leb_refl.
Qed.

Lemma wf4 {A} (x : arr A) n r c k : wf x -> ashape x = [n; r; c; k] -> length (adata x) = prod [n; r; c; k].
Proof. intros W E. unfold wf in W. now rewrite W, E. Qed.

Lemma nth_error_of_nth {A} (zero : A) d p : p < length d -> nth_error d p = Some (nth p d zero).
Proof. intros. now apply nth_error_nth'. Qed.

(** decoding a flat position *)
Definition dec4 {B} N R C K (f : nat -> nat -> nat -> nat -> B) (dflt : B) (p : nat) : B :=
  match unoffset [N; R; C; K] p with [n; r; c; k] => f n r c k | _ => dflt end.

Lemma dec4_pos4 {B} N R C K (f : nat -> nat -> nat -> nat -> B) dflt n r c k :
  n < N -> r < R -> c < C -> k < K -> dec4 N R C K f dflt (pos4 R C K n r c k) = f n r c k.
Proof.
  intros. unfold dec4. rewrite <- (pos4_offset N), unoffset_offset; [reflexivity|]. unfold valid. auto.
Qed.

(** ** transpose *)

Lemma transpose_ok {A} (zero : A) dbg cache x row col :
  wf x -> ashape x = [row; col] ->
  exists d, transpose_op zero dbg cache x = Ok (d, Arr [col; row] d) /\ length d = col * row /\
    forall r c, r < row -> c < col -> nth_error d (c * row + r) = nth_error (adata x) (r * col + c).
Proof.
  intros W E. assert (L : length (adata x) = row * col) by (unfold wf in W; rewrite W, E; cbn; lia).
  unfold transpose_op. rewrite E. cbn [length Nat.eqb check]. rewrite L, Nat.leb_refl.
  set (d0 := resized zero cache (col * row)). assert (L0 : length d0 = col * row) by apply resized_length.
  rewrite fill_ok.
  - eexists. split; [reflexivity|]. split; [now rewrite writes_length|]. intros r c Hr Hc.
    rewrite (nth_error_of_nth zero (adata x)) by (rewrite L; nia). apply writes_at.
    + rewrite L0. nia.
    + apply in_loop2. exists r, c. auto.
    + intros w Hw Ew. apply in_loop2 in Hw. destruct Hw as (r' & c' & Hr' & Hc' & ->). cbn [fst snd] in *.
      assert (c' = c) by nia. subst c'. assert (r' = r) by nia. now subst.
  - intros w Hw. apply in_loop2 in Hw. destruct Hw as (r' & c' & Hr' & Hc' & ->). cbn [fst]. rewrite L0. nia.
Qed.

(** ** padding and cropping, element by element *)

Definition inside (top left r c Y Z : nat) : bool := (top <=? Y) && (Y <? top + r) && (left <=? Z) && (Z <? left + c).

Lemma inside_spec top left r c Y Z : inside top left r c Y Z = true <-> top <= Y < top + r /\ left <= Z < left + c.
Proof. unfold inside. rewrite !andb_true_iff, !Nat.leb_le, !Nat.ltb_lt. lia. Qed.

Lemma pad_fwd_ok {A} (zero : A) dbg top bottom left right cache x n r c k :
  wf x -> ashape x = [n; r; c; k] ->
  let R := top + r + bottom in let C := left + c + right in
  exists d, pad_fwd zero dbg top bottom left right cache x = Ok (d, Arr [n; R; C; k] d) /\ length d = prod [n; R; C; k] /\
    forall i Y Z w, i < n -> Y < R -> Z < C -> w < k ->
      nth_error d (pos4 R C k i Y Z w)
      = if inside top left r c Y Z then nth_error (adata x) (pos4 r c k i (Y - top) (Z - left) w)
        else nth_error (resized zero cache (prod [n; R; C; k])) (pos4 R C k i Y Z w).
Proof.
  intros W E R C. assert (L := wf4 _ _ _ _ _ W E). unfold pad_fwd. rewrite (with4_ok dbg x n r c k) by assumption. fold R C.
  set (d0 := resized zero cache (prod [n; R; C; k])). assert (L0 : length d0 = prod [n; R; C; k]) by apply resized_length.
  rewrite fill_ok.
  - eexists. split; [reflexivity|]. split; [now rewrite writes_length|]. intros i Y Z w Hi HY HZ Hw.
    destruct (inside top left r c Y Z) eqn:Ein.
    + apply inside_spec in Ein. rewrite (nth_error_of_nth zero (adata x)) by (rewrite L; apply pos4_lt; lia).
      replace (pos4 R C k i Y Z w) with (pos4 R C k i (top + (Y - top)) (left + (Z - left)) w) by (f_equal; lia).
      apply (writes_loop4_at n r c k (fun i y z w => pos4 R C k i (top + y) (left + z) w) (fun i y z w => nth (pos4 r c k i y z w) (adata x) zero)); try lia.
      * intros i1 y1 z1 w1 i2 y2 z2 w2 ? ? ? ? ? ? ? ? Eq. apply (pos4_inj n) in Eq; unfold R, C; lia.
      * rewrite L0. apply pos4_lt; unfold R, C; lia.
    + apply (writes_loop4_other n r c k (fun i y z w => pos4 R C k i (top + y) (left + z) w) (fun i y z w => nth (pos4 r c k i y z w) (adata x) zero)).
      intros i' y z w' Hi' Hy Hz Hw' Eq. apply (pos4_inj n) in Eq; try (unfold R, C; lia).
      apply not_true_iff_false in Ein. apply Ein. apply inside_spec. lia.
  - intros w Hw. apply in_loop4 in Hw. destruct Hw as (i' & y & z & w' & Hi' & Hy & Hz & Hw' & ->). cbn [fst]. rewrite L0. apply pos4_lt; unfold R, C; lia.
Qed.

Lemma pad_bwd_ok {A} (zero : A) top bottom left right input grad n r c k :
  ashape input = [n; r; c; k] ->
  let R := top + r + bottom in let C := left + c + right in
  wf grad -> ashape grad = [n; R; C; k] ->
  exists d, pad_bwd zero top bottom left right input grad = Ok (Arr [n; r; c; k] d) /\ length d = prod [n; r; c; k] /\
    forall i y z w, i < n -> y < r -> z < c -> w < k ->
      nth_error d (pos4 r c k i y z w) = nth_error (adata grad) (pos4 R C k i (top + y) (left + z) w).
Proof.
  intros E R C W Eg. assert (L := wf4 _ _ _ _ _ W Eg). unfold pad_bwd. rewrite E. cbv zeta. fold R C. rewrite L, Nat.leb_refl.
  rewrite fill_ok; cbn [obind snd].
  - eexists. split; [reflexivity|]. split; [now rewrite writes_length, repeat_length|]. intros i y z w Hi Hy Hz Hw.
    rewrite (writes_loop4_all n r c k (fun i y z w => nth (pos4 R C k i (y + top) (z + left) w) (adata grad) zero)) by apply repeat_length.
    rewrite nth_error_loop4' by assumption. rewrite (nth_error_of_nth zero (adata grad)) by (rewrite L; apply pos4_lt; unfold R, C; lia).
    do 2 f_equal. f_equal; lia.
  - intros w Hw. apply in_loop4 in Hw. destruct Hw as (i' & y & z & w' & Hi' & Hy & Hz & Hw' & ->). cbn [fst]. rewrite repeat_length. apply pos4_lt; lia.
Qed.

Lemma crop_fwd_ok {A} (zero : A) dbg top bottom left right cache x n r c k :
  let R := top + r + bottom in let C := left + c + right in
  wf x -> ashape x = [n; R; C; k] -> r <> 0 -> c <> 0 ->
  exists d, crop_fwd zero dbg top bottom left right cache x = Ok (d, Arr [n; r; c; k] d) /\ length d = prod [n; r; c; k] /\
    forall i y z w, i < n -> y < r -> z < c -> w < k ->
      nth_error d (pos4 r c k i y z w) = nth_error (adata x) (pos4 R C k i (top + y) (left + z) w).
Proof.
  intros R C W E Hr0 Hc0. assert (L := wf4 _ _ _ _ _ W E). unfold crop_fwd. rewrite (with4_ok dbg x n R C k) by assumption.
  replace ((R <? top + bottom) || (C <? left + right)) with false by (symmetry; apply orb_false_iff; rewrite !Nat.ltb_ge; unfold R, C; lia).
  cbv zeta. replace (R - top - bottom) with r by (unfold R; lia). replace (C - left - right) with c by (unfold C; lia).
  rewrite !(proj2 (Nat.ltb_lt 0 _)) by lia. cbn [check].
  set (d0 := resized zero cache (prod [n; r; c; k])). assert (L0 : length d0 = prod [n; r; c; k]) by apply resized_length.
  rewrite fill_ok.
  - eexists. split; [reflexivity|]. split; [now rewrite writes_length|]. intros i y z w Hi Hy Hz Hw.
    rewrite (writes_loop4_all n r c k (fun i y z w => nth (pos4 R C k i (top + y) (left + z) w) (adata x) zero)) by assumption.
    rewrite nth_error_loop4' by assumption. symmetry. apply nth_error_of_nth. rewrite L; apply pos4_lt; unfold R, C; lia.
  - intros w Hw. apply in_loop4 in Hw. destruct Hw as (i' & y & z & w' & Hi' & Hy & Hz & Hw' & ->). cbn [fst]. rewrite L0. apply pos4_lt; lia.
Qed.

Lemma crop_bwd_ok {A} (zero : A) top bottom left right input grad n r c k :
  let R := top + r + bottom in let C := left + c + right in
  ashape input = [n; R; C; k] -> wf grad -> ashape grad = [n; r; c; k] ->
  exists d, crop_bwd zero top bottom left right input grad = Ok (Arr [n; R; C; k] d) /\ length d = prod [n; R; C; k] /\
    forall i Y Z w, i < n -> Y < R -> Z < C -> w < k ->
      nth_error d (pos4 R C k i Y Z w)
      = if inside top left r c Y Z then nth_error (adata grad) (pos4 r c k i (Y - top) (Z - left) w) else Some zero.
Proof.
  intros R C E W Eg. assert (L := wf4 _ _ _ _ _ W Eg). unfold crop_bwd. rewrite Eg, E. cbv zeta.
  replace (r + top + bottom) with R by (unfold R; lia). replace (c + left + right) with C by (unfold C; lia). rewrite L, Nat.leb_refl.
  rewrite fill_ok; cbn [obind snd].
  - eexists. split; [reflexivity|]. split; [now rewrite writes_length, repeat_length|]. intros i Y Z w Hi HY HZ Hw.
    destruct (inside top left r c Y Z) eqn:Ein.
    + apply inside_spec in Ein. rewrite (nth_error_of_nth zero (adata grad)) by (rewrite L; apply pos4_lt; lia).
      replace (pos4 R C k i Y Z w) with (pos4 R C k i ((Y - top) + top) ((Z - left) + left) w) by (f_equal; lia).
      apply (writes_loop4_at n r c k (fun i y z w => pos4 R C k i (y + top) (z + left) w) (fun i y z w => nth (pos4 r c k i y z w) (adata grad) zero)); try lia.
      * intros i1 y1 z1 w1 i2 y2 z2 w2 ? ? ? ? ? ? ? ? Eq. apply (pos4_inj n) in Eq; unfold R, C; lia.
      * rewrite repeat_length. apply pos4_lt; unfold R, C; lia.
    + rewrite (writes_loop4_other n r c k (fun i y z w => pos4 R C k i (y + top) (z + left) w) (fun i y z w => nth (pos4 r c k i y z w) (adata grad) zero)).
      * apply nth_error_repeat_lt. now apply pos4_lt.
      * intros i' y z w' Hi' Hy Hz Hw' Eq. apply (pos4_inj n) in Eq; try (unfold R, C; lia).
        apply not_true_iff_false in Ein. apply Ein. apply inside_spec. lia.
  - intros w Hw. apply in_loop4 in Hw. destruct Hw as (i' & y & z & w' & Hi' & Hy & Hz & Hw' & ->). cbn [fst]. rewrite repeat_length. apply pos4_lt; unfold R, C; lia.
Qed.

(** embedding x into zeros and cutting g out again are adjoint to each other *)
Lemma embed_adjoint (n r c k R C top left : nat) (x g y b : list Rdefinitions.R) :
  top + r <= R -> left + c <= C ->
  length x = prod [n; r; c; k] -> length b = prod [n; r; c; k] -> length g = prod [n; R; C; k] -> length y = prod [n; R; C; k] ->
  (forall i Y Z w, i < n -> Y < R -> Z < C -> w < k ->
     nth_error y (pos4 R C k i Y Z w) = if inside top left r c Y Z then nth_error x (pos4 r c k i (Y - top) (Z - left) w) else Some 0%R) ->
  (forall i v z w, i < n -> v < r -> z < c -> w < k -> nth_error b (pos4 r c k i v z w) = nth_error g (pos4 R C k i (top + v) (left + z) w)) ->
  inner b x = inner g y.
Proof.
  intros HR HC Lx Lb Lg Ly Ey Eb.
  apply (adjoint_injective
    (dec4 n R C k (fun i Y Z w => if inside top left r c Y Z then Some (pos4 r c k i (Y - top) (Z - left) w) else None) None)
    (dec4 n r c k (fun i v z w => Some (pos4 R C k i (top + v) (left + z) w)) None) (prod [n; r; c; k]) (prod [n; R; C; k])); auto.
  - intros p Hp. destruct (pos4_surj _ _ _ _ _ Hp) as (i & Y & Z & w & Hi & HY & HZ & Hw & ->). rewrite dec4_pos4 by assumption.
    specialize (Ey i Y Z w Hi HY HZ Hw). destruct (inside top left r c Y Z) eqn:E.
    + apply inside_spec in E. rewrite (nth_error_of_nth 0%R x) in Ey by (rewrite Lx; apply pos4_lt; lia). exact (nth_error_nth _ _ _ Ey).
    + exact (nth_error_nth _ _ _ Ey).
  - intros p Hp. destruct (pos4_surj _ _ _ _ _ Hp) as (i & v & z & w & Hi & Hv & Hz & Hw & ->). rewrite dec4_pos4 by assumption.
    specialize (Eb i v z w Hi Hv Hz Hw). rewrite (nth_error_of_nth 0%R g) in Eb by (rewrite Lg; apply pos4_lt; lia). exact (nth_error_nth _ _ _ Eb).
  - intros p j Hp E. destruct (pos4_surj _ _ _ _ _ Hp) as (i & Y & Z & w & Hi & HY & HZ & Hw & ->). rewrite dec4_pos4 in E by assumption.
    destruct (inside top left r c Y Z) eqn:Ei; [|discriminate]. apply inside_spec in Ei. injection E as <-. apply pos4_lt; lia.
  - intros p j Hp E. destruct (pos4_surj _ _ _ _ _ Hp) as (i & v & z & w & Hi & Hv & Hz & Hw & ->). rewrite dec4_pos4 in E by assumption.
    injection E as <-. apply pos4_lt; lia.
  - intros p q Hp Hq. destruct (pos4_surj _ _ _ _ _ Hp) as (i & v & z & w & Hi & Hv & Hz & Hw & ->).
    destruct (pos4_surj _ _ _ _ _ Hq) as (i' & Y & Z & w' & Hi' & HY & HZ & Hw' & ->). rewrite !dec4_pos4 by assumption. split; intros E.
    + injection E as E. apply (pos4_inj n) in E; try lia. destruct E as (-> & <- & <- & ->).
      rewrite (proj2 (inside_spec _ _ _ _ _ _)) by lia. f_equal. f_equal; lia.
    + destruct (inside top left r c Y Z) eqn:Ei; [|discriminate]. apply inside_spec in Ei. injection E as E. apply (pos4_inj n) in E; try lia.
      destruct E as (-> & <- & <- & ->). f_equal. f_equal; lia.
Qed.

(** ** up-sampling *)

Lemma up_fwd_ok {A} (zero : A) dbg s x n r c k :
  wf x -> ashape x = [n; r; c; k] ->
  exists d, up_fwd zero dbg s x = Ok (Arr [n; r * s; c * s; k] d) /\ length d = prod [n; r * s; c * s; k] /\
    forall i Y Z w, i < n -> Y < r * s -> Z < c * s -> w < k ->
      nth_error d (pos4 (r * s) (c * s) k i Y Z w) = nth_error (adata x) (pos4 r c k i (Y / s) (Z / s) w).
Proof.
  intros W E. assert (L := wf4 _ _ _ _ _ W E). unfold up_fwd. rewrite (with4_ok dbg x n r c k) by assumption.
  set (ws := concat _).
  assert (Hws : forall w, In w ws -> exists i y z v a b, i < n /\ y < r /\ z < c /\ v < k /\ a < s /\ b < s /\
            w = (pos4 (r * s) (c * s) k i (y * s + a) (z * s + b) v, nth (pos4 r c k i y z v) (adata x) zero)).
  { intros w Hw. unfold ws in Hw. apply in_concat in Hw. destruct Hw as (l & Hl & Hw). apply in_loop4 in Hl.
    destruct Hl as (i & y & z & v & Hi & Hy & Hz & Hv & ->). apply in_loop2 in Hw. destruct Hw as (a & b & Ha & Hb & ->).
    exists i, y, z, v, a, b. auto 10. }
  assert (Blk : forall y r0 a, y < r0 -> a < s -> y * s + a < r0 * s) by (intros; nia).
  rewrite fill_ok; cbn [obind snd].
  - eexists. split; [reflexivity|]. split; [now rewrite writes_length, repeat_length|]. intros i Y Z w Hi HY HZ Hw.
    assert (Hs : s <> 0) by nia.
    destruct (divmod_lt r s Y HY) as (Y1 & Y2 & Y3). destruct (divmod_lt c s Z HZ) as (Z1 & Z2 & Z3).
    rewrite (nth_error_of_nth zero (adata x)) by (rewrite L; apply pos4_lt; assumption). apply writes_at.
    + rewrite repeat_length. now apply pos4_lt.
    + unfold ws. apply in_concat. eexists. split.
      * apply in_loop4. exists i, (Y / s), (Z / s), w. split; [|split; [|split; [|split; [|reflexivity]]]]; assumption.
      * apply in_loop2. exists (Y mod s), (Z mod s). split; [assumption|]. split; [assumption|]. now rewrite <- Y3, <- Z3.
    + intros v Hv Ev. destruct (Hws v Hv) as (i' & y & z & w' & a & b & Hi' & Hy & Hz & Hw' & Ha & Hb & ->). cbn [fst snd] in *.
      apply (pos4_inj n) in Ev; try (auto; fail). destruct Ev as (-> & EY & EZ & ->).
      assert (Ey : y = Y / s). { rewrite <- EY. rewrite Nat.div_add_l by assumption. rewrite (Nat.div_small a s) by assumption. lia. }
      assert (Ez : z = Z / s). { rewrite <- EZ. rewrite Nat.div_add_l by assumption. rewrite (Nat.div_small b s) by assumption. lia. }
      now rewrite <- Ey, <- Ez.
  - intros v Hv. destruct (Hws v Hv) as (i' & y & z & w' & a & b & Hi' & Hy & Hz & Hw' & Ha & Hb & ->). cbn [fst]. rewrite repeat_length. apply pos4_lt; auto.
Qed.

(** the gradients (or elements) of one s x s block, in the order the code visits them *)
Definition block {A} (zero : A) R C K s (d : list A) i y z w : list A :=
  loop2 s s (fun a b => nth (pos4 R C K i (y * s + a) (z * s + b) w) d zero).

Lemma up_bwd_ok {A} (zero : A) plus s input grad n r c k :
  ashape input = [n; r; c; k] -> wf grad -> ashape grad = [n; r * s; c * s; k] ->
  exists d, up_bwd zero plus s input grad = Ok (Arr [n; r; c; k] d) /\ length d = prod [n; r; c; k] /\
    forall i y z w, i < n -> y < r -> z < c -> w < k ->
      nth_error d (pos4 r c k i y z w) = Some (fold_left plus (block zero (r * s) (c * s) k s (adata grad) i y z w) zero).
Proof.
  intros E W Eg. assert (L := wf4 _ _ _ _ _ W Eg). unfold up_bwd. rewrite E, L, Nat.leb_refl.
  eexists. split; [reflexivity|]. split; [now rewrite accumulate_length, repeat_length|]. intros i y z w Hi Hy Hz Hw.
  assert (Eq : loop4 n r c k (fun i y z w => loop2 s s (fun a b => (pos4 r c k i y z w, nth (pos4 (r * s) (c * s) k i (y * s + a) (z * s + b) w) (adata grad) zero)))
             = loop4 n r c k (fun i y z w => map (fun v => (pos4 r c k i y z w, v)) (block zero (r * s) (c * s) k s (adata grad) i y z w))).
  { apply list_eq_nth; rewrite !loop4_length; [reflexivity|]. intros p Hp. destruct (pos4_surj _ _ _ _ _ Hp) as (i' & y' & z' & w' & Hi' & Hy' & Hz' & Hw' & ->).
    rewrite !nth_error_loop4' by assumption. f_equal. unfold block. now rewrite <- loop2_map. }
  rewrite Eq, accumulate_blocks; auto.
  - now rewrite nth_repeat_any.
  - apply repeat_length.
Qed.

Lemma rsum_scale_list q l : rsum (map (fun v => v * q)%R l) = (rsum l * q)%R.
Proof. induction l; cbn; [ring|]. rewrite IHl. ring. Qed.

Lemma avg_fwd_ok {A} (zero : A) dbg plus mul factor s x n r c k :
  wf x -> ashape x = [n; r; c; k] -> s <> 0 ->
  exists d, avg_fwd zero dbg plus mul factor s x = Ok (Arr [n; r / s; c / s; k] d) /\ length d = prod [n; r / s; c / s; k] /\
    forall i y z w, i < n -> y < r / s -> z < c / s -> w < k ->
      nth_error d (pos4 (r / s) (c / s) k i y z w) = Some (fold_left plus (map (fun v => mul v factor) (block zero r c k s (adata x) i y z w)) zero).
Proof.
  intros W E Hs. unfold avg_fwd. rewrite (with4_ok dbg x n r c k) by assumption. rewrite (proj2 (Nat.eqb_neq s 0) Hs).
  eexists. split; [reflexivity|]. split; [now rewrite accumulate_length, repeat_length|]. intros i y z w Hi Hy Hz Hw.
  assert (Eq : loop4 n (r / s) (c / s) k (fun i y z w => loop2 s s (fun a b => (pos4 (r / s) (c / s) k i y z w, mul (nth (pos4 r c k i (y * s + a) (z * s + b) w) (adata x) zero) factor)))
             = loop4 n (r / s) (c / s) k (fun i y z w => map (fun v => (pos4 (r / s) (c / s) k i y z w, v)) (map (fun v => mul v factor) (block zero r c k s (adata x) i y z w)))).
  { apply list_eq_nth; rewrite !loop4_length; [reflexivity|]. intros p Hp. destruct (pos4_surj _ _ _ _ _ Hp) as (i' & y' & z' & w' & Hi' & Hy' & Hz' & Hw' & ->).
    rewrite !nth_error_loop4' by assumption. f_equal. unfold block. now rewrite <- !loop2_map. }
  rewrite Eq, (accumulate_blocks plus zero n (r / s) (c / s) k (fun i y z w => map (fun v => mul v factor) (block zero r c k s (adata x) i y z w))); auto.
  - now rewrite nth_repeat_any.
  - apply repeat_length.
Qed.

Lemma avg_bwd_ok {A} (zero : A) mul factor s input grad n r c k :
  ashape input = [n; r * s; c * s; k] -> wf grad -> ashape grad = [n; r; c; k] -> s <> 0 ->
  exists d, avg_bwd zero mul factor s input grad = Ok (Arr [n; r * s; c * s; k] d) /\ length d = prod [n; r * s; c * s; k] /\
    forall i Y Z w, i < n -> Y < r * s -> Z < c * s -> w < k ->
      nth_error d (pos4 (r * s) (c * s) k i Y Z w) = Some (mul factor (nth (pos4 r c k i (Y / s) (Z / s) w) (adata grad) zero)).
Proof.
  intros E W Eg Hs. assert (L := wf4 _ _ _ _ _ W Eg). unfold avg_bwd. rewrite E, (proj2 (Nat.eqb_neq s 0) Hs), !Nat.div_mul by assumption.
  replace (forallb _ _) with true.
  - eexists. split; [reflexivity|]. split; [apply loop4_length|]. intros. now rewrite nth_error_loop4'.
  - symmetry. apply forallb_forall. intros q Hq. apply in_loop4 in Hq. destruct Hq as (i & Y & Z & w & Hi & HY & HZ & Hw & ->).
    apply Nat.ltb_lt. rewrite L. apply pos4_lt; auto; apply Nat.div_lt_upper_bound; lia.
Qed.

(** repeating blocks and summing blocks are adjoint *)
Lemma block_adjoint n r c k s (x g y b : list R) :
  s <> 0 ->
  length x = prod [n; r; c; k] -> length b = prod [n; r; c; k] -> length g = prod [n; r * s; c * s; k] -> length y = prod [n; r * s; c * s; k] ->
  (forall i Y Z w, i < n -> Y < r * s -> Z < c * s -> w < k ->
     nth (pos4 (r * s) (c * s) k i Y Z w) y 0%R = nth (pos4 r c k i (Y / s) (Z / s) w) x 0%R) ->
  (forall i v z w, i < n -> v < r -> z < c -> w < k -> nth (pos4 r c k i v z w) b 0%R = rsum (block 0%R (r * s) (c * s) k s g i v z w)) ->
  inner b x = inner g y.
Proof.
  intros Hs Lx Lb Lg Ly Ey Eb.
  assert (Blk : forall y r0 a, y < r0 -> a < s -> y * s + a < r0 * s) by (intros; nia).
  assert (Dv : forall y a, a < s -> (y * s + a) / s = y).
  { intros v a Ha. rewrite Nat.div_add_l by assumption. rewrite (Nat.div_small a s) by assumption. lia. }
  apply (adjoint_gather
    (dec4 n (r * s) (c * s) k (fun i Y Z w => Some (pos4 r c k i (Y / s) (Z / s) w)) None)
    (dec4 n r c k (fun i v z w => loop2 s s (fun a e => pos4 (r * s) (c * s) k i (v * s + a) (z * s + e) w)) [])
    (prod [n; r; c; k]) (prod [n; r * s; c * s; k])); auto.
  - intros p Hp. destruct (pos4_surj _ _ _ _ _ Hp) as (i & Y & Z & w & Hi & HY & HZ & Hw & ->). rewrite dec4_pos4 by assumption. auto.
  - intros p Hp. destruct (pos4_surj _ _ _ _ _ Hp) as (i & v & z & w & Hi & Hv & Hz & Hw & ->). rewrite dec4_pos4 by assumption.
    rewrite Eb by assumption. unfold block. now rewrite <- loop2_map.
  - intros p j Hp E. destruct (pos4_surj _ _ _ _ _ Hp) as (i & Y & Z & w & Hi & HY & HZ & Hw & ->). rewrite dec4_pos4 in E by assumption.
    injection E as <-. destruct (divmod_lt r s Y HY) as (? & _). destruct (divmod_lt c s Z HZ) as (? & _). now apply pos4_lt.
  - intros p Hp. destruct (pos4_surj _ _ _ _ _ Hp) as (i & v & z & w & Hi & Hv & Hz & Hw & ->). rewrite dec4_pos4 by assumption.
    apply NoDup_loop2. intros a e a' e' Ha He Ha' He' Eq. apply (pos4_inj n) in Eq; auto. lia.
  - intros p q Hp. destruct (pos4_surj _ _ _ _ _ Hp) as (i & v & z & w & Hi & Hv & Hz & Hw & ->). rewrite dec4_pos4 by assumption.
    rewrite in_loop2. split.
    + intros (a & e & Ha & He & ->). split; [apply pos4_lt; auto|]. rewrite dec4_pos4 by auto. now rewrite !Dv by assumption.
    + intros [Hq E]. destruct (pos4_surj _ _ _ _ _ Hq) as (i' & Y & Z & w' & Hi' & HY & HZ & Hw' & ->). rewrite dec4_pos4 in E by assumption.
      destruct (divmod_lt r s Y HY) as (? & ? & EY). destruct (divmod_lt c s Z HZ) as (? & ? & EZ).
      injection E as E. apply (pos4_inj n) in E; auto. destruct E as (<- & <- & <- & <-).
      exists (Y mod s), (Z mod s). split; [assumption|]. split; [assumption|]. now rewrite <- EY, <- EZ.
Qed.

