(** Lemmas about the array functions. *)
From Coq Require Import List Arith Lia Bool PeanoNat ZArith Permutation.
From Verif Require Import ListBase Loops TensorModel TensorProofs ArrayModel.
Import ListNotations.

(** the element of an array at a multi-index, and: the array has as many elements as its shape says *)
Definition at_index {A} (t : arr A) (idx : list nat) : option A := nth_error (adata t) (offset (ashape t) idx).
Definition wf {A} (t : arr A) : Prop := length (adata t) = prod (ashape t).

(** axis argument [ax] of a tensor with n dimensions names dimension k: given directly, or as -1 for the last *)
Definition names_axis (ax : option nat) (n k : nat) : Prop := ax = Some k \/ (ax = None /\ S k = n).

Lemma pick_axis_names ax n k : names_axis ax n k -> pick_axis ax n = k.
Proof. intros [->|(-> & H)]; cbn [pick_axis]; lia. Qed.

Lemma nth_error_blocks {A} (g : nat -> list A) n m i j :
  (forall k, k < n -> length (g k) = m) -> i < n -> j < m ->
  nth_error (flat_map g (seq 0 n)) (i * m + j) = nth_error (g i) j.
Proof.
  intros H Hi Hj. destruct (nth_error (g i) j) as [d|] eqn:E.
  - rewrite (flat_map_tab n m g d H), nth_error_tab2 by assumption. f_equal. now apply nth_error_nth.
  - apply nth_error_None in E. rewrite H in E; lia.
Qed.

Lemma blocks_length {A} (g : nat -> list A) n m :
  (forall k, k < n -> length (g k) = m) -> length (flat_map g (seq 0 n)) = n * m.
Proof.
  intros H. assert (G : forall s k, (forall i, s <= i < s + k -> length (g i) = m) -> length (flat_map g (seq s k)) = k * m).
  { intros s k. revert s. induction k; intros s Hs; [reflexivity|]. cbn [seq flat_map]. rewrite app_length, IHk, Hs by (intros; try apply Hs; lia). lia. }
  apply G. intros; apply H; lia.
Qed.

Lemma slice_length {A} (d : list A) s n : s + n <= length d -> length (slice d s n) = n.
Proof. intros. unfold slice. rewrite firstn_length, skipn_length. lia. Qed.

Lemma nth_error_firstn {A} (l : list A) n i : i < n -> nth_error (firstn n l) i = nth_error l i.
Proof. revert n i. induction l; intros [|n] [|i] H; cbn; try lia; auto. apply IHl. lia. Qed.

Lemma nth_error_skipn {A} (l : list A) n i : nth_error (skipn n l) i = nth_error l (n + i).
Proof. revert n. induction l; intros [|n]; cbn; auto. now destruct i. Qed.

Lemma nth_error_slice {A} (d : list A) s n i : i < n -> nth_error (slice d s n) i = nth_error d (s + i).
Proof. intros. unfold slice. now rewrite nth_error_firstn, nth_error_skipn. Qed.

Lemma firstn_at {A} (p q : list A) : firstn (length p) (p ++ q) = p.
Proof. rewrite firstn_app, firstn_all, Nat.sub_diag. cbn. now rewrite app_nil_r. Qed.
Lemma skipn_at {A} (p q : list A) : skipn (length p) (p ++ q) = q.
Proof. rewrite skipn_app, skipn_all, Nat.sub_diag. reflexivity. Qed.
Lemma skipn_S_at {A} (p q : list A) x : skipn (S (length p)) (p ++ x :: q) = q.
Proof.
  replace (S (length p)) with (length (p ++ [x])) by (rewrite app_length; cbn; lia).
  replace (p ++ x :: q) with ((p ++ [x]) ++ q) by now rewrite <- app_assoc. apply skipn_at.
Qed.
Lemma nth_at {A} (p q : list A) x d : nth (length p) (p ++ x :: q) d = x.
Proof. rewrite app_nth2, Nat.sub_diag by lia. reflexivity. Qed.
Lemma upd_at {A} (p q : list A) x y : upd (p ++ x :: q) (length p) y = p ++ y :: q.
Proof. induction p; cbn; [reflexivity|now f_equal]. Qed.

Lemma list_eqb_refl a : list_eqb a a = true.
Proof. now destruct (list_eqb_spec a a). Qed.

(** ** concatenate *)

Lemma concatenate_ok {A} (zero : A) dbg l r axis p a b q :
  wf l -> wf r -> ashape l = p ++ a :: q -> ashape r = p ++ b :: q -> prod p <> 0 ->
  names_axis axis (length (p ++ a :: q)) (length p) ->
  concatenate zero dbg l r axis
  = Ok (Arr (p ++ (a + b) :: q)
         (flat_map (fun i => slice (adata l) (a * prod q * i) (a * prod q) ++ slice (adata r) (b * prod q * i) (b * prod q))
                   (seq 0 (prod p)))).
Proof.
  intros Wl Wr Hl Hr Hp Hax. unfold wf in *. unfold concatenate. rewrite Hl, Hr.
  rewrite (pick_axis_names _ _ _ Hax), !app_length. cbn [length]. rewrite Nat.eqb_refl. cbn [negb].
  rewrite !firstn_at, !skipn_S_at, !skipn_at, !list_eqb_refl, !nth_at, !upd_at.
  rewrite (proj2 (Nat.ltb_lt _ _)) by lia. cbn [check]. rewrite (proj2 (Nat.leb_gt _ _)) by lia. cbn [check].
  rewrite !prod_cons. replace (Nat.max 1 (prod p)) with (prod p) by lia.
  rewrite Wl, Wr, Hl, Hr, !prod_app, !prod_cons.
  rewrite !(proj2 (Nat.leb_le _ _)) by lia. cbn [andb].
  replace (prod p * ((a + b) * prod q) - _) with 0 by lia. cbn [repeat]. now rewrite app_nil_r.
Qed.

Lemma offset_split p n q ip i iq :
  length ip = length p -> offset (p ++ n :: q) (ip ++ i :: iq) = offset p ip * (n * prod q) + (i * prod q + offset q iq).
Proof. intros. rewrite offset_app by assumption. cbn [offset]. now rewrite prod_cons. Qed.

Lemma concatenate_at {A} (zero : A) dbg l r axis p a b q :
  wf l -> wf r -> ashape l = p ++ a :: q -> ashape r = p ++ b :: q -> prod p <> 0 ->
  names_axis axis (length (p ++ a :: q)) (length p) ->
  exists c, concatenate zero dbg l r axis = Ok c /\ ashape c = p ++ (a + b) :: q /\ wf c /\
    forall ip i iq, valid p ip -> valid q iq ->
      (i < a -> at_index c (ip ++ i :: iq) = at_index l (ip ++ i :: iq)) /\
      (i < b -> at_index c (ip ++ (a + i) :: iq) = at_index r (ip ++ i :: iq)).
Proof.
  intros Wl Wr Hl Hr Hp Hax. eexists. split; [apply (concatenate_ok zero dbg l r axis p a b q); assumption|].
  set (g := fun i => slice (adata l) (a * prod q * i) (a * prod q) ++ slice (adata r) (b * prod q * i) (b * prod q)).
  assert (G : forall k, k < prod p -> length (slice (adata l) (a * prod q * k) (a * prod q)) = a * prod q).
  { intros k Hk. apply slice_length. rewrite Wl, Hl, prod_app, prod_cons. nia. }
  assert (G' : forall k, k < prod p -> length (slice (adata r) (b * prod q * k) (b * prod q)) = b * prod q).
  { intros k Hk. apply slice_length. rewrite Wr, Hr, prod_app, prod_cons. nia. }
  assert (L : forall k, k < prod p -> length (g k) = (a + b) * prod q).
  { intros k Hk. unfold g. rewrite app_length, G, G' by assumption. lia. }
  split; [reflexivity|]. split.
  { unfold wf. cbn [ashape adata]. rewrite (blocks_length g (prod p) _ L), prod_app, prod_cons. reflexivity. }
  intros ip i iq Vp Vq. assert (Lp := valid_length _ _ Vp). assert (Op := valid_offset_lt _ _ Vp). assert (Oq := valid_offset_lt _ _ Vq).
  unfold at_index. cbn [ashape adata]. rewrite Hl, Hr, !offset_split by assumption. split; intros Hi.
  - rewrite (nth_error_blocks g (prod p) ((a + b) * prod q)) by (auto; nia). unfold g.
    rewrite nth_error_app1 by (rewrite G by assumption; nia). rewrite nth_error_slice by nia. f_equal. lia.
  - rewrite (nth_error_blocks g (prod p) ((a + b) * prod q)) by (auto; nia). unfold g.
    rewrite nth_error_app2; rewrite G by assumption; [|nia].
    replace ((a + i) * prod q + offset q iq - a * prod q) with (i * prod q + offset q iq) by nia.
    rewrite nth_error_slice by nia. f_equal. lia.
Qed.

(** ** reductions *)

(** a way of bracketing: the binary tree of the calls of the reducing function *)
Inductive bracketing (A : Type) := Leaf (x : A) | Node (l r : bracketing A).
Arguments Leaf {A}. Arguments Node {A}.
Fixpoint leaves {A} (t : bracketing A) : list A := match t with Leaf x => [x] | Node l r => leaves l ++ leaves r end.
Fixpoint value {A} (f : A -> A -> A) (t : bracketing A) : A := match t with Leaf x => x | Node l r => f (value f l) (value f r) end.

Lemma fold_left_tree {A} (f : A -> A -> A) l t :
  exists t', fold_left f l (value f t) = value f t' /\ leaves t' = leaves t ++ l.
Proof.
  revert t. induction l as [|x l IH]; intros t; cbn [fold_left].
  - exists t. now rewrite app_nil_r.
  - destruct (IH (Node t (Leaf x))) as (t' & E & L). exists t'. cbn [value leaves] in *. split; [assumption|]. now rewrite L, <- app_assoc.
Qed.

Lemma std_reduce_tree {A} (f : A -> A -> A) l t :
  exists t', std_reduce f (value f t) l = value f t' /\ leaves t' = leaves t ++ l.
Proof.
  assert (H : forall n l t, length l <= n -> exists t', std_reduce f (value f t) l = value f t' /\ leaves t' = leaves t ++ l).
  { induction n as [|n IH]; intros [|a [|b [|c [|d rest]]]] u Hl; cbn [length] in Hl; try lia; try apply fold_left_tree.
    destruct (IH rest (Node u (Node (Node (Leaf a) (Leaf b)) (Node (Leaf c) (Leaf d)))) ltac:(lia)) as (t' & E & L).
    exists t'. split; [exact E|]. rewrite L. cbn [leaves]. now rewrite <- app_assoc. }
  now apply (H (length l)).
Qed.

Lemma value_monoid {A} (f : A -> A -> A) e :
  (forall x y z, f x (f y z) = f (f x y) z) -> (forall x, f e x = x) -> (forall x, f x e = x) ->
  forall t, value f t = fold_right f e (leaves t).
Proof.
  intros Ha He1 He2. assert (G : forall l m, fold_right f e (l ++ m) = f (fold_right f e l) (fold_right f e m)).
  { induction l; intros m; cbn; [now rewrite He1|]. now rewrite IHl, Ha. }
  induction t; cbn [value leaves fold_right]; [now rewrite He2|]. now rewrite G, IHt1, IHt2.
Qed.

Lemma value_select {A} (le : A -> A -> Prop) (f : A -> A -> A) :
  (forall x, le x x) -> (forall x y z, le x y -> le y z -> le x z) ->
  (forall x y, (f x y = x \/ f x y = y) /\ le x (f x y) /\ le y (f x y)) ->
  forall t, In (value f t) (leaves t) /\ forall x, In x (leaves t) -> le x (value f t).
Proof.
  intros Hr Ht Hf. induction t; cbn [value leaves].
  - split; [now left|]. intros y [->|[]]. apply Hr.
  - destruct IHt1 as [I1 L1], IHt2 as [I2 L2]. destruct (Hf (value f t1) (value f t2)) as ([E|E] & U1 & U2).
    + split; [rewrite E; apply in_or_app; now left|]. intros x Hx. apply in_app_or in Hx. destruct Hx; eauto.
    + split; [rewrite E; apply in_or_app; now right|]. intros x Hx. apply in_app_or in Hx. destruct Hx; eauto.
Qed.

(** the elements of t on the line through (ip, iq) along one axis, in order *)
Definition fibre {A} (t : arr A) (ip iq : list nat) (n : nat) (l : list A) : Prop :=
  length l = n /\ forall k, k < n -> at_index t (ip ++ k :: iq) = nth_error l k.

Lemma fibre_strided {A} (zero : A) t p n q ip iq :
  wf t -> ashape t = p ++ n :: q -> valid p ip -> valid q iq ->
  fibre t ip iq n (strided zero (adata t) (offset p ip * prod q * n + offset q iq) (prod q) n).
Proof.
  intros Wt Hs Vp Vq. split; [apply tab_length|]. intros k Hk. unfold strided. rewrite nth_error_tab by assumption.
  unfold at_index. rewrite Hs, offset_split by now apply valid_length.
  assert (Op := valid_offset_lt _ _ Vp). assert (Oq := valid_offset_lt _ _ Vq).
  replace (offset p ip * (n * prod q) + (k * prod q + offset q iq)) with (offset p ip * prod q * n + offset q iq + k * prod q) by lia.
  apply nth_error_nth'. rewrite Wt, Hs, prod_app, prod_cons.
  assert (k * prod q + offset q iq < n * prod q) by nia.
  assert ((offset p ip + 1) * (n * prod q) <= prod p * (n * prod q)) by (apply Nat.mul_le_mono_r; lia). lia.
Qed.

Lemma fibre_unique {A} (t : arr A) ip iq n l m : fibre t ip iq n l -> fibre t ip iq n m -> l = m.
Proof.
  intros [Ll Hl] [Lm Hm]. apply list_eq_nth; [congruence|]. intros i Hi. rewrite <- Hl, <- Hm by lia. reflexivity.
Qed.

Lemma reduce_ok {A} (zero : A) dbg t axis init f keepdims p n q :
  wf t -> ashape t = p ++ n :: q -> prod (ashape t) <> 0 -> names_axis axis (length (p ++ n :: q)) (length p) ->
  reduce zero dbg t axis init f keepdims
  = let d := loop2 (prod p) (prod q) (fun i j => std_reduce f init (strided zero (adata t) (i * prod q * n + j) (prod q) n)) in
    if keepdims then Ok (Arr (p ++ 1 :: q) d)
    else match p ++ q with [] => UB | s => Ok (Arr s d) end.
Proof.
  intros Wt Hs Hn Hax. unfold wf in Wt. unfold reduce. destruct (adata t) as [|x0 dd] eqn:Ed.
  { cbn in Wt. congruence. }
  rewrite <- Ed in *. rewrite Hs, (pick_axis_names _ _ _ Hax), !app_length. cbn [length].
  rewrite (proj2 (Nat.ltb_lt _ _)) by lia. cbn [check]. rewrite (proj2 (Nat.leb_gt _ _)) by lia. cbn [check].
  rewrite firstn_at, skipn_S_at, nth_at, upd_at. rewrite Wt, Hs, prod_app, prod_cons.
  rewrite (proj2 (Nat.leb_le _ _)) by lia. reflexivity.
Qed.

Lemma loop2_at {A} p q (g : nat -> nat -> A) ip iq :
  valid p ip -> valid q iq -> nth_error (loop2 (prod p) (prod q) g) (offset p ip * prod q + offset q iq) = Some (g (offset p ip) (offset q iq)).
Proof. intros. apply nth_error_tab2; now apply valid_offset_lt. Qed.

(** ** flip *)

(** mirror dimension n in a row-major position of an array with P blocks of n rows of Q elements *)
Definition mirror (n Q pos : nat) : nat := (pos / (n * Q)) * (n * Q) + ((n - 1 - (pos / Q) mod n) * Q + pos mod Q).

Lemma mirror_at n Q o i j : i < n -> j < Q -> mirror n Q (o * (n * Q) + (i * Q + j)) = o * (n * Q) + ((n - 1 - i) * Q + j).
Proof.
  intros Hi Hj. unfold mirror.
  assert (E1 : (o * (n * Q) + (i * Q + j)) / (n * Q) = o) by (rewrite Nat.div_add_l, Nat.div_small by nia; lia).
  assert (E2 : (o * (n * Q) + (i * Q + j)) / Q = o * n + i).
  { replace (o * (n * Q) + (i * Q + j)) with ((o * n + i) * Q + j) by lia. rewrite Nat.div_add_l, Nat.div_small by lia. lia. }
  assert (E3 : (o * (n * Q) + (i * Q + j)) mod Q = j).
  { replace (o * (n * Q) + (i * Q + j)) with (j + (o * n + i) * Q) by lia. now rewrite Nat.mod_add, Nat.mod_small by lia. }
  rewrite E1, E2, E3. replace (o * n + i) with (i + o * n) by lia. now rewrite Nat.mod_add, Nat.mod_small by lia.
Qed.

(** if every position of the destination is assigned, and only consistently, the destination is that table *)
Lemma writes_all {A} (ws : list (nat * A)) d (g : nat -> A) :
  (forall w, In w ws -> snd w = g (fst w)) -> (forall p, p < length d -> exists w, In w ws /\ fst w = p) ->
  writes ws d = tab (length d) g.
Proof.
  intros H1 H2. apply list_eq_nth; rewrite writes_length; [now rewrite tab_length|]. intros i Hi.
  rewrite nth_error_tab by assumption. apply writes_at; [assumption| |].
  - destruct (H2 i Hi) as ([p v] & Hw & E). cbn in E. subst p. specialize (H1 _ Hw). cbn in H1. now subst v.
  - intros w Hw E. now rewrite (H1 w Hw), E.
Qed.

Lemma flip_3D_ok {A} (zero : A) src r c ch ax dst P n Q :
  length src = r * (c * ch) -> length dst = r * (c * ch) ->
  (ax = 0%Z /\ P = 1 /\ n = r /\ Q = c * ch) \/ (ax = 1%Z /\ P = r /\ n = c /\ Q = ch) \/
  (ax <> 0%Z /\ ax <> 1%Z /\ P = r * c /\ n = ch /\ Q = 1) ->
  flip_3D zero src r c ch ax dst = Ok (tab (r * (c * ch)) (fun pos => nth (mirror n Q pos) src zero)).
Proof.
  intros Hs Hd Hax. unfold flip_3D. rewrite Hs, Nat.leb_refl. cbn [andb].
  assert (B : forall w, In w (flip_3D_writes zero src r c ch ax) -> fst w < r * (c * ch) /\ snd w = nth (mirror n Q (fst w)) src zero).
  { unfold flip_3D_writes.
    destruct Hax as [(-> & -> & -> & ->)|[(-> & -> & -> & ->)|(H0 & H1 & -> & -> & ->)]];
      [cbn [Z.eqb]|cbn [Z.eqb Pos.eqb]|rewrite !(proj2 (Z.eqb_neq _ _)) by assumption];
      intros w Hw; apply in_loop3 in Hw; destruct Hw as (x & y & z & Hx & Hy & Hz & ->); cbn [fst snd].
    - split; [assert (y * ch + z < c * ch) by nia; nia|].
      replace ((r - x - 1) * (c * ch) + (y * ch + z)) with (0 * (r * (c * ch)) + ((r - x - 1) * (c * ch) + (y * ch + z))) by lia.
      rewrite mirror_at by nia. f_equal. replace (r - 1 - (r - x - 1)) with x by lia. lia.
    - split; [assert ((c - y - 1) * ch + z < c * ch) by nia; nia|].
      rewrite mirror_at by nia. f_equal. replace (c - 1 - (c - y - 1)) with y by lia. lia.
    - split; [assert (y * ch + (ch - z - 1) < c * ch) by nia; nia|].
      replace (x * (c * ch) + (y * ch + (ch - z - 1))) with ((x * c + y) * (ch * 1) + ((ch - z - 1) * 1 + 0)) by (remember (ch - z - 1); ring).
      rewrite mirror_at by lia. f_equal. replace (ch - 1 - (ch - z - 1)) with z by lia. ring. }
  rewrite Hd. rewrite (proj2 (in_bounds_spec _ _)) by (intros; now apply B).
  f_equal. rewrite <- Hd. apply writes_all; [intros; now apply B|].
  intros pos Hpos. rewrite Hd in Hpos. apply divmod_lt in Hpos. destruct Hpos as (Hx & Hq & Ep).
  apply divmod_lt in Hq. destruct Hq as (Hy & Hz & Eq).
  set (x := pos / (c * ch)) in *. set (yz := pos mod (c * ch)) in *. set (y := yz / ch) in *. set (z := yz mod ch) in *.
  unfold flip_3D_writes.
  destruct Hax as [(-> & _)|[(-> & _)|(H0 & H1 & _)]];
    [cbn [Z.eqb]|cbn [Z.eqb Pos.eqb]|rewrite !(proj2 (Z.eqb_neq _ _)) by assumption].
  - eexists. split; [apply in_loop3; exists (r - x - 1), y, z; split; [lia|split; [assumption|split; [assumption|reflexivity]]]|].
    cbn [fst]. replace (r - (r - x - 1) - 1) with x by lia. lia.
  - eexists. split; [apply in_loop3; exists x, (c - y - 1), z; split; [lia|split; [lia|split; [assumption|reflexivity]]]|].
    cbn [fst]. replace (c - (c - y - 1) - 1) with y by lia. lia.
  - eexists. split; [apply in_loop3; exists x, y, (ch - z - 1); split; [lia|split; [assumption|split; [lia|reflexivity]]]|].
    cbn [fst]. replace (ch - (ch - z - 1) - 1) with z by lia. lia.
Qed.

Lemma flip_1D_ok {A} (zero : A) src dst :
  length dst = length src -> flip_1D zero src dst = Ok (tab (length src) (fun pos => nth (mirror (length src) 1 pos) src zero)).
Proof.
  intros H. unfold flip_1D. rewrite H, Nat.leb_refl. f_equal.
  transitivity (tab (length dst) (fun pos => nth (mirror (length src) 1 pos) src zero)); [|now rewrite H]. apply writes_all.
  - intros w Hw. unfold tab in Hw. apply in_map_iff in Hw. destruct Hw as (i & <- & Hi). apply in_seq in Hi. cbn [fst snd].
    replace (length src - 1 - i) with (0 * (length src * 1) + ((length src - 1 - i) * 1 + 0)) by lia.
    rewrite mirror_at by lia. f_equal. lia.
  - intros p Hp. exists (length src - 1 - (length src - 1 - p), nth (length src - 1 - p) src zero).
    split; [|cbn; lia]. unfold tab. apply in_map_iff. exists (length src - 1 - p). split; [reflexivity|]. apply in_seq. lia.
Qed.

(** flip along dimension k of a tensor with one to four dimensions *)
Lemma flip_ok {A} (zero : A) dbg t ax p n q :
  wf t -> prod (ashape t) <> 0 -> length (ashape t) <= 4 -> ashape t = p ++ n :: q ->
  ax = Z.of_nat (length p) \/ (ax = (-1)%Z /\ q = []) ->
  flip zero dbg t ax = Ok (adata t, Arr (ashape t) (tab (prod (ashape t)) (fun pos => nth (mirror n (prod q) pos) (adata t) zero))).
Proof.
  intros Wt Hn H4 Hs Hax. unfold wf in Wt. unfold flip. rewrite (proj2 (Nat.eqb_neq _ _)) by congruence.
  rewrite (proj2 (Nat.leb_le _ _)) by assumption. cbn [check].
  assert (Hax' : (if Z.eqb ax (-1) then (Z.of_nat (length (ashape t)) - 1)%Z else ax) = Z.of_nat (length p)).
  { rewrite Hs, app_length. destruct Hax as [->|[-> ->]]; [|cbn [length Z.eqb Pos.eqb]; lia].
    destruct (Z.eqb_spec (Z.of_nat (length p)) (-1)); [lia|reflexivity]. }
  rewrite Hax'. assert (Hlt : length p < length (ashape t)) by (rewrite Hs, app_length; cbn; lia).
  rewrite (proj2 (Z.ltb_lt _ _)) by lia. cbn [check].
  assert (R : forall d s : list nat, prod d = prod s -> forall l : list A, length l = prod s -> reshaped zero l d = l).
  { intros d s E l El. unfold reshaped. rewrite El, <- E, Nat.eqb_refl. reflexivity. }
  destruct (ashape t) as [|s0 [|s1 [|s2 [|s3 [|s4 rest]]]]] eqn:Es; try (cbn [length] in H4; lia).
  - destruct p; discriminate.
  - destruct p as [|? [|]]; cbn [app] in Hs; try (cbn in Hlt; lia). injection Hs as <- <-.
    assert (prod [s0] = s0) by (cbn; lia).
    rewrite flip_1D_ok by (rewrite repeat_length; congruence). cbn [obind]. rewrite Wt. now rewrite H.
  - unfold flip_via. rewrite (R [s0; s1; 1] [s0; s1] ltac:(cbn; lia) _ Wt). rewrite (R [s0; s1; 1] [s0; s1] ltac:(cbn; lia) _ (repeat_length _ _)).
    rewrite (flip_3D_ok zero (adata t) s0 s1 1 _ _ (prod p) n (prod q)).
    + cbn [obind]. replace (s0 * (s1 * 1)) with (prod [s0; s1]) by (cbn; lia). do 3 f_equal.
      unfold reshaped. now rewrite tab_length, Nat.eqb_refl.
    + rewrite Wt. cbn. lia.
    + rewrite repeat_length. cbn. lia.
    + destruct p as [|p0 [|p1 p]]; cbn [app length] in *; try lia; injection Hs as; subst; cbn [Z.of_nat prod fold_right]; [left|right; left]; repeat split; lia.
  - rewrite (flip_3D_ok zero (adata t) s0 s1 s2 _ _ (prod p) n (prod q)).
    + cbn [obind]. replace (s0 * (s1 * s2)) with (prod [s0; s1; s2]) by (cbn; lia). reflexivity.
    + rewrite Wt. cbn. lia.
    + rewrite repeat_length. cbn. lia.
    + destruct p as [|p0 [|p1 [|p2 p]]]; cbn [app length] in *; try lia; injection Hs as; subst; cbn [prod fold_right Z.of_nat Pos.of_succ_nat Pos.succ];
        [left|right; left|right; right]; repeat split; lia.
  - assert (Hp : length p = 0 \/ length p = 1 \/ length p = 2 \/ length p = 3) by (cbn in Hlt; lia).
    destruct (Z.eqb (Z.of_nat (length p)) 0 || Z.eqb (Z.of_nat (length p)) 1)%bool eqn:Hb.
    + apply orb_true_iff in Hb. rewrite !Z.eqb_eq in Hb.
      unfold flip_via. rewrite (R [s0; s1; s2 * s3] [s0; s1; s2; s3] ltac:(cbn; lia) _ Wt), (R [s0; s1; s2 * s3] [s0; s1; s2; s3] ltac:(cbn; lia) _ (repeat_length _ _)).
      rewrite (flip_3D_ok zero (adata t) s0 s1 (s2 * s3) _ _ (prod p) n (prod q)).
      * cbn [obind]. replace (s0 * (s1 * (s2 * s3))) with (prod [s0; s1; s2; s3]) by (cbn; lia). do 3 f_equal.
        unfold reshaped. now rewrite tab_length, Nat.eqb_refl.
      * rewrite Wt. cbn. lia.
      * rewrite repeat_length. cbn. lia.
      * destruct p as [|p0 [|p1 p]]; cbn [app length] in *; try lia; injection Hs as; subst; cbn [prod fold_right Z.of_nat Pos.of_succ_nat Pos.succ];
        [left|right; left]; repeat split; lia.
    + apply orb_false_iff in Hb. rewrite !Z.eqb_neq in Hb.
      unfold flip_via. rewrite (R [s0 * s1; s2; s3] [s0; s1; s2; s3] ltac:(cbn; lia) _ Wt), (R [s0 * s1; s2; s3] [s0; s1; s2; s3] ltac:(cbn; lia) _ (repeat_length _ _)).
      rewrite (flip_3D_ok zero (adata t) (s0 * s1) s2 s3 _ _ (prod p) n (prod q)).
      * cbn [obind]. replace (s0 * s1 * (s2 * s3)) with (prod [s0; s1; s2; s3]) by (cbn; lia). do 3 f_equal.
        unfold reshaped. now rewrite tab_length, Nat.eqb_refl.
      * rewrite Wt. cbn. lia.
      * rewrite repeat_length. cbn. lia.
      * destruct p as [|p0 [|p1 [|p2 [|p3 p]]]]; cbn [app length] in *; try lia; injection Hs as; subst; cbn [prod fold_right Z.of_nat Pos.of_succ_nat Pos.succ];
        [right; left|right; right]; repeat split; lia.
Qed.
