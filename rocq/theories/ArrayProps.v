(** Properties C18-C21 and C49: concatenation, axis reductions, softmax, flips, repmat. *)
From Coq Require Import List Arith Lia Bool PeanoNat ZArith Reals Lra.
From Verif Require Import ListBase Loops TensorModel ArrayModel ArrayProofs.
Import ListNotations.

(** ** C18 *)

(** two tensors that agree in every dimension but one, and have elements in front of that one: the result has the summed
    extent there, the elements of l first and those of r, shifted by l's extent, behind them *)
Theorem C18_concatenate : forall (A : Type) (zero : A) dbg (l r : arr A) axis p a b q,
  wf l -> wf r -> ashape l = p ++ a :: q -> ashape r = p ++ b :: q -> prod p <> 0 ->
  names_axis axis (length (p ++ a :: q)) (length p) ->
  exists c, concatenate zero dbg l r axis = Ok c /\ ashape c = p ++ (a + b) :: q /\ wf c /\
    forall ip i iq, valid p ip -> valid q iq ->
      (i < a -> at_index c (ip ++ i :: iq) = at_index l (ip ++ i :: iq)) /\
      (i < b -> at_index c (ip ++ (a + i) :: iq) = at_index r (ip ++ i :: iq)).
Proof. intros. now apply concatenate_at. Qed.
Print Assumptions C18_concatenate.

Example C18_concatenate_case :
  let l := Arr [2; 2; 1] [1; 2; 3; 4]%Z in
  let r := Arr [2; 1; 1] [9; 8]%Z in
  wf l /\ wf r /\ names_axis (Some 1) 3 (length [2]) /\
  concatenate 0%Z true l r (Some 1) = Ok (Arr [2; 3; 1] [1; 2; 9; 3; 4; 8]%Z) /\
  concatenate 0%Z true (Arr [2; 2] [1; 2; 3; 4]%Z) (Arr [2; 1] [9; 8]%Z) None = Ok (Arr [2; 3] [1; 2; 9; 3; 4; 8]%Z).
Proof. repeat split. now left. Qed.

(** when a dimension in front of the axis is zero, both tensors are empty and so is the result, but the block count
    max(1, product) makes the code copy one block that does not exist, unless that block is empty too *)
Theorem C18_empty_prefix : forall (A : Type) (zero : A) dbg (l r : arr A) p a b q,
  wf l -> wf r -> ashape l = p ++ a :: q -> ashape r = p ++ b :: q -> prod p = 0 ->
  concatenate zero dbg l r (Some (length p)) = if (a + b) * prod q =? 0 then Ok (Arr (p ++ (a + b) :: q) []) else UB.
Proof.
  intros A zero dbg l r p a b q Wl Wr Hl Hr Hp. unfold wf in *. unfold concatenate. rewrite Hl, Hr.
  cbn [pick_axis]. rewrite !app_length. cbn [length]. rewrite Nat.eqb_refl. cbn [negb].
  rewrite !firstn_at, !skipn_S_at, !skipn_at, !list_eqb_refl, !nth_at, !upd_at.
  rewrite (proj2 (Nat.ltb_lt _ _)) by lia. cbn [check]. rewrite (proj2 (Nat.leb_gt _ _)) by lia. cbn [check].
  rewrite Wl, Wr, Hl, Hr, !prod_app, !prod_cons, Hp. cbn [Nat.max Nat.mul]. rewrite !Nat.add_0_r.
  destruct (Nat.eqb_spec ((a + b) * prod q) 0) as [E|E].
  - assert (E1 : a * prod q = 0) by nia. assert (E2 : b * prod q = 0) by nia. rewrite E1, E2. reflexivity.
  - destruct (a * prod q) eqn:E1; [|reflexivity]. destruct (b * prod q) eqn:E2; [nia|reflexivity].
Qed.
Print Assumptions C18_empty_prefix.

Theorem C18_concatenate_total_refuted :
  ~ (forall (l r : arr Z) axis p a b q, wf l -> wf r -> ashape l = p ++ a :: q -> ashape r = p ++ b :: q ->
       names_axis axis (length (p ++ a :: q)) (length p) -> concatenate 0%Z true l r axis <> UB).
Proof.
  intros H. apply (H (Arr [0; 2] []) (Arr [0; 3] []) (Some 1) [0] 2 3 []); try reflexivity. now left.
Qed.
Print Assumptions C18_concatenate_total_refuted.

(** a debug build stops on tensors that differ in another dimension *)
Theorem C18_mismatch_aborts : forall (A : Type) (zero : A) (l r : arr A) k,
  length (ashape l) = length (ashape r) -> k < length (ashape l) ->
  (exists j, j <> k /\ nth j (ashape l) 0 <> nth j (ashape r) 0) ->
  concatenate zero true l r (Some k) = Abort.
Proof.
  intros A zero l r k Hl Hk (j & Hj & Hd). unfold concatenate. rewrite Hl, Nat.eqb_refl. cbn [negb pick_axis].
  rewrite <- Hl. rewrite (proj2 (Nat.ltb_lt _ _)) by assumption. cbn [check]. rewrite (proj2 (Nat.leb_gt _ _)) by assumption.
  destruct (TensorProofs.list_eqb_spec (firstn k (ashape l)) (firstn k (ashape r))) as [E1|]; cbn [check]; [|reflexivity].
  destruct (TensorProofs.list_eqb_spec (skipn (S k) (ashape l)) (skipn (S k) (ashape r))) as [E2|]; cbn [check]; [|reflexivity].
  exfalso. apply Hd. destruct (lt_dec j k).
  - assert (E : nth_error (ashape l) j = nth_error (ashape r) j).
    { rewrite <- (nth_error_firstn (ashape l) k), <- (nth_error_firstn (ashape r) k) by assumption. now rewrite E1. }
    destruct (nth_error (ashape l) j) eqn:E3.
    + rewrite (nth_error_nth _ _ _ E3). symmetry in E. now rewrite (nth_error_nth _ _ _ E).
    + apply nth_error_None in E3. lia.
  - assert (E : nth_error (ashape l) j = nth_error (ashape r) j).
    { replace j with (S k + (j - S k)) by lia. rewrite <- !nth_error_skipn. now rewrite E2. }
    destruct (nth_error (ashape l) j) eqn:E3.
    + rewrite (nth_error_nth _ _ _ E3). symmetry in E. now rewrite (nth_error_nth _ _ _ E).
    + apply nth_error_None in E3. rewrite !nth_overflow; lia.
Qed.
Print Assumptions C18_mismatch_aborts.

Example C18_mismatch_case : concatenate 0%Z true (Arr [2; 2] [1; 2; 3; 4]%Z) (Arr [1; 2] [9; 8]%Z) (Some 1) = Abort.
Proof. reflexivity. Qed.

(** ** C19 *)

(** the result of a reduction has the axis replaced by 1 (keepdims) or removed; idx is the index of the result that
    belongs to the index (ip, iq) of the other dimensions *)
Definition reduced_shape (keepdims : bool) (p q : list nat) := if keepdims then p ++ 1 :: q else p ++ q.
Definition reduced_index (keepdims : bool) (ip iq : list nat) := if keepdims then ip ++ 0 :: iq else ip ++ iq.

(** For any reducing function: every element of the result is that function applied, in some bracketing, to the starting
    value followed by exactly the elements of its fibre, each once and in order. *)
Theorem C19_axis_reduction : forall (A : Type) (zero : A) dbg (t : arr A) axis init f keepdims p n q,
  wf t -> ashape t = p ++ n :: q -> prod (ashape t) <> 0 -> names_axis axis (length (p ++ n :: q)) (length p) ->
  (keepdims = true \/ p ++ q <> []) ->
  exists r, reduce zero dbg t axis init f keepdims = Ok r /\ ashape r = reduced_shape keepdims p q /\ wf r /\
    forall ip iq, valid p ip -> valid q iq ->
      exists l b, fibre t ip iq n l /\ leaves b = init :: l /\ at_index r (reduced_index keepdims ip iq) = Some (value f b).
Proof.
  intros A zero dbg t axis init f keepdims p n q Wt Hs Hn Hax Hk.
  rewrite (reduce_ok zero dbg t axis init f keepdims p n q Wt Hs Hn Hax). cbv zeta.
  set (d := loop2 _ _ _). assert (Ld : length d = prod p * prod q) by apply tab2_length.
  exists (Arr (reduced_shape keepdims p q) d). split; [|split; [reflexivity|split]].
  - destruct keepdims; [reflexivity|]. destruct Hk as [|Hk]; [discriminate|]. cbn [reduced_shape]. destruct (p ++ q); [congruence|reflexivity].
  - unfold wf. cbn [ashape adata]. rewrite Ld. unfold reduced_shape. destruct keepdims; rewrite prod_app, ?prod_cons; lia.
  - intros ip iq Vp Vq. exists (strided zero (adata t) (offset p ip * prod q * n + offset q iq) (prod q) n).
    destruct (std_reduce_tree f (strided zero (adata t) (offset p ip * prod q * n + offset q iq) (prod q) n) (Leaf init)) as (b & E & L).
    exists b. split; [now apply fibre_strided|]. split; [assumption|].
    unfold at_index. cbn [ashape adata].
    replace (offset (reduced_shape keepdims p q) (reduced_index keepdims ip iq)) with (offset p ip * prod q + offset q iq).
    + unfold d. rewrite loop2_at by assumption. cbn [value] in E. now rewrite E.
    + assert (Lp := valid_length _ _ Vp). unfold reduced_shape, reduced_index.
      destruct keepdims; rewrite offset_app by assumption; [|reflexivity]. cbn [offset]. rewrite prod_cons. lia.
Qed.
Print Assumptions C19_axis_reduction.

(** sum along an axis, for any addition that is associative with a neutral zero *)
Theorem C19_sum_axis : forall (A : Type) (zero : A) (plus : A -> A -> A),
  (forall x y z, plus x (plus y z) = plus (plus x y) z) -> (forall x, plus zero x = x) -> (forall x, plus x zero = x) ->
  forall dbg (t : arr A) axis keepdims p n q,
  wf t -> ashape t = p ++ n :: q -> prod (ashape t) <> 0 -> names_axis axis (length (p ++ n :: q)) (length p) ->
  (keepdims = true \/ p ++ q <> []) ->
  exists r, sum_axis zero dbg plus t axis keepdims = Ok r /\ ashape r = reduced_shape keepdims p q /\ wf r /\
    forall ip iq l, valid p ip -> valid q iq -> fibre t ip iq n l ->
      at_index r (reduced_index keepdims ip iq) = Some (fold_right plus zero l).
Proof.
  intros A zero plus Ha H1 H2 dbg t axis keepdims p n q Wt Hs Hn Hax Hk.
  destruct (C19_axis_reduction A zero dbg t axis zero plus keepdims p n q Wt Hs Hn Hax Hk) as (r & E & Es & Wr & H).
  exists r. split; [exact E|split; [assumption|split; [assumption|]]]. intros ip iq l Vp Vq Fl.
  destruct (H ip iq Vp Vq) as (l' & b & Fl' & Lb & ->). rewrite (fibre_unique t ip iq n l l' Fl Fl').
  rewrite (value_monoid plus zero Ha H1 H2), Lb. cbn [fold_right]. now rewrite H1.
Qed.
Print Assumptions C19_sum_axis.

Example C19_sum_case :
  let t := Arr [2; 5; 2] (map Z.of_nat (seq 1 20)) in
  wf t /\ sum_axis 0%Z true Z.add t (Some 1) false = Ok (Arr [2; 2] [25; 30; 75; 80]%Z) /\
  sum_axis 0%Z true Z.add t (Some 1) true = Ok (Arr [2; 1; 2] [25; 30; 75; 80]%Z) /\
  sum_axis 0%Z true Z.add t None false = Ok (Arr [2; 5] [3; 7; 11; 15; 19; 23; 27; 31; 35; 39]%Z).
Proof. repeat split; reflexivity. Qed.

Fixpoint rsum (l : list R) : R := match l with [] => 0%R | x :: t => (x + rsum t)%R end.

Lemma rsum_fold l : rsum l = fold_right Rplus 0%R l.
Proof. induction l; cbn; congruence. Qed.

(** mean along an axis, over the reals *)
Theorem C19_mean_axis : forall dbg (t : arr R) axis keepdims p n q,
  wf t -> ashape t = p ++ n :: q -> prod (ashape t) <> 0 -> names_axis axis (length (p ++ n :: q)) (length p) ->
  (keepdims = true \/ p ++ q <> []) ->
  exists r, mean_axis 0%R dbg Rplus Rdiv INR t axis keepdims = Ok r /\ ashape r = reduced_shape keepdims p q /\ wf r /\
    forall ip iq l, valid p ip -> valid q iq -> fibre t ip iq n l ->
      at_index r (reduced_index keepdims ip iq) = Some (rsum l / INR n)%R.
Proof.
  intros dbg t axis keepdims p n q Wt Hs Hn Hax Hk.
  destruct (C19_sum_axis R 0%R Rplus ltac:(intros; ring) ltac:(intros; ring) ltac:(intros; ring) dbg t axis keepdims p n q Wt Hs Hn Hax Hk)
    as (r & E & Es & Wr & H).
  unfold mean_axis. unfold sum_axis in E. rewrite E. cbn [obind]. rewrite Hs, (pick_axis_names _ _ _ Hax), nth_at, app_length. cbn [length].
  rewrite (proj2 (Nat.leb_gt _ _)) by lia. eexists. split; [reflexivity|]. split; [assumption|]. split.
  - unfold wf in *. cbn [ashape adata]. now rewrite map_length.
  - intros ip iq l Vp Vq Fl. unfold at_index. cbn [ashape adata]. rewrite nth_error_map. specialize (H ip iq l Vp Vq Fl).
    unfold at_index in H. rewrite H. cbn [option_map]. now rewrite <- (rsum_fold l).
Qed.
Print Assumptions C19_mean_axis.

Example C19_mean_case : exists r, mean_axis 0%R true Rplus Rdiv INR (Arr [2; 2] [1; 3; 5; 7]%R) (Some 0) false = Ok r /\
  at_index r [1] = Some 5%R.
Proof.
  destruct (C19_mean_axis true (Arr [2; 2] [1; 3; 5; 7]%R) (Some 0) false [] 2 [2]) as (r & E & _ & _ & H);
    try reflexivity; [discriminate|now left|right; discriminate|].
  exists r. split; [exact E|]. specialize (H [] [1] [3; 7]%R). cbn [reduced_index app] in H. rewrite H.
  - f_equal. cbn. field.
  - constructor.
  - constructor; [lia|constructor].
  - split; [reflexivity|]. intros k Hk. destruct k as [|[|k]]; [reflexivity|reflexivity|lia].
Qed.

(** max and min along an axis: for every remaining index, the largest (smallest) among the starting value and the fibre.
    [ltb] is the comparison of the element type, any total order up to equivalence (floating point numbers without NaN). *)
Theorem C19_max_axis : forall (A : Type) (zero : A) (ltb : A -> A -> bool),
  (forall x, ltb x x = false) -> (forall x y z, ltb y x = false -> ltb z y = false -> ltb z x = false) ->
  (forall x y, ltb x y = true -> ltb y x = false) ->
  forall dbg limits_min (t : arr A) axis keepdims p n q,
  wf t -> ashape t = p ++ n :: q -> prod (ashape t) <> 0 -> names_axis axis (length (p ++ n :: q)) (length p) ->
  (keepdims = true \/ p ++ q <> []) ->
  exists r, max_axis zero dbg ltb limits_min t axis keepdims = Ok r /\ ashape r = reduced_shape keepdims p q /\ wf r /\
    forall ip iq l, valid p ip -> valid q iq -> fibre t ip iq n l ->
      exists m, at_index r (reduced_index keepdims ip iq) = Some m /\ In m (limits_min :: l) /\
        forall x, In x (limits_min :: l) -> ltb m x = false.
Proof.
  intros A zero ltb Hr Ht Ha dbg init t axis keepdims p n q Wt Hs Hn Hax Hk.
  destruct (C19_axis_reduction A zero dbg t axis init (fun a b => if ltb b a then a else b) keepdims p n q Wt Hs Hn Hax Hk) as (r & E & Es & Wr & H).
  exists r. split; [exact E|split; [assumption|split; [assumption|]]]. intros ip iq l Vp Vq Fl.
  destruct (H ip iq Vp Vq) as (l' & b & Fl' & Lb & Er). rewrite (fibre_unique t ip iq n l l' Fl Fl').
  eexists. split; [exact Er|]. rewrite <- Lb.
  apply (value_select (fun x y => ltb y x = false)); [assumption|exact Ht|].
  intros x y. destruct (ltb y x) eqn:D; split; auto.
Qed.
Print Assumptions C19_max_axis.

Theorem C19_min_axis : forall (A : Type) (zero : A) (ltb : A -> A -> bool),
  (forall x, ltb x x = false) -> (forall x y z, ltb y x = false -> ltb z y = false -> ltb z x = false) ->
  (forall x y, ltb x y = true -> ltb y x = false) ->
  forall dbg limits_max (t : arr A) axis keepdims p n q,
  wf t -> ashape t = p ++ n :: q -> prod (ashape t) <> 0 -> names_axis axis (length (p ++ n :: q)) (length p) ->
  (keepdims = true \/ p ++ q <> []) ->
  exists r, min_axis zero dbg ltb limits_max t axis keepdims = Ok r /\ ashape r = reduced_shape keepdims p q /\ wf r /\
    forall ip iq l, valid p ip -> valid q iq -> fibre t ip iq n l ->
      exists m, at_index r (reduced_index keepdims ip iq) = Some m /\ In m (limits_max :: l) /\
        forall x, In x (limits_max :: l) -> ltb x m = false.
Proof.
  intros A zero ltb Hr Ht Ha dbg init t axis keepdims p n q Wt Hs Hn Hax Hk.
  destruct (C19_axis_reduction A zero dbg t axis init (fun a b => if ltb a b then a else b) keepdims p n q Wt Hs Hn Hax Hk) as (r & E & Es & Wr & H).
  exists r. split; [exact E|split; [assumption|split; [assumption|]]]. intros ip iq l Vp Vq Fl.
  destruct (H ip iq Vp Vq) as (l' & b & Fl' & Lb & Er). rewrite (fibre_unique t ip iq n l l' Fl Fl').
  eexists. split; [exact Er|]. rewrite <- Lb.
  apply (value_select (fun x y => ltb x y = false)); [assumption| |].
  - intros x y z Hxy Hyz. exact (Ht z y x Hyz Hxy).
  - intros x y. destruct (ltb x y) eqn:D; split; auto.
Qed.
Print Assumptions C19_min_axis.

(** the true minimum whenever some element does not exceed numeric_limits::max(), i.e. always for finite numbers; the
    starting value of max, numeric_limits::min(), is the least POSITIVE number of a floating point type, so a fibre of
    negative numbers (or zeros) has "maximum" limits_min *)
Theorem C19_max_of_negatives : forall (A : Type) (zero : A) (ltb : A -> A -> bool),
  (forall x, ltb x x = false) -> (forall x y z, ltb y x = false -> ltb z y = false -> ltb z x = false) ->
  (forall x y, ltb x y = true -> ltb y x = false) ->
  forall dbg limits_min (t : arr A) axis keepdims p n q,
  wf t -> ashape t = p ++ n :: q -> prod (ashape t) <> 0 -> names_axis axis (length (p ++ n :: q)) (length p) ->
  (keepdims = true \/ p ++ q <> []) ->
  exists r, max_axis zero dbg ltb limits_min t axis keepdims = Ok r /\
    forall ip iq l, valid p ip -> valid q iq -> fibre t ip iq n l ->
      exists m, at_index r (reduced_index keepdims ip iq) = Some m /\
        ((exists x, In x l /\ ltb x limits_min = false) -> (forall x, In x l -> ltb m x = false) /\ exists x, In x l /\ ltb x m = false) /\
        ((forall x, In x l -> ltb x limits_min = true) -> m = limits_min).
Proof.
  intros A zero ltb Hr Ht Ha dbg init t axis keepdims p n q Wt Hs Hn Hax Hk.
  destruct (C19_max_axis A zero ltb Hr Ht Ha dbg init t axis keepdims p n q Wt Hs Hn Hax Hk) as (r & E & _ & _ & H).
  exists r. split; [exact E|]. intros ip iq l Vp Vq Fl. destruct (H ip iq l Vp Vq Fl) as (m & Em & Hin & Hmax).
  exists m. split; [assumption|]. split.
  - intros (x & Hx & Hge). split; [intros; apply Hmax; now right|]. destruct Hin as [<-|Hin].
    + exists x. auto.
    + exists m. auto.
  - intros Hall. destruct Hin as [|Hin]; [now symmetry|]. exfalso. specialize (Hmax init (or_introl eq_refl)).
    rewrite (Hall m Hin) in Hmax. discriminate.
Qed.
Print Assumptions C19_max_of_negatives.

Example C19_max_case :
  max_axis 0%Z true Z.ltb 1%Z (Arr [2; 2] [-3; -2; 5; 4]%Z) (Some 1) false = Ok (Arr [2] [1; 5]%Z) /\
  min_axis 0%Z true Z.ltb 1000%Z (Arr [2; 2] [-3; -2; 5; 4]%Z) (Some 1) false = Ok (Arr [2] [-3; 4]%Z).
Proof. split; reflexivity. Qed.

(** max over all elements has the same defect.  With any starting value above an element x, the one-element tensor [x] has
    "maximum" different from x. *)
Theorem C19_max_all : forall (A : Type) (zero : A) (ltb : A -> A -> bool),
  (forall x, ltb x x = false) -> (forall x y z, ltb y x = false -> ltb z y = false -> ltb z x = false) ->
  (forall x y, ltb x y = true -> ltb y x = false) ->
  forall dbg limits_min (t : arr A), adata t <> [] ->
  exists m, max_all zero dbg ltb limits_min t = Ok m /\ In m (limits_min :: adata t) /\
    forall x, In x (limits_min :: adata t) -> ltb m x = false.
Proof.
  intros A zero ltb Hr Ht Ha dbg init t Hne. unfold max_all. destruct (adata t) as [|x0 d]; [congruence|]. cbn [length Nat.eqb negb check].
  eexists. split; [reflexivity|].
  destruct (fold_left_tree (fun ans v => if ltb v ans then ans else v) (x0 :: d) (Leaf init)) as (b & E & L).
  cbn [value leaves app] in E, L. rewrite E, <- L.
  apply (value_select (fun x y => ltb y x = false)); [assumption|exact Ht|].
  intros x y. destruct (ltb y x) eqn:D; split; auto.
Qed.
Print Assumptions C19_max_all.

Theorem C19_max_all_refuted :
  ~ (forall limits_min (t : arr Z), (0 < limits_min)%Z -> adata t <> [] ->
       exists m, max_all 0%Z true Z.ltb limits_min t = Ok m /\ In m (adata t)).
Proof.
  intros H. destruct (H 1%Z (Arr [2] [-3; -2]%Z) ltac:(lia) ltac:(discriminate)) as (m & E & Hin).
  cbn in E. injection E as <-. cbn in Hin. lia.
Qed.
Print Assumptions C19_max_all_refuted.

(** reducing the only axis of a vector without keepdims reshapes to no dimensions, which is undefined *)
Theorem C19_vector_without_keepdims : forall (A : Type) (zero : A) dbg (t : arr A) axis init f n,
  wf t -> ashape t = [n] -> n <> 0 -> names_axis axis 1 0 -> reduce zero dbg t axis init f false = UB.
Proof.
  intros A zero dbg t axis init f n Wt Hs Hn Hax.
  rewrite (reduce_ok zero dbg t axis init f false [] n []); auto. rewrite Hs. cbn. lia.
Qed.
Print Assumptions C19_vector_without_keepdims.

(** ** C20 *)

Lemma rmax_spec l : l <> [] -> In (rmax l) l /\ forall x, In x l -> (x <= rmax l)%R.
Proof.
  destruct l as [|x0 l]; [congruence|]. intros _. unfold rmax.
  assert (G : forall t m, In (fold_left (fun m v => if Rlt_dec m v then v else m) t m) (m :: t) /\
              forall x, In x (m :: t) -> (x <= fold_left (fun m v => if Rlt_dec m v then v else m) t m)%R).
  { induction t as [|y t IH]; intros m; cbn [fold_left].
    - split; [now left|]. intros x [->|[]]. lra.
    - destruct (IH (if Rlt_dec m y then y else m)) as [I1 I2]. split.
      + destruct I1 as [I1|I1]; [|right; now right]. rewrite <- I1. destruct (Rlt_dec m y); [right; now left|now left].
      + intros x [->|[->|Hx]].
        * eapply Rle_trans; [|apply I2; now left]. destruct (Rlt_dec x y); lra.
        * eapply Rle_trans; [|apply I2; now left]. destruct (Rlt_dec m x); lra.
        * apply I2. now right. }
  apply G.
Qed.

Lemma sum_left (g : R -> R) l a : fold_left (fun init v => init + g v)%R l a = (a + rsum (map g l))%R.
Proof. revert a. induction l; intros b; cbn [fold_left map rsum]; [ring|]. rewrite IHl. ring. Qed.

Lemma rsum_scale c l : rsum (map (fun v => v / c) l)%R = (rsum l / c)%R.
Proof. induction l; cbn [map rsum]; [unfold Rdiv; ring|]. rewrite IHl. unfold Rdiv. ring. Qed.

Lemma rsum_nonneg l : (forall x, In x l -> 0 <= x)%R -> (0 <= rsum l)%R.
Proof. induction l; cbn [rsum]; intros H; [lra|]. assert (0 <= a)%R by (apply H; now left). assert (0 <= rsum l)%R by (apply IHl; intros; apply H; now right). lra. Qed.

Lemma rsum_ge_member l x : (forall x, In x l -> 0 <= x)%R -> In x l -> (x <= rsum l)%R.
Proof.
  induction l as [|a l IH]; intros H []; cbn [rsum].
  - subst a. assert (0 <= rsum l)%R by (apply rsum_nonneg; intros; apply H; now right). lra.
  - assert (0 <= a)%R by (apply H; now left). assert (x <= rsum l)%R by (apply IH; [intros; apply H; now right|assumption]). lra.
Qed.

(** the row total: exponentials of the distances to the row's maximum *)
Definition row_total (row : list R) : R := rsum (map (fun x => exp (x - rmax row)) row).

Lemma row_total_ge_1 row : row <> [] -> (1 <= row_total row)%R.
Proof.
  intros H. destruct (rmax_spec row H) as [I _]. unfold row_total.
  replace 1%R with (exp (rmax row - rmax row)) by (rewrite Rminus_diag_eq by reflexivity; apply exp_0).
  apply rsum_ge_member; [|apply in_map_iff; eauto]. intros x Hx. apply in_map_iff in Hx. destruct Hx as (y & <- & _). left. apply exp_pos.
Qed.

Lemma softmax_row_eq eps row : softmax_row eps row = map (fun x => exp (x - rmax row) / (row_total row + eps))%R row.
Proof.
  unfold softmax_row, row_total. rewrite sum_left, !map_map, Rplus_0_l. reflexivity.
Qed.

(** what softmax promises about one row *)
Definition softmax_of (eps : R) (row out : list R) : Prop :=
  length out = length row /\
  (exists ac, (1 <= ac)%R /\
     (* the exact softmax, scaled by ac/(ac+eps), which lies between 1/(1+eps) and 1 *)
     (forall i, i < length row -> nth i out 0%R = (exp (nth i row 0) / rsum (map exp row) * (ac / (ac + eps)))%R) /\
     rsum out = (ac / (ac + eps))%R) /\
  (forall y, In y out -> (0 < y)%R) /\
  (forall i j, i < length row -> j < length row -> ((nth i row 0 < nth j row 0)%R <-> (nth i out 0 < nth j out 0)%R)).

Lemma softmax_row_spec eps row : (0 < eps)%R -> row <> [] -> softmax_of eps row (softmax_row eps row).
Proof.
  intros He Hr. assert (T := row_total_ge_1 row Hr). rewrite softmax_row_eq. set (ac := row_total row) in *.
  assert (Hac : (0 < ac + eps)%R) by lra.
  assert (N : forall i, i < length row -> nth i (map (fun x => exp (x - rmax row) / (ac + eps))%R row) 0%R = (exp (nth i row 0 - rmax row) / (ac + eps))%R).
  { intros i Hi. rewrite (nth_indep _ _ ((fun x => exp (x - rmax row) / (ac + eps))%R 0%R)) by (now rewrite map_length).
    now rewrite (map_nth (fun x => exp (x - rmax row) / (ac + eps))%R). }
  assert (S : rsum (map exp row) = (exp (rmax row) * ac)%R).
  { unfold ac, row_total. generalize (rmax row). intros m. clear. induction row; cbn [map rsum]; [ring|].
    rewrite IHrow, Rmult_plus_distr_l, <- exp_plus. do 2 f_equal. ring. }
  split; [now rewrite map_length|]. split; [|split].
  - exists ac. split; [assumption|]. split.
    + intros i Hi. rewrite N by assumption. rewrite S. unfold Rminus. rewrite exp_plus, exp_Ropp.
      assert (0 < exp (rmax row))%R by apply exp_pos. field. split; [lra|]. split; lra.
    + transitivity (rsum (map (fun v => v / (ac + eps)) (map (fun x => exp (x - rmax row)) row))%R).
      * now rewrite map_map.
      * now rewrite rsum_scale.
  - intros y Hy. apply in_map_iff in Hy. destruct Hy as (x & <- & _). apply Rdiv_lt_0_compat; [apply exp_pos|assumption].
  - intros i j Hi Hj. rewrite !N by assumption. split; intros H.
    + apply Rmult_lt_compat_r; [now apply Rinv_0_lt_compat|]. apply exp_increasing. lra.
    + apply Rmult_lt_reg_r in H; [|now apply Rinv_0_lt_compat]. apply exp_lt_inv in H. lra.
Qed.

(** every row of the last dimension is transformed on its own, the shape stays *)
Theorem C20_softmax : forall dbg eps (t : arr R) p n,
  (0 < eps)%R -> wf t -> ashape t = p ++ [n] -> prod (ashape t) <> 0 ->
  exists r, softmax dbg eps t = Ok r /\ ashape r = ashape t /\ wf r /\
    forall ip row, valid p ip -> fibre t ip [] n row -> exists out, fibre r ip [] n out /\ softmax_of eps row out.
Proof.
  intros dbg eps t p n He Wt Hs Hn. unfold wf in Wt. unfold softmax.
  assert (Hnn : n <> 0) by (rewrite Hs, prod_app, prod_cons in Hn; intros ->; apply Hn; lia).
  assert (Lt : length (adata t) = prod p * n) by (rewrite Wt, Hs, prod_app, prod_cons; cbn; lia).
  rewrite (proj2 (Nat.eqb_neq (length (adata t)) 0)) by congruence. cbn [negb check].
  rewrite Hs, rev_app_distr. cbn [rev app]. rewrite (proj2 (Nat.eqb_neq n 0)) by assumption.
  rewrite Lt, Nat.div_mul by assumption. rewrite <- Lt, skipn_all, app_nil_r.
  set (g := fun i => softmax_row eps (slice (adata t) (i * n) n)).
  assert (L : forall k, k < prod p -> length (g k) = n).
  { intros k Hk. unfold g. rewrite softmax_row_eq, map_length. apply slice_length. nia. }
  eexists. split; [reflexivity|]. split; [reflexivity|]. split.
  { unfold wf. cbn [ashape adata]. rewrite (blocks_length g (prod p) n L), prod_app, prod_cons. cbn. lia. }
  intros ip row Vp Fr. assert (Op := valid_offset_lt _ _ Vp). assert (Lp := valid_length _ _ Vp).
  assert (Er : row = slice (adata t) (offset p ip * n) n).
  { apply (fibre_unique t ip [] n); [assumption|]. split; [apply slice_length; nia|]. intros k Hk.
    rewrite nth_error_slice by assumption. unfold at_index. rewrite Hs, offset_app by assumption. f_equal. cbn. lia. }
  exists (g (offset p ip)). split.
  - split; [now apply L|]. intros k Hk. unfold at_index. cbn [ashape adata]. rewrite offset_app by assumption.
    rewrite <- (nth_error_blocks g (prod p) n) by assumption. f_equal. cbn. lia.
  - unfold g. rewrite <- Er. apply softmax_row_spec; [assumption|]. intros E. destruct Fr as [Fr _]. rewrite E in Fr. cbn in Fr. lia.
Qed.
Print Assumptions C20_softmax.

Example C20_case : exists r, softmax true 1 (Arr [2; 2] [0; 0; 5; 5]%R) = Ok r /\ at_index r [1; 0] = Some (/ 3)%R.
Proof.
  destruct (C20_softmax true 1 (Arr [2; 2] [0; 0; 5; 5]%R) [2] 2) as (r & E & Es & Wr & H); try reflexivity; [lra|discriminate|].
  exists r. split; [exact E|]. specialize (H [1] [5; 5]%R). destruct H as (out & (L & F) & S).
  - constructor; [lia|constructor].
  - split; [reflexivity|]. intros [|[|k]] Hk; [reflexivity|reflexivity|lia].
  - destruct S as (_ & (ac & H1 & H2 & H3) & _). cbn [app] in F. rewrite (F 0) by lia.
    rewrite (nth_error_nth' _ 0%R) by lia. f_equal.
    assert (E0 := H2 0 ltac:(cbn; lia)). assert (E1 := H2 1 ltac:(cbn; lia)). cbn [nth map rsum] in E0, E1.
    (* both outputs are equal, and the total is row_total/(row_total+1) = 2/3 *)
    assert (X : out = softmax_row 1 [5; 5]%R).
    { clear - E L F. cbn in E. injection E as <-. apply list_eq_nth; [cbn; lia|]. intros i Hi.
      rewrite <- (F i) by lia. destruct i as [|[|i]]; [reflexivity|reflexivity|lia]. }
    rewrite X. rewrite softmax_row_eq. cbn [map nth]. unfold row_total. cbn [map rsum].
    assert (M : rmax [5; 5]%R = 5%R) by (cbn; destruct (Rlt_dec 5 5); lra). rewrite M. replace (5 - 5)%R with 0%R by ring.
    rewrite exp_0. field.
Qed.

(** adding the same number to a whole row does not change its softmax *)
Theorem C20_shift_invariant : forall eps c row, softmax_row eps (map (fun x => x + c)%R row) = softmax_row eps row.
Proof.
  intros eps c row. destruct row as [|x0 row]; [reflexivity|].
  assert (M : rmax (map (fun x => x + c)%R (x0 :: row)) = (rmax (x0 :: row) + c)%R).
  { destruct (rmax_spec (map (fun x => x + c)%R (x0 :: row)) ltac:(discriminate)) as [I1 U1].
    destruct (rmax_spec (x0 :: row) ltac:(discriminate)) as [I2 U2]. apply Rle_antisym.
    - apply in_map_iff in I1. destruct I1 as (y & <- & Hy). specialize (U2 y Hy). lra.
    - apply U1. apply in_map_iff. eauto. }
  rewrite !softmax_row_eq. unfold row_total. rewrite M, !map_map.
  assert (E : map (fun x => exp (x + c - (rmax (x0 :: row) + c))) (x0 :: row) = map (fun x => exp (x - rmax (x0 :: row))) (x0 :: row)).
  { apply map_ext. intros. f_equal. ring. }
  rewrite E. apply map_ext. intros. do 2 f_equal. ring.
Qed.
Print Assumptions C20_shift_invariant.

(** ** C21 *)

(** one to four dimensions: exactly the named axis is reversed, the argument is untouched *)
Theorem C21_flip : forall (A : Type) (zero : A) dbg (t : arr A) ax p n q,
  wf t -> prod (ashape t) <> 0 -> length (ashape t) <= 4 -> ashape t = p ++ n :: q ->
  ax = Z.of_nat (length p) \/ (ax = (-1)%Z /\ q = []) ->
  exists r, flip zero dbg t ax = Ok (adata t, r) /\ ashape r = ashape t /\ wf r /\
    forall ip i iq, valid p ip -> i < n -> valid q iq ->
      at_index r (ip ++ i :: iq) = at_index t (ip ++ (n - 1 - i) :: iq).
Proof.
  intros A zero dbg t ax p n q Wt Hn H4 Hs Hax.
  exists (Arr (ashape t) (tab (prod (ashape t)) (fun pos => nth (mirror n (prod q) pos) (adata t) zero))).
  split; [now apply (flip_ok zero dbg t ax p n q)|]. split; [reflexivity|].
  split; [unfold wf; cbn [ashape adata]; apply tab_length|].
  intros ip i iq Vp Hi Vq. assert (Lp := valid_length _ _ Vp). assert (Op := valid_offset_lt _ _ Vp). assert (Oq := valid_offset_lt _ _ Vq).
  unfold at_index. cbn [ashape adata].
  assert (B : forall k, k < n -> offset (p ++ n :: q) (ip ++ k :: iq) < prod (ashape t)).
  { intros k Hk. rewrite Hs. apply valid_offset_lt. apply valid_app; [assumption|]. split; [assumption|]. now constructor. }
  rewrite nth_error_tab by (rewrite Hs; rewrite Hs in B; now apply B). rewrite Hs, !offset_split by assumption.
  rewrite mirror_at by assumption. symmetry. apply nth_error_nth'. rewrite Wt. specialize (B (n - 1 - i) ltac:(lia)).
  now rewrite offset_split in B by assumption.
Qed.
Print Assumptions C21_flip.

(** flipping twice gives the tensor back *)
Theorem C21_flip_involutive : forall (A : Type) (zero : A) dbg (t : arr A) ax,
  wf t -> prod (ashape t) <> 0 -> length (ashape t) <= 4 -> (-1 <= ax < Z.of_nat (length (ashape t)))%Z -> ashape t <> [] ->
  exists r, flip zero dbg t ax = Ok (adata t, r) /\ flip zero dbg r ax = Ok (adata r, t).
Proof.
  intros A zero dbg t ax Wt Hn H4 Hax Hne.
  assert (X : exists p n q, ashape t = p ++ n :: q /\ (ax = Z.of_nat (length p) \/ (ax = (-1)%Z /\ q = []))).
  { destruct (Z.eq_dec ax (-1)) as [->|].
    - destruct (exists_last Hne) as (p & n & E). exists p, n, []. auto.
    - destruct (nth_split (ashape t) 0 (n := Z.to_nat ax)) as (p & q & E & L); [lia|].
      exists p, (nth (Z.to_nat ax) (ashape t) 0), q. split; [assumption|]. left. lia. }
  destruct X as (p & n & q & Hs & Hax').
  destruct (C21_flip A zero dbg t ax p n q Wt Hn H4 Hs Hax') as (r & E & Er & Wr & H).
  exists r. split; [assumption|].
  destruct (C21_flip A zero dbg r ax p n q Wr ltac:(congruence) ltac:(congruence) ltac:(congruence) Hax') as (t2 & E2 & Er2 & Wr2 & H2).
  rewrite E2. do 2 f_equal. destruct t as [s d], t2 as [s2 d2]. unfold wf, at_index in *. cbn [ashape adata] in *.
  f_equal; [congruence|]. assert (s2 = s) by congruence. subst s2. apply list_eq_nth; [congruence|]. intros pos Hpos.
  assert (Hp : pos < prod (p ++ n :: q)) by congruence.
  assert (V := unoffset_valid _ _ Hp). assert (O := offset_unoffset _ _ Hp). remember (unoffset (p ++ n :: q) pos) as idx eqn:Eidx. clear Eidx.
  assert (Sp : exists ip i iq, idx = ip ++ i :: iq /\ valid p ip /\ i < n /\ valid q iq).
  { unfold valid in V. apply Forall2_app_inv_r in V. destruct V as (ip & rest & V1 & V2 & E3). destruct rest as [|i iq]; [inversion V2|]. exists ip, i, iq. split; [assumption|]. split; [assumption|]. split; inversion V2; assumption. }
  destruct Sp as (ip & i & iq & Ei & Vp & Hi & Vq). rewrite Ei in O. rewrite <- O.
  specialize (H2 ip i iq Vp Hi Vq). specialize (H ip (n - 1 - i) iq Vp ltac:(lia) Vq).
  replace (n - 1 - (n - 1 - i)) with i in H by lia. rewrite Er in H2. rewrite Er in H. rewrite Hs in H, H2. congruence.
Qed.
Print Assumptions C21_flip_involutive.

Example C21_case :
  let t := Arr [2; 1; 3; 2] (map Z.of_nat (seq 1 12)) in
  wf t /\ flip 0%Z true t 2 = Ok (adata t, Arr [2; 1; 3; 2] [5; 6; 3; 4; 1; 2; 11; 12; 9; 10; 7; 8]%Z) /\
  flip 0%Z true t 0 = Ok (adata t, Arr [2; 1; 3; 2] [7; 8; 9; 10; 11; 12; 1; 2; 3; 4; 5; 6]%Z).
Proof. repeat split; reflexivity. Qed.

(** the flip of an empty tensor is a tensor without dimensions: the shape is lost *)
Theorem C21_flip_empty : forall (A : Type) (zero : A) dbg (t : arr A) ax,
  adata t = [] -> flip zero dbg t ax = Ok (adata t, Arr [] []).
Proof. intros A zero dbg t ax H. unfold flip. now rewrite H. Qed.
Print Assumptions C21_flip_empty.

Theorem C21_flip_empty_refuted :
  ~ (forall (t : arr Z) ax r, wf t -> flip 0%Z true t ax = Ok (adata t, r) -> ashape r = ashape t).
Proof. intros H. specialize (H (Arr [0; 3] []) 0%Z (Arr [] []) eq_refl eq_refl). discriminate. Qed.
Print Assumptions C21_flip_empty_refuted.


(** a negative axis other than -1 is not rejected: on three and four dimensions every one of them flips the last axis *)
Theorem C21_negative_axes : forall (A : Type) (zero : A) dbg (t : arr A) ax,
  3 <= length (ashape t) <= 4 -> (ax < -1)%Z -> flip zero dbg t ax = flip zero dbg t (-1).
Proof.
  intros A zero dbg t ax H4 Hax. unfold flip. destruct (length (adata t) =? 0); [reflexivity|].
  rewrite (proj2 (Nat.leb_le _ _)) by lia. cbn [check].
  rewrite (proj2 (Z.eqb_neq ax (-1))) by lia. rewrite Z.eqb_refl.
  rewrite (proj2 (Z.ltb_lt ax _)) by lia. rewrite (proj2 (Z.ltb_lt (_ - 1) _)) by lia. cbn [check].
  assert (G : forall src r c ch a b dst, (a <> 0 -> a <> 1 -> b <> 0 -> b <> 1 -> flip_3D zero src r c ch a dst = flip_3D zero src r c ch b dst)%Z).
  { intros src r c ch a b dst Ha0 Ha1 Hb0 Hb1. unfold flip_3D, flip_3D_writes. now rewrite !(proj2 (Z.eqb_neq _ _)) by assumption. }
  destruct (ashape t) as [|s0 [|s1 [|s2 [|s3 [|s4 rest]]]]] eqn:Es; cbn [length] in H4; try lia.
  - rewrite (G _ _ _ _ ax (Z.of_nat (length [s0; s1; s2]) - 1)%Z) by (cbn [length]; lia). reflexivity.
  - rewrite !(proj2 (Z.eqb_neq _ _)) by (cbn [length]; lia). cbn [orb]. unfold flip_via.
    rewrite (G _ _ _ _ (ax - 1)%Z (Z.of_nat (length [s0; s1; s2; s3]) - 1 - 1)%Z) by (cbn [length]; lia). reflexivity.
Qed.
Print Assumptions C21_negative_axes.

(** more than four dimensions: a debug build stops; a release build zeroes the caller's own storage *)
Theorem C21_flip_high_rank : forall (A : Type) (zero : A) (t : arr A) ax,
  adata t <> [] -> 4 < length (ashape t) -> flip zero true t ax = Abort.
Proof.
  intros A zero t ax Hne Hl. unfold flip. rewrite (proj2 (Nat.eqb_neq _ _)) by (destruct (adata t); [congruence|discriminate]).
  now rewrite (proj2 (Nat.leb_gt _ _)) by assumption.
Qed.
Print Assumptions C21_flip_high_rank.

Theorem C21_flip_argument_unchanged_refuted :
  ~ (forall (t : arr Z) ax d r, wf t -> (0 <= ax < Z.of_nat (length (ashape t)))%Z -> flip 0%Z false t ax = Ok (d, r) -> d = adata t).
Proof.
  intros H. specialize (H (Arr [1; 1; 1; 1; 2] [7; 8]%Z) 4%Z [0]%Z (Arr [1; 1; 1; 1; 2] [0; 0]%Z) eq_refl ltac:(cbn; lia) eq_refl).
  discriminate.
Qed.
Print Assumptions C21_flip_argument_unchanged_refuted.

(** ** C49 *)

(** repmat lays row_rep by col_rep copies of a matrix out as a grid *)
Theorem C49_repmat : forall (A : Type) (zero : A) dbg (t : arr A) m n rr cr,
  wf t -> ashape t = [m; n] ->
  exists r, repmat zero dbg t rr cr = Ok r /\ ashape r = [m * rr; n * cr] /\ wf r /\
    forall i j, i < m * rr -> j < n * cr -> at_index r [i; j] = at_index t [i mod m; j mod n].
Proof.
  intros A zero dbg t m n rr cr Wt Hs. unfold wf in Wt. unfold repmat. rewrite Hs. cbn [length Nat.eqb check].
  rewrite Wt, Hs. cbn [prod fold_right]. rewrite Nat.mul_1_r, Nat.leb_refl. cbn [andb].
  set (ws := loop4 _ _ _ _ _).
  assert (B : forall w, In w ws -> exists i j, i < m * rr /\ j < n * cr /\ fst w = i * (n * cr) + j /\ snd w = nth ((i mod m) * n + j mod n) (adata t) zero).
  { intros w Hw. apply in_loop4 in Hw. destruct Hw as (x & y & z & k & Hx & Hy & Hz & Hk & ->). cbn [fst snd].
    exists (z + x * m), (k + y * n). rewrite !Nat.mod_add, !Nat.mod_small by lia.
    split; [nia|]. split; [nia|]. split; [ring|reflexivity]. }
  rewrite (proj2 (in_bounds_spec _ _)).
  2:{ intros w Hw. destruct (B w Hw) as (i & j & Hi & Hj & -> & _). nia. }
  eexists. split; [reflexivity|]. split; [reflexivity|]. split.
  { unfold wf. cbn [ashape adata prod fold_right]. rewrite writes_length, repeat_length. lia. }
  intros i j Hi Hj. unfold at_index. cbn [ashape adata]. rewrite Hs. cbn [offset prod fold_right]. rewrite !Nat.mul_1_r, !Nat.add_0_r.
  assert (m <> 0) by nia. assert (n <> 0) by nia.
  assert (Hm := Nat.mod_upper_bound i m ltac:(assumption)). assert (Hn := Nat.mod_upper_bound j n ltac:(assumption)).
  rewrite (nth_error_nth' (adata t) zero) by (rewrite Wt, Hs; cbn [prod fold_right]; nia).
  apply writes_at.
  - rewrite repeat_length. nia.
  - apply in_loop4. exists (i / m), (j / n), (i mod m), (j mod n).
    split; [apply Nat.div_lt_upper_bound; lia|]. split; [apply Nat.div_lt_upper_bound; lia|]. split; [assumption|]. split; [assumption|].
    f_equal. rewrite (Nat.div_mod i m) at 1 by assumption. rewrite (Nat.div_mod j n) at 1 by assumption. ring.
  - intros w Hw Ew. destruct (B w Hw) as (i' & j' & Hi' & Hj' & E & ->). rewrite Ew in E.
    assert (i = i' /\ j = j') as [<- <-]; [|reflexivity].
    assert (E1 : (i * (n * cr) + j) / (n * cr) = (i' * (n * cr) + j') / (n * cr)) by congruence.
    rewrite !Nat.div_add_l, !Nat.div_small in E1 by lia. split; [lia|]. assert (i = i') by lia. subst i'. lia.
Qed.
Print Assumptions C49_repmat.

Example C49_case : repmat 0%Z true (Arr [2; 2] [1; 2; 3; 4]%Z) 2 3
  = Ok (Arr [4; 6] [1; 2; 1; 2; 1; 2; 3; 4; 3; 4; 3; 4; 1; 2; 1; 2; 1; 2; 3; 4; 3; 4; 3; 4]%Z).
Proof. reflexivity. Qed.
