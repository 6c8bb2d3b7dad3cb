(** Lemmas about the operator concatenate. *)
From Coq Require Import List Arith Lia Bool PeanoNat Reals Lra.
From Coquelicot Require Import Rcomplements Hierarchy Derive.
From Verif Require Import ListBase TensorModel ArrayModel ArrayProofs GraphModel GraphSpec GradSpec LayerSpec LayerProofs BcastAdjoint CalcSpec CalcProofs OpProofs OpProofs3 OpProofs4 OpProofs5 ConcatModel.
Import ListNotations.
Local Open Scope nat_scope.

Lemma slice_tab {A} (z : A) d s n : s + n <= length d -> slice d s n = tab n (fun j => nth (s + j) d z).
Proof.
  intros H. apply list_eq_nth; [now rewrite slice_length, tab_length|]. rewrite slice_length by exact H. intros i Hi.
  rewrite nth_error_slice, nth_error_tab by exact Hi. apply nth_error_nth'. lia.
Qed.
Lemma tab2_snoc {A} m n (f : nat -> nat -> A) : tab2 (S m) n f = tab2 m n f ++ tab n (f m).
Proof. unfold tab2. rewrite seq_S, flat_map_app. cbn. now rewrite app_nil_r. Qed.
Lemma flat_map_tab2 {A} m n (f : nat -> nat -> A) g : (forall i, i < m -> g i = tab n (f i)) -> flat_map g (seq 0 m) = tab2 m n f.
Proof.
  induction m as [|m IH]; intros H; [reflexivity|]. rewrite seq_S, flat_map_app, tab2_snoc, IH by (intros; apply H; lia). cbn. now rewrite app_nil_r, H by lia.
Qed.

Lemma skipn_twice {A} (l : list A) n m : skipn n (skipn m l) = skipn (n + m) l.
Proof. revert l. induction m as [|m IH]; intros l; [now rewrite Nat.add_0_r|]. rewrite Nat.add_succ_r. destruct l as [|x l]; [now rewrite !skipn_nil|]. cbn [skipn]. apply IH. Qed.

Section Split.
Context {A : Type} (z : A).
(** the data of the result, and the two cuts of the gradient: P rows of lc and rc elements *)
Definition joined (P lc rc : nat) (u v : list A) : list A := tab2 P (lc + rc) (fun i j => if j <? lc then nth (i * lc + j) u z else nth (i * rc + (j - lc)) v z).
Definition left_cut (P lc rc : nat) (g : list A) : list A := tab2 P lc (fun i j => nth (i * (lc + rc) + j) g z).
Definition right_cut (P lc rc : nat) (g : list A) : list A := tab2 P rc (fun i j => nth (i * (lc + rc) + lc + j) g z).

Lemma tab_split lc rc (f : nat -> A) : tab (lc + rc) f = tab lc f ++ tab rc (fun j => f (lc + j)).
Proof. induction rc as [|rc IH]; [rewrite Nat.add_0_r; cbn; now rewrite app_nil_r|]. rewrite Nat.add_succ_r, !tab_snoc, IH, app_assoc. reflexivity. Qed.

Lemma joined_flat P lc rc u v : length u = P * lc -> length v = P * rc ->
  flat_map (fun i => slice u (lc * i) lc ++ slice v (rc * i) rc) (seq 0 P) = joined P lc rc u v.
Proof.
  intros Lu Lv. apply flat_map_tab2. intros i Hi. rewrite (slice_tab z), (slice_tab z) by nia. rewrite tab_split. f_equal; apply tab_ext; intros j Hj.
  - rewrite (proj2 (Nat.ltb_lt _ _)) by lia. f_equal. lia.
  - rewrite (proj2 (Nat.ltb_ge _ _)) by lia. f_equal. lia.
Qed.

Lemma copy_rows P lc rc g u v : length g = P * (lc + rc) -> length u = P * lc -> length v = P * rc -> forall k, k <= P ->
  fold_left (copy_row g (lc + rc) lc rc) (seq 0 k) (u, v) =
  (tab2 k lc (fun i j => nth (i * (lc + rc) + j) g z) ++ skipn (k * lc) u, tab2 k rc (fun i j => nth (i * (lc + rc) + lc + j) g z) ++ skipn (k * rc) v).
Proof.
  intros Lg Lu Lv k. induction k as [|k IH]; intros Hk; [reflexivity|]. rewrite seq_S, fold_left_app, IH by lia. cbn [Nat.add fold_left]. unfold copy_row. cbn [fst snd].
  assert (B : forall c (h : nat -> nat -> A) (w s : list A), length w = P * c -> length s = c -> s = tab c (h k) ->
              blit (tab2 k c h ++ skipn (k * c) w) (k * c) s = tab2 (S k) c h ++ skipn (S k * c) w).
  { intros c h w s Lw Ls Es. unfold blit. rewrite firstn_app, tab2_length, Nat.sub_diag, firstn_all2 by (rewrite tab2_length; lia). cbn [firstn]. rewrite app_nil_r.
    rewrite skipn_app, tab2_length, (skipn_all2 (n := k * c + length s)) by (rewrite tab2_length; lia). rewrite skipn_twice, tab2_snoc, <- Es, <- app_assoc, Ls. cbn [app]. do 3 f_equal. lia. }
  replace (lc + rc - lc) with rc by lia. f_equal; apply B; try assumption; try (rewrite slice_length; nia); rewrite (slice_tab z) by nia; apply tab_ext; intros j Hj; reflexivity.
Qed.

Lemma joined_cuts P lc rc g : length g = P * (lc + rc) -> joined P lc rc (left_cut P lc rc g) (right_cut P lc rc g) = g.
Proof.
  intros Lg. transitivity (tab (length g) (fun i => nth i g z)); [|apply tab_nth]. rewrite Lg, tab_mul. unfold joined, left_cut, right_cut. apply tab2_ext. intros i j Hi Hj. destruct (Nat.ltb_spec j lc) as [H|H].
  - now rewrite nth_tab2.
  - rewrite nth_tab2 by lia. f_equal. lia.
Qed.
Lemma left_joined P lc rc u v : length u = P * lc -> left_cut P lc rc (joined P lc rc u v) = u.
Proof.
  intros Lu. unfold left_cut, joined. transitivity (tab (length u) (fun i => nth i u z)); [|apply tab_nth]. rewrite Lu, tab_mul. apply tab2_ext. intros i j Hi Hj. rewrite nth_tab2 by lia. now rewrite (proj2 (Nat.ltb_lt _ _)) by lia.
Qed.
Lemma right_joined P lc rc u v : length v = P * rc -> right_cut P lc rc (joined P lc rc u v) = v.
Proof.
  intros Lv. unfold right_cut, joined. transitivity (tab (length v) (fun i => nth i v z)); [|apply tab_nth]. rewrite Lv, tab_mul. apply tab2_ext. intros i j Hi Hj. rewrite <- Nat.add_assoc, nth_tab2 by lia.
  rewrite (proj2 (Nat.ltb_ge _ _)) by lia. f_equal. lia.
Qed.

Section Shapes.
Variables (dbg : bool) (axis : option nat) (p q : list nat) (a b : nat) (l r : arr A).
Hypothesis (Wl : wf l) (Wr : wf r) (Sl : ashape l = p ++ a :: q) (Sr : ashape r = p ++ b :: q) (Ax : names_axis axis (length (p ++ a :: q)) (length p)).

Lemma forward_joined : prod p <> 0 -> concatenate z dbg l r axis = Ok (Arr (p ++ (a + b) :: q) (joined (prod p) (a * prod q) (b * prod q) (adata l) (adata r))).
Proof.
  intros Hp. rewrite (concatenate_ok z dbg l r axis p a b q) by assumption. do 2 f_equal. apply joined_flat; unfold wf in *; rewrite ?Wl, ?Wr, ?Sl, ?Sr, prod_app, prod_cons; reflexivity.
Qed.
Lemma back_cuts g : wf g -> ashape g = p ++ (a + b) :: q -> prod (ashape g) <> 0 ->
  concat_back z dbg axis l r g = Ok (Arr (ashape l) (left_cut (prod p) (a * prod q) (b * prod q) (adata g)), Arr (ashape r) (right_cut (prod p) (a * prod q) (b * prod q) (adata g))).
Proof.
  intros Wg Sg Ng. unfold wf in *. rewrite Sg, prod_app, prod_cons in *. unfold concat_back. rewrite Sl, Sr, Sg, Wg, !prod_app, !prod_cons.
  set (P := prod p) in *. set (Q := prod q) in *. set (lc := a * Q). set (rc := b * Q).
  replace (P * lc + P * rc =? P * ((a + b) * Q)) with true by (symmetry; apply Nat.eqb_eq; unfold lc, rc; lia).
  cbv zeta. cbn [check]. rewrite (pick_axis_names axis (length (p ++ (a + b) :: q)) (length p)) by (destruct Ax as [H|[H1 H2]]; [left|right]; rewrite ?app_length in *; cbn [length] in *; auto).
  assert (Eb : match axis with None => length (p ++ (a + b) :: q) =? 0 | Some _ => length (p ++ (a + b) :: q) <? length p end = false)
    by (rewrite app_length; cbn [length]; destruct axis; [apply Nat.ltb_ge|apply Nat.eqb_neq]; lia).
  rewrite Eb. 
    rewrite skipn_at, prod_cons. fold Q. rewrite (proj2 (Nat.eqb_neq ((a + b) * Q) 0)) by nia. cbn [orb].
    rewrite Nat.div_mul by nia. rewrite (proj2 (Nat.eqb_neq P 0)) by nia. rewrite !(Nat.mul_comm P lc), !(Nat.mul_comm P rc), !Nat.div_mul by nia.
    replace ((a + b) * Q) with (lc + rc) by (unfold lc, rc; lia). rewrite Nat.eqb_refl. cbn [check]. rewrite (proj2 (Nat.ltb_ge (lc + rc) lc)) by lia.
    replace (lc + rc - lc) with rc by lia. assert (NP : P <> 0) by nia. rewrite (proj2 (Nat.ltb_ge (rc * P) _)) by (clearbody P; destruct P as [|P0]; [easy|cbn [Nat.sub]; rewrite Nat.sub_0_r; lia]). cbn [orb].
    rewrite (copy_rows P lc rc) by (rewrite ?repeat_length, ?Wg; unfold lc, rc; lia). cbn [fst snd]. rewrite !skipn_all2 by (rewrite repeat_length; lia). rewrite !app_nil_r. reflexivity.
Qed.
Lemma shape_right : concat_shape dbg axis (ashape l) (ashape r) = Ok (p ++ (a + b) :: q).
Proof.
  rewrite Sl, Sr. unfold concat_shape. rewrite !app_length. cbn [length]. rewrite Nat.eqb_refl. cbn [check].
  assert (E : match axis with None => length p + S (length q) - 1 | Some k => if length p + S (length q) <? k then length p + S (length q) - 1 else k end = length p).
  { destruct Ax as [->|[-> H]]; rewrite ?app_length in *; cbn [length] in *; [|lia]. now rewrite (proj2 (Nat.ltb_ge _ _)) by lia. }
  rewrite E, !nth_at, upd_at, (proj2 (Nat.ltb_lt _ _)) by lia. reflexivity.
Qed.
(** with an extent 0 somewhere the backward action divides by zero *)
Lemma back_empty g : wf g -> ashape g = p ++ (a + b) :: q -> prod (ashape g) = 0 -> concat_back z dbg axis l r g = UB.
Proof.
  intros Wg Sg Ng. unfold wf in *. rewrite Sg, prod_app, prod_cons in *. unfold concat_back. rewrite Sl, Sr, Sg, Wg, !prod_app, !prod_cons.
  replace (prod p * (a * prod q) + prod p * (b * prod q) =? prod p * ((a + b) * prod q)) with true by (symmetry; apply Nat.eqb_eq; lia). cbn [check].
  cbv zeta. rewrite (pick_axis_names axis (length (p ++ (a + b) :: q)) (length p)) by (destruct Ax as [H|[H1 H2]]; [left|right]; rewrite ?app_length in *; cbn [length] in *; auto).
  assert (Eb : match axis with None => length (p ++ (a + b) :: q) =? 0 | Some _ => length (p ++ (a + b) :: q) <? length p end = false)
    by (rewrite app_length; cbn [length]; destruct axis; [apply Nat.ltb_ge|apply Nat.eqb_neq]; lia).
  rewrite Eb. 
  rewrite skipn_at, prod_cons. destruct (Nat.eqb_spec ((a + b) * prod q) 0) as [E|E]; [reflexivity|]. cbn [orb].
  rewrite Ng, Nat.div_0_l by exact E. reflexivity.
Qed.
End Shapes.
End Split.

Lemma rsum_if (n m : nat) f : rsum (tab (n + m) f) = (rsum (tab n f) + rsum (tab m (fun j => f (n + j)%nat)))%R.
Proof. now rewrite tab_split, rsum_app. Qed.

Lemma concat_right dbg axis u v p q a b : sized u -> sized v -> fst u = p ++ a :: q -> fst v = p ++ b :: q -> names_axis axis (length (fst u)) (length p) -> prod p * ((a + b) * prod q) <> 0 ->
  right2 dbg (op_concat dbg axis) u v.
Proof.
  intros Hu Hv Eu Ev Ax N. set (P := prod p) in *. set (lc := a * prod q). set (rc := b * prod q). rewrite Eu in Ax.
  assert (Pu : prod (fst u) = P * lc) by (rewrite Eu, prod_app, prod_cons; reflexivity). assert (Pv : prod (fst v) = P * rc) by (rewrite Ev, prod_app, prod_cons; reflexivity).
  set (s := p ++ (a + b) :: q). assert (Ps : prod s = P * (lc + rc)) by (unfold s; rewrite prod_app, prod_cons; fold P; unfold lc, rc; lia).
  set (F := fun (x y : list R) (k : nat) => if k mod (lc + rc) <? lc then nth (k / (lc + rc) * lc + k mod (lc + rc)) x 0%R else nth (k / (lc + rc) * rc + (k mod (lc + rc) - lc)) y 0%R).
  assert (FW : forall wa wb, fst wa = fst u -> sized wa -> fst wb = fst v -> sized wb -> apply2 (op_concat dbg axis) wa wb = Some (s, tab (prod s) (F (snd wa) (snd wb)))).
  { intros wa wb Sa Za Sb Zb. cbn [apply2 op_concat]. rewrite (forward_joined 0%R dbg axis p q a b (arr_of wa) (arr_of wb)).
    - unfold val_of_arr, joined. cbn [ashape adata arr_of]. fold P lc rc. rewrite tab2_tab, Ps. reflexivity.
    - exact Za. - exact Zb. - cbn; congruence. - cbn; congruence. - exact Ax. - fold P. lia. }
  apply (right2_intro dbg _ u v s F F); try assumption.
  - intros x y t0 da db Ex Ey La Lb Da Db k Hk. rewrite Ps in Hk. destruct (divmod_lt _ _ _ Hk) as (H1 & H2 & _). unfold F. destruct (Nat.ltb_spec (k mod (lc + rc)) lc) as [H|H].
    + apply Da. rewrite Pu. nia.
    + apply Db. rewrite Pv. nia.
  - intros g Lg. cbn [local2 op_concat]. change (match concatenate 0%R dbg (arr_of u) (arr_of v) axis with Ok y => Some (val_of_arr y) | _ => None end) with (apply2 (op_concat dbg axis) u v).
    rewrite (FW u v) by auto. cbn [obind2]. rewrite (back_cuts 0%R dbg axis p q a b (arr_of u) (arr_of v) Hu Hv Eu Ev Ax (arr_of (s, g))); [|exact Lg|reflexivity|change (prod s <> 0); rewrite Ps; unfold lc, rc; lia].
    cbn [fst snd arr_of ashape adata val_of_arr]. fold P lc rc. eexists _, _. split; [reflexivity|]. split; [now rewrite Pu; apply tab2_length|]. split; [now rewrite Pv; apply tab2_length|].
    intros da db La Lb. rewrite Ps, tab_mul, rsum_tab2. rewrite Pu in La. rewrite Pv in Lb.
    rewrite (inner_rsum (P * lc)), (inner_rsum (P * rc)) by (try apply tab2_length; assumption). rewrite !tab_mul, !rsum_tab2, <- rsum_tab_plus. apply rsum_tab_ext. intros i Hi.
    rewrite rsum_if. f_equal; apply rsum_tab_ext; intros j Hj; unfold left_cut, right_cut; cbn [adata]; rewrite nth_tab2 by assumption; unfold F.
    + destruct (div_mod_split i (lc + rc) j ltac:(lia)) as [-> ->]. now rewrite (proj2 (Nat.ltb_lt _ _)) by lia.
    + destruct (div_mod_split i (lc + rc) (lc + j) ltac:(lia)) as [-> ->]. rewrite (proj2 (Nat.ltb_ge _ _)) by lia. replace (lc + j - lc) with j by lia. now rewrite Nat.add_assoc.
Qed.
