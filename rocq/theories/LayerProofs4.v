(** repeat and spread; sums accumulated by a loop nest against an inner product. *)
From Coq Require Import List Arith Lia Bool PeanoNat ZArith Reals Lra Permutation.
From Verif Require Import ListBase Loops TensorModel TensorProofs ArrayModel ArrayProofs LayerModel LayerSpec LayerProofs LayerProofs2.
Import ListNotations.

Lemma rsum_upd l p v : p < length l -> rsum (upd l p v) = (rsum l + (v - nth p l 0))%R.
Proof.
  revert p. induction l as [|a l IH]; intros [|p] Hp; cbn [length] in Hp; try lia; cbn [upd rsum nth]; [ring|]. rewrite IH by lia. ring.
Qed.

Lemma inner_upd l x p v : length l = length x -> p < length l -> inner (upd l p v) x = (inner l x + (v - nth p l 0) * nth p x 0)%R.
Proof.
  unfold inner. revert x p. induction l as [|a l IH]; intros [|y x] [|p] Hl Hp; cbn [length] in *; try lia; cbn [upd map2 rsum nth]; [ring|]. rewrite IH by lia. ring.
Qed.

Lemma inner_zeros n x : length x = n -> inner (repeat 0%R n) x = 0%R.
Proof. unfold inner. revert x. induction n; intros [|y x] Hl; cbn [length] in *; try discriminate; cbn [repeat map2 rsum]; [reflexivity|]. rewrite IHn by lia. ring. Qed.

Lemma inner_accumulate ws d x :
  length d = length x -> (forall w, In w ws -> fst w < length d) ->
  inner (accumulate Rplus 0%R ws d) x = (inner d x + rsum (map (fun w => snd w * nth (fst w) x 0)%R ws))%R.
Proof.
  unfold accumulate. revert d. induction ws as [|w ws IH]; intros d Hl Hw; cbn [fold_left map rsum]; [ring|].
  rewrite IH; rewrite ?upd_length; auto; [|intros; apply Hw; now right].
  rewrite inner_upd by (auto; apply Hw; now left). ring.
Qed.

Lemma rsum_tab_inner n g y : length g = n -> length y = n -> rsum (tab n (fun i => nth i g 0 * nth i y 0)%R) = inner g y.
Proof. intros. now rewrite (inner_tab g y n). Qed.

Lemma inner_loop3 R C K (f h : nat -> nat -> nat -> Rdefinitions.R) g y :
  length g = R * (C * K) -> length y = R * (C * K) ->
  (forall r c k, r < R -> c < C -> k < K -> nth (r * (C * K) + (c * K + k)) g 0%R = f r c k /\ nth (r * (C * K) + (c * K + k)) y 0%R = h r c k) ->
  rsum (loop3 R C K (fun r c k => f r c k * h r c k)%R) = inner g y.
Proof.
  intros Lg Ly H. rewrite <- (rsum_tab_inner (R * (C * K))) by assumption. f_equal.
  apply list_eq_nth; rewrite loop3_length; [now rewrite tab_length|]. intros p Hp. rewrite nth_error_tab by assumption.
  destruct (divmod_lt _ _ _ Hp) as (H1 & H2 & H3). destruct (divmod_lt _ _ _ H2) as (H4 & H5 & H6).
  remember (p / (C * K)) as r eqn:Er. clear Er. remember (p mod (C * K)) as q eqn:Eq. clear Eq.
  assert (Ep : p = r * (C * K) + (q / K * K + q mod K)) by lia. rewrite Ep. rewrite nth_error_loop3 by assumption.
  destruct (H r (q / K) (q mod K) H1 H4 H5) as [-> ->]. reflexivity.
Qed.

Lemma map_loop3 {A B} (h : A -> B) R C K f : map h (loop3 R C K f) = loop3 R C K (fun r c k => h (f r c k)).
Proof. rewrite !loop3_tab, !tab2_tab, map_tab. reflexivity. Qed.

(** ** repeat *)

Lemma repeat_fwd_ok {A} (zero : A) repeats axis cache x p a q :
  wf x -> ashape x = p ++ a :: q -> repeats <> 1 ->
  (match axis with Some ax => Nat.min ax (length (ashape x) - 1) | None => length (ashape x) - 1 end) = length p ->
  exists d, repeat_fwd zero repeats axis cache x = Ok (d, Arr (p ++ a * repeats :: q) d) /\ length d = prod p * a * (repeats * prod q) /\
    forall it re j, it < prod p * a -> re < repeats -> j < prod q ->
      nth_error d (it * (repeats * prod q) + (re * prod q + j)) = nth_error (adata x) (it * prod q + j).
Proof.
  intros W E Hrep Hax. unfold repeat_fwd. rewrite (proj2 (Nat.eqb_neq _ _) Hrep).
  assert (L : length (adata x) = prod p * a * prod q) by (unfold wf in W; rewrite W, E, prod_app, prod_cons; ring).
  assert (Hm : forall T (u v : T), match ashape x with [] => u | _ :: _ => v end = v) by (intros; rewrite E; now destruct p).
  rewrite Hm, Hax, E.
  assert (F : firstn (S (length p)) (p ++ a :: q) = p ++ [a]).
  { rewrite firstn_app, firstn_all2 by lia. replace (S (length p) - length p) with 1 by lia. reflexivity. }
  rewrite F, skipn_S_at, nth_at, upd_at. rewrite prod_app, prod_cons. replace (prod []) with 1 by reflexivity. rewrite Nat.mul_1_r. cbv zeta.
  rewrite L, Nat.leb_refl. rewrite prod_app, prod_cons.
  replace (prod p * (a * repeats * prod q)) with (prod p * a * (repeats * prod q)) by ring.
  set (I := prod p * a) in *. set (Q := prod q) in *. set (d0 := resized zero cache _). assert (L0 : length d0 = I * (repeats * Q)) by apply resized_length.
  assert (Hp : forall it re j, it < I -> re < repeats -> j < Q -> it * (repeats * Q) + (re * Q + j) < I * (repeats * Q)).
  { intros it re j H1 H2 H3. assert (re * Q + j < repeats * Q) by nia. nia. }
  rewrite fill_ok.
  - eexists. split; [reflexivity|]. split; [now rewrite writes_length|]. intros it re j H1 H2 H3.
    rewrite (nth_error_of_nth zero (adata x)) by (rewrite L; nia). apply writes_at; [rewrite L0; auto| |].
    + apply in_loop3. exists it, re, j. auto.
    + intros w Hw Ew. apply in_loop3 in Hw. destruct Hw as (it' & re' & j' & G1 & G2 & G3 & ->). cbn [fst snd] in *.
      assert (A1 : re' * Q + j' < repeats * Q) by nia. assert (A2 : re * Q + j < repeats * Q) by nia.
      assert (it' = it) by nia. subst it'. assert (re' = re) by nia. subst re'. assert (j' = j) by lia. now subst.
  - intros w Hw. apply in_loop3 in Hw. destruct Hw as (it' & re' & j' & G1 & G2 & G3 & ->). cbn [fst]. rewrite L0. auto.
Qed.

Lemma repeat_bwd_adjoint repeats axis input g p a q :
  ashape input = p ++ a :: q -> repeats <> 1 ->
  (match axis with Some ax => Nat.min ax (length (ashape input) - 1) | None => length (ashape input) - 1 end) = length p ->
  length (adata g) = prod p * a * (repeats * prod q) ->
  exists b, repeat_bwd 0%R Rplus repeats axis input g = Ok (Arr (ashape input) b) /\ length b = prod (ashape input) /\
    forall x y, length x = prod (ashape input) -> length y = prod p * a * (repeats * prod q) ->
      (forall it re j, it < prod p * a -> re < repeats -> j < prod q -> nth (it * (repeats * prod q) + (re * prod q + j)) y 0%R = nth (it * prod q + j) x 0%R) ->
      inner b x = inner (adata g) y.
Proof.
  intros E Hrep Hax Lg. unfold repeat_bwd. rewrite (proj2 (Nat.eqb_neq _ _) Hrep).
  assert (Hm : forall T (u v : T), match ashape input with [] => u | _ :: _ => v end = v) by (intros; rewrite E; now destruct p).
  rewrite Hm, Hax, E.
  assert (F : firstn (S (length p)) (p ++ a :: q) = p ++ [a]).
  { rewrite firstn_app, firstn_all2 by lia. replace (S (length p) - length p) with 1 by lia. reflexivity. }
  rewrite F, skipn_S_at. rewrite (prod_app p [a]), prod_cons. replace (prod []) with 1 by reflexivity. rewrite Nat.mul_1_r. cbv zeta.
  replace (prod p * a * repeats * prod q) with (prod p * a * (repeats * prod q)) by ring. rewrite Lg, Nat.leb_refl.
  eexists. split; [reflexivity|]. split; [now rewrite accumulate_length, repeat_length|]. intros x y Lx Ly H.
  rewrite inner_accumulate.
  - rewrite inner_zeros by assumption. rewrite map_loop3. cbn [fst snd]. rewrite Rplus_0_l. apply inner_loop3; auto.
  - now rewrite repeat_length, Lx.
  - intros w Hw. apply in_loop3 in Hw. destruct Hw as (it' & re' & j' & G1 & G2 & G3 & ->). cbn [fst]. rewrite repeat_length, prod_app, prod_cons. nia.
Qed.

(** ** spread *)

Lemma spread_fwd_ok {A} (zero : A) dbg rk ck rs cs vp x n r c k :
  wf x -> ashape x = [n; r; c; k] -> rs <> 0 -> cs <> 0 -> (vp = true -> rk <> 0 /\ ck <> 0) ->
  let R := spread_extent r rk rs vp in let C := spread_extent c ck cs vp in
  let ro := if vp then rk - 1 else 0 in let co := if vp then ck - 1 else 0 in
  exists d, spread_fwd zero dbg rk ck rs cs vp x = Ok (Arr [n; R; C; k] d) /\ length d = prod [n; R; C; k] /\
    (forall i y z w, i < n -> y < r -> z < c -> w < k ->
       ro + y * rs < R /\ co + z * cs < C /\ nth_error d (pos4 R C k i (ro + y * rs) (co + z * cs) w) = nth_error (adata x) (pos4 r c k i y z w)) /\
    (forall i Y Z w, i < n -> Y < R -> Z < C -> w < k -> (~ exists y z, y < r /\ z < c /\ Y = ro + y * rs /\ Z = co + z * cs) ->
       nth_error d (pos4 R C k i Y Z w) = Some zero).
Proof.
  intros W E Hrs Hcs Hvp R C ro co. assert (L := wf4 _ _ _ _ _ W E). unfold spread_fwd. rewrite (with4_ok dbg x n r c k) by assumption.
  cbv zeta. fold R C ro co.
  assert (HR : forall y, y < r -> ro + y * rs < R).
  { intros y Hy. assert ((y + 1) * rs <= r * rs) by (apply Nat.mul_le_mono_r; lia). unfold R, spread_extent, ro. destruct vp; [destruct (Hvp eq_refl)|]; lia. }
  assert (HC : forall z, z < c -> co + z * cs < C).
  { intros z Hz. assert ((z + 1) * cs <= c * cs) by (apply Nat.mul_le_mono_r; lia). unfold C, spread_extent, co. destruct vp; [destruct (Hvp eq_refl)|]; lia. }
  rewrite fill_ok; cbn [obind snd].
  - eexists. split; [reflexivity|]. split; [now rewrite writes_length, repeat_length|]. split.
    + intros i y z w Hi Hy Hz Hw. split; [auto|]. split; [auto|].
      rewrite (nth_error_of_nth zero (adata x)) by (rewrite L; apply pos4_lt; lia).
      apply (writes_loop4_at n r c k (fun i y z w => pos4 R C k i (ro + y * rs) (co + z * cs) w) (fun i y z w => nth (pos4 r c k i y z w) (adata x) zero)); try assumption.
      * intros i1 y1 z1 w1 i2 y2 z2 w2 ? ? ? ? ? ? ? ? Eq. apply (pos4_inj n) in Eq; auto. destruct Eq as (-> & E1 & E2 & ->).
        assert (y1 = y2) by nia. assert (z1 = z2) by nia. auto.
      * rewrite repeat_length. apply pos4_lt; auto.
    + intros i Y Z w Hi HY HZ Hw Hno.
      rewrite (writes_loop4_other n r c k (fun i y z w => pos4 R C k i (ro + y * rs) (co + z * cs) w) (fun i y z w => nth (pos4 r c k i y z w) (adata x) zero)).
      * apply nth_error_repeat_lt. now apply pos4_lt.
      * intros i' y z w' Hi' Hy Hz Hw' Eq. apply (pos4_inj n) in Eq; auto. apply Hno. exists y, z. intuition.
  - intros w Hw. apply in_loop4 in Hw. destruct Hw as (i' & y & z & w' & Hi' & Hy & Hz & Hw' & ->). cbn [fst]. rewrite repeat_length. apply pos4_lt; auto.
Qed.

Lemma spread_bwd_ok {A} (zero : A) rk ck rs cs vp input g n r c k :
  ashape input = [n; r; c; k] -> rs <> 0 -> cs <> 0 -> (vp = true -> rk <> 0 /\ ck <> 0) ->
  let R := spread_extent r rk rs vp in let C := spread_extent c ck cs vp in
  let ro := if vp then rk - 1 else 0 in let co := if vp then ck - 1 else 0 in
  wf g -> ashape g = [n; R; C; k] ->
  exists d, spread_bwd zero rk ck rs cs vp input g = Ok (Arr [n; r; c; k] d) /\ length d = prod [n; r; c; k] /\
    forall i y z w, i < n -> y < r -> z < c -> w < k ->
      nth_error d (pos4 r c k i y z w) = nth_error (adata g) (pos4 R C k i (ro + y * rs) (co + z * cs) w).
Proof.
  intros E Hrs Hcs Hvp R C ro co W Eg. assert (L := wf4 _ _ _ _ _ W Eg). unfold spread_bwd. rewrite E, Eg. fold ro co.
  assert (HR : forall y, y < r -> ro + y * rs < R).
  { intros y Hy. assert ((y + 1) * rs <= r * rs) by (apply Nat.mul_le_mono_r; lia). unfold R, spread_extent, ro. destruct vp; [destruct (Hvp eq_refl)|]; lia. }
  assert (HC : forall z, z < c -> co + z * cs < C).
  { intros z Hz. assert ((z + 1) * cs <= c * cs) by (apply Nat.mul_le_mono_r; lia). unfold C, spread_extent, co. destruct vp; [destruct (Hvp eq_refl)|]; lia. }
  replace (forallb _ _) with true.
  - eexists. split; [reflexivity|]. split; [now rewrite map_length, loop4_length|]. intros i y z w Hi Hy Hz Hw.
    rewrite (map_nth_error _ _ _ (nth_error_loop4' n r c k _ i y z w Hi Hy Hz Hw)). symmetry. apply nth_error_of_nth. rewrite L. apply pos4_lt; auto.
  - symmetry. apply forallb_forall. intros q Hq. apply in_loop4 in Hq. destruct Hq as (i' & y & z & w' & Hi' & Hy & Hz & Hw' & ->).
    apply Nat.ltb_lt. rewrite L. apply pos4_lt; auto.
Qed.

(** spreading and reading back are adjoint *)
Lemma spread_adjoint (n r c k R C ro rs co cs : nat) (x g y b : list Rdefinitions.R) :
  rs <> 0 -> cs <> 0 -> (forall v, v < r -> ro + v * rs < R) -> (forall v, v < c -> co + v * cs < C) ->
  length x = prod [n; r; c; k] -> length b = prod [n; r; c; k] -> length g = prod [n; R; C; k] -> length y = prod [n; R; C; k] ->
  (forall i v z w, i < n -> v < r -> z < c -> w < k -> nth (pos4 R C k i (ro + v * rs) (co + z * cs) w) y 0%R = nth (pos4 r c k i v z w) x 0%R) ->
  (forall i Y Z w, i < n -> Y < R -> Z < C -> w < k -> (~ exists v z, v < r /\ z < c /\ Y = ro + v * rs /\ Z = co + z * cs) -> nth (pos4 R C k i Y Z w) y 0%R = 0%R) ->
  (forall i v z w, i < n -> v < r -> z < c -> w < k -> nth (pos4 r c k i v z w) b 0%R = nth (pos4 R C k i (ro + v * rs) (co + z * cs) w) g 0%R) ->
  inner b x = inner g y.
Proof.
  intros Hrs Hcs HR HC Lx Lb Lg Ly Ey Ez Eb. rewrite (inner_comm b x), (inner_comm g y).
  (* x is gathered from y *)
  symmetry. rewrite (inner_comm y g).
  set (hit := fun (Y o st m : nat) => (o <=? Y) && ((Y - o) mod st =? 0) && ((Y - o) / st <? m)).
  assert (Hhit : forall Y o st m, st <> 0 -> (hit Y o st m = true <-> exists v, v < m /\ Y = o + v * st)).
  { intros Y o st m Hst. unfold hit. rewrite !andb_true_iff, Nat.leb_le, Nat.eqb_eq, Nat.ltb_lt. split.
    - intros ((H1 & H2) & H3). exists ((Y - o) / st). split; [assumption|]. assert (D := Nat.div_mod (Y - o) st Hst). rewrite H2 in D. nia.
    - intros (v & Hv & ->). replace (o + v * st - o) with (v * st) by lia. rewrite Nat.mod_mul, Nat.div_mul by assumption. auto with arith. }
  rewrite (inner_comm x b). symmetry.
  apply (adjoint_injective
    (dec4 n R C k (fun i Y Z w => if hit Y ro rs r && hit Z co cs c then Some (pos4 r c k i ((Y - ro) / rs) ((Z - co) / cs) w) else None) None)
    (dec4 n r c k (fun i v z w => Some (pos4 R C k i (ro + v * rs) (co + z * cs) w)) None) (prod [n; r; c; k]) (prod [n; R; C; k])); auto.
  - intros p Hp. destruct (pos4_surj _ _ _ _ _ Hp) as (i & Y & Z & w & Hi & HY & HZ & Hw & ->). rewrite dec4_pos4 by assumption.
    destruct (hit Y ro rs r) eqn:E1; [destruct (hit Z co cs c) eqn:E2|]; cbn [andb].
    + apply Hhit in E1, E2; [|assumption|assumption]. destruct E1 as (v & Hv & ->), E2 as (z & Hz & ->).
      replace (ro + v * rs - ro) with (v * rs) by lia. replace (co + z * cs - co) with (z * cs) by lia. rewrite !Nat.div_mul by assumption. auto.
    + apply Ez; auto. intros (v & z & Hv & Hz & -> & ->). apply not_true_iff_false in E2. apply E2. apply Hhit; [assumption|]. exists z. auto.
    + apply Ez; auto. intros (v & z & Hv & Hz & -> & ->). apply not_true_iff_false in E1. apply E1. apply Hhit; [assumption|]. exists v. auto.
  - intros p Hp. destruct (pos4_surj _ _ _ _ _ Hp) as (i & v & z & w & Hi & Hv & Hz & Hw & ->). rewrite dec4_pos4 by assumption. auto.
  - intros p j Hp E. destruct (pos4_surj _ _ _ _ _ Hp) as (i & Y & Z & w & Hi & HY & HZ & Hw & ->). rewrite dec4_pos4 in E by assumption.
    destruct (hit Y ro rs r) eqn:E1; [|discriminate]. destruct (hit Z co cs c) eqn:E2; [|discriminate]. cbn [andb] in E.
    apply Hhit in E1, E2; [|assumption|assumption]. destruct E1 as (v & Hv & ->), E2 as (z & Hz & ->).
    replace (ro + v * rs - ro) with (v * rs) in E by lia. replace (co + z * cs - co) with (z * cs) in E by lia. rewrite !Nat.div_mul in E by assumption.
    injection E as <-. now apply pos4_lt.
  - intros p j Hp E. destruct (pos4_surj _ _ _ _ _ Hp) as (i & v & z & w & Hi & Hv & Hz & Hw & ->). rewrite dec4_pos4 in E by assumption.
    injection E as <-. apply pos4_lt; auto.
  - intros p q Hp Hq. destruct (pos4_surj _ _ _ _ _ Hp) as (i & v & z & w & Hi & Hv & Hz & Hw & ->).
    destruct (pos4_surj _ _ _ _ _ Hq) as (i' & Y & Z & w' & Hi' & HY & HZ & Hw' & ->). rewrite !dec4_pos4 by assumption. split; intros E.
    + injection E as E. apply (pos4_inj n) in E; auto. destruct E as (-> & <- & <- & ->).
      rewrite (proj2 (Hhit (ro + v * rs) ro rs r Hrs)) by eauto. rewrite (proj2 (Hhit (co + z * cs) co cs c Hcs)) by eauto. cbn [andb].
      replace (ro + v * rs - ro) with (v * rs) by lia. replace (co + z * cs - co) with (z * cs) by lia. now rewrite !Nat.div_mul by assumption.
    + destruct (hit Y ro rs r) eqn:E1; [|discriminate]. destruct (hit Z co cs c) eqn:E2; [|discriminate]. cbn [andb] in E.
      apply Hhit in E1, E2; [|assumption|assumption]. destruct E1 as (v' & Hv' & ->), E2 as (z' & Hz' & ->).
      replace (ro + v' * rs - ro) with (v' * rs) in E by lia. replace (co + z' * cs - co) with (z' * cs) in E by lia. rewrite !Nat.div_mul in E by assumption.
      injection E as E. apply (pos4_inj n) in E; auto. destruct E as (-> & -> & -> & ->). reflexivity.
Qed.
