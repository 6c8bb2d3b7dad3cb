(** Property C73: the statistics of tensors (variance, standard_deviation, var, std, norm, linspace). *)
From Coq Require Import List Arith Lia Bool PeanoNat Reals Lra.
From Verif Require Import ListBase TensorModel TensorSpec TensorProofs TensorProofs2 ArrayModel ArrayProofs StatModel StatSpec StatProofs.
Import ListNotations.
Local Open Scope nat_scope.

(** variance( ts, axis, keepdims ): every element is the population variance of its line; no tensor that existed before,
    the argument included, is changed; the result has a storage of its own *)
Theorem C73_variance : forall dbg t axis keepdims p n q (h : list (list R)),
  well_formed h t -> shape t = p ++ n :: q -> prod (shape t) <> 0 -> axis_is axis (length (shape t)) (length p) ->
  (keepdims = true \/ p ++ q <> []) ->
  exists v h', variance dbg t axis keepdims h = Ok (v, h') /\ shape v = left_over keepdims p q /\ well_formed h' v /\
    length h <= ref v /\ (forall s, s < length h -> nth_error h' s = nth_error h s) /\
    forall ip iq l, valid p ip -> valid q iq -> line h t ip iq n l ->
      elem h' v (left_index keepdims ip iq) = Some (population_variance l).
Proof.
  intros dbg t axis keepdims p n q h Wt Hs Hn Hax Hk.
  destruct (mean_t_ok dbg t axis true p n q h Wt Hs Hn Hax (or_introl eq_refl)) as (m & e & M1 & M2 & M3 & M4 & M5).
  unfold variance. rewrite (bind_ok _ _ _ _ _ M1).
  destruct Wt as (d & Hd & Ld). destruct M4 as (dm & Hdm & Ldm). cbn [left_over] in M2.
  assert (B : Broadcasts (shape m) (shape t) (p ++ n :: q)) by (rewrite M2, Hs; apply reduced_broadcasts).
  destruct (zip_broadcast_full 0%R dbg Rminus m t (p ++ n :: q) (h ++ e) dm d Hdm Ldm (nth_error_ext h e _ _ Hd) Ld B)
    as (x & h1 & res & Z1 & Z2 & Z3 & Z4 & Z5 & Z6 & Z7 & Z8).
  assert (Rx : length h <= ref x).
  { destruct (list_eq_dec Nat.eq_dec (padded (length (p ++ n :: q)) (shape m)) (p ++ n :: q)) as [E|N].
    - rewrite (Z6 E). exact M3.
    - specialize (Z7 N). rewrite app_length in Z7. lia. }
  rewrite (bind_ok _ _ _ _ _ Z1).
  unfold map_inplace. unfold bind at 1. unfold bind at 1. unfold data at 1. rewrite Z3. unfold store.
  set (sq := map (fun v => v * v)%R res). set (h2 := upd h1 (ref x) sq).
  assert (H2 : nth_error h2 (ref x) = Some sq) by (apply nth_error_upd_same; apply nth_error_Some; congruence).
  assert (W2 : well_formed h2 x) by (exists sq; split; [exact H2|]; unfold sq; rewrite map_length, Z2; exact Z4).
  assert (F2 : forall s, s < length h -> nth_error h2 s = nth_error h s).
  { intros s L. unfold h2. rewrite nth_error_upd_other by lia. rewrite Z8 by (rewrite ?app_length; lia). now apply nth_error_app1. }
  destruct (mean_t_ok dbg x axis keepdims p n q h2 W2 Z2 ltac:(rewrite Z2, <- Hs; exact Hn)
              ltac:(rewrite Z2, <- Hs; exact Hax) Hk) as (v & e' & V1 & V2 & V3 & V4 & V5).
  exists v, (h2 ++ e'). split; [exact V1|]. split; [exact V2|]. split; [exact V4|].
  pose proof (frame_length h h2 F2) as L2. split; [lia|]. split.
  { intros s L. rewrite nth_error_app1 by lia. now apply F2. }
  intros ip iq l Vp Vq Hl. apply V5; [assumption|assumption|].
  destruct Hl as [Ll El]. split; [unfold squared_deviations; now rewrite map_length|].
  intros k Hk'. pose proof (El k Hk') as Ek. unfold elem. rewrite H2, Z2. unfold sq. rewrite nth_error_map.
  pose proof (valid_middle p n q ip k iq Vp Vq Hk') as Vk.
  destruct (Z5 _ Vk) as (a & b & Ea & Eb & Er). rewrite Er. cbn [option_map].
  rewrite M2, (source_reduced p n q) in Ea by assumption.
  assert (M : elem (h ++ e) m (ip ++ 0 :: iq) = Some (average l)) by (apply M5; [assumption|assumption|split; assumption]).
  unfold elem in M. rewrite Hdm, M2 in M. rewrite M in Ea. injection Ea as <-.
  rewrite Hs, source_self in Eb by assumption.
  unfold elem in Ek. rewrite Hd, Hs in Ek. rewrite Ek in Eb. unfold squared_deviations. rewrite nth_error_map, Eb. cbn [option_map].
  f_equal. ring.
Qed.
Print Assumptions C73_variance.

Theorem C73_standard_deviation : forall dbg t axis keepdims p n q (h : list (list R)),
  well_formed h t -> shape t = p ++ n :: q -> prod (shape t) <> 0 -> axis_is axis (length (shape t)) (length p) ->
  (keepdims = true \/ p ++ q <> []) ->
  exists v h', standard_deviation dbg t axis keepdims h = Ok (v, h') /\ shape v = left_over keepdims p q /\ well_formed h' v /\
    length h <= ref v /\ (forall s, s < length h -> nth_error h' s = nth_error h s) /\
    forall ip iq l, valid p ip -> valid q iq -> line h t ip iq n l ->
      elem h' v (left_index keepdims ip iq) = Some (population_deviation l).
Proof.
  intros dbg t axis keepdims p n q h Wt Hs Hn Hax Hk.
  destruct (C73_variance dbg t axis keepdims p n q h Wt Hs Hn Hax Hk) as (v & h1 & V1 & V2 & (d & Hd & Ld) & V4 & V5 & V6).
  unfold standard_deviation. rewrite (bind_ok _ _ _ _ _ V1).
  unfold map_inplace. unfold bind at 1. unfold bind at 1. unfold data at 1. rewrite Hd. unfold store, ret.
  exists v, (upd h1 (ref v) (map sqrt d)). split; [reflexivity|]. split; [exact V2|].
  assert (H2 : nth_error (upd h1 (ref v) (map sqrt d)) (ref v) = Some (map sqrt d))
    by (apply nth_error_upd_same; apply nth_error_Some; congruence).
  split; [exists (map sqrt d); split; [exact H2|now rewrite map_length]|]. split; [exact V4|]. split.
  - intros s L. rewrite nth_error_upd_other by lia. now apply V5.
  - intros ip iq l Vp Vq Hl. specialize (V6 ip iq l Vp Vq Hl). unfold elem in V6 |- *. rewrite Hd in V6. rewrite H2, nth_error_map, V6.
    reflexivity.
Qed.
Print Assumptions C73_standard_deviation.

(** the only axis of a vector, without keepdims: reshape to no dimensions, undefined (the same defect as in C19) *)
Theorem C73_vector_without_keepdims : forall dbg t axis n (h : list (list R)),
  well_formed h t -> shape t = [n] -> n <> 0 -> axis_is axis 1 0 -> variance dbg t axis false h = UB.
Proof.
  intros dbg t axis n h Wt Hs Hn Hax.
  destruct (mean_t_ok dbg t axis true [] n [] h Wt Hs ltac:(rewrite Hs; cbn; lia) ltac:(rewrite Hs; exact Hax) (or_introl eq_refl))
    as (m & e & M1 & M2 & M3 & M4 & M5).
  unfold variance. rewrite (bind_ok _ _ _ _ _ M1).
  destruct Wt as (d & Hd & Ld). destruct M4 as (dm & Hdm & Ldm). cbn [left_over app] in M2.
  assert (B : Broadcasts (shape m) (shape t) [n]) by (rewrite M2, Hs; apply (reduced_broadcasts [] n [])).
  destruct (zip_broadcast_full 0%R dbg Rminus m t [n] (h ++ e) dm d Hdm Ldm (nth_error_ext h e _ _ Hd) Ld B)
    as (x & h1 & res & Z1 & Z2 & Z3 & Z4 & _).
  rewrite (bind_ok _ _ _ _ _ Z1).
  unfold map_inplace. unfold bind at 1. unfold bind at 1. unfold data at 1. rewrite Z3. unfold store.
  set (sq := map (fun v => v * v)%R res). set (h2 := upd h1 (ref x) sq).
  assert (H2 : nth_error h2 (ref x) = Some sq) by (apply nth_error_upd_same; apply nth_error_Some; congruence).
  assert (L2 : length sq = n) by (unfold sq; rewrite map_length, Z4; cbn; lia).
  unfold mean_t. unfold reduce_t. unfold bind at 1. unfold bind at 1. unfold data at 1. rewrite H2.
  clearbody sq. destruct sq as [|y ys]; [cbn in L2; congruence|]. unfold bind, lift.
  rewrite (reduce_ok 0%R dbg (Arr (shape x) (y :: ys)) axis 0%R Rplus false [] n []).
  - reflexivity.
  - unfold wf. cbn [ashape adata]. rewrite Z2, L2. cbn. lia.
  - cbn [ashape]. now rewrite Z2.
  - cbn [ashape]. rewrite Z2. cbn. lia.
  - exact Hax.
Qed.
Print Assumptions C73_vector_without_keepdims.

(** var( ts ) is the sum of the squared deviations of all elements, that is the number of elements times the variance; it
    leaves every tensor as it was *)
Theorem C73_var : forall dbg t d (h : list (list R)),
  contents h t = Some d -> length d = prod (shape t) -> d <> [] ->
  exists h', var dbg t h = Ok (INR (length d) * population_variance d, h')%R /\
    (forall s, s < length h -> nth_error h' s = nth_error h s).
Proof.
  intros dbg t d h Hd Ld Nd. unfold contents in Hd.
  assert (Z : length d =? 0 = false) by (destruct d; [congruence|reflexivity]).
  exists (h ++ [map (fun v => v - average d)%R d]). split; [|intros s L; now apply nth_error_app1].
  unfold var, mean_all. unfold bind at 1. unfold bind at 1. unfold data at 1. rewrite Hd. unfold bind at 1. unfold better_assert.
  rewrite Z. cbn [negb]. unfold ret at 1. rewrite fold_total, Rplus_0_l. change (total d / INR (length d))%R with (average d).
  rewrite (bind_ok _ _ _ _ _ (scalar_op_ok 0%R (fun v => v - average d)%R t h d Hd Ld)).
  unfold bind, data. cbn [ref]. rewrite nth_error_alloc. unfold ret. rewrite fold_squares, <- deviations_squares.
  f_equal. f_equal. unfold population_variance, average. unfold squared_deviations at 3. rewrite map_length.
  assert (INR (length d) <> 0)%R by (apply not_0_INR; destruct d; [congruence|discriminate]). field. assumption.
Qed.
Print Assumptions C73_var.

(** so var is the variance only of a single element or of equal elements *)
Theorem C73_var_is_variance_iff : forall dbg t d (h : list (list R)) v h',
  contents h t = Some d -> length d = prod (shape t) -> d <> [] -> var dbg t h = Ok (v, h') ->
  (v = population_variance d <-> length d = 1 \/ forall x y, In x d -> In y d -> x = y).
Proof.
  intros dbg t d h v h' Hd Ld Nd E. destruct (C73_var dbg t d h Hd Ld Nd) as (h1 & E1 & _). rewrite E1 in E. injection E as <- _.
  assert (N : (INR (length d) <> 0)%R) by (apply not_0_INR; destruct d; [congruence|discriminate]).
  assert (PV : population_variance d = (total (squared_deviations d) / INR (length d))%R).
  { unfold population_variance, average at 1. unfold squared_deviations at 2. now rewrite map_length. }
  assert (Z : population_variance d = 0%R <-> forall x, In x d -> x = average d).
  { rewrite PV. rewrite deviations_squares. split.
    - intros Q x I. assert (T : total (map (fun x => x ^ 2)%R (map (fun x => x - average d)%R d)) = 0%R).
      { apply (Rmult_eq_reg_r (/ INR (length d))); [rewrite Rmult_0_l; exact Q|now apply Rinv_neq_0_compat]. }
      rewrite squares_zero in T. specialize (T (x - average d)%R (in_map (fun x => x - average d)%R d x I)). lra.
    - intros Q. rewrite (proj2 (squares_zero _)); [unfold Rdiv; ring|]. intros x I. apply in_map_iff in I.
      destruct I as (y & <- & I). rewrite <- (Q y I). ring. }
  split.
  - intros Q. assert (P : ((INR (length d) - 1) * population_variance d = 0)%R) by lra. apply Rmult_integral in P. destruct P as [P|P].
    + left. apply INR_eq. cbn [INR]. lra.
    + right. intros x y Ix Iy. rewrite (proj1 Z P x Ix), (proj1 Z P y Iy). reflexivity.
  - intros [Q|Q]; [rewrite Q; cbn [INR]; ring|].
    assert (A : forall c l, (forall y, In y l -> y = c) -> total l = (INR (length l) * c)%R).
    { intros c l. induction l as [|x l IH]; intros Hc; [cbn; ring|]. cbn [total length]. rewrite S_INR.
      rewrite IH by (intros y I; apply Hc; now right). rewrite (Hc x (or_introl eq_refl)). ring. }
    rewrite (proj2 Z); [ring|]. intros x I. unfold average. rewrite (A x d) by (intros y Iy; now apply Q). field. assumption.
Qed.
Print Assumptions C73_var_is_variance_iff.

(** std( ts ) is therefore the deviation times the root of the number of elements *)
Theorem C73_std : forall dbg t d (h : list (list R)),
  contents h t = Some d -> length d = prod (shape t) -> d <> [] ->
  exists h', std dbg t h = Ok (sqrt (INR (length d)) * population_deviation d, h')%R /\
    (forall s, s < length h -> nth_error h' s = nth_error h s).
Proof.
  intros dbg t d h Hd Ld Nd. destruct (C73_var dbg t d h Hd Ld Nd) as (h' & E & F). exists h'. split; [|exact F].
  unfold std. rewrite (bind_ok _ _ _ _ _ E). unfold ret. rewrite sqrt_mult_alt by apply pos_INR. reflexivity.
Qed.
Print Assumptions C73_std.

(** two functions of one library for one quantity: of a tensor whose elements all lie on one line, standard_deviation and std
    answer differently *)
Theorem C73_std_is_standard_deviation_refuted :
  ~ (forall dbg t n d (h : list (list R)) s h1 v h2,
       contents h t = Some d -> shape t = [1; n] -> length d = n -> n <> 0 ->
       std dbg t h = Ok (s, h1) -> standard_deviation dbg t (Some 1) false h = Ok (v, h2) -> elem h2 v [0] = Some s).
Proof.
  intros H. set (d := [0; 2]%R). set (t := mkT [1; 2] 0). set (h := [d]).
  assert (C : contents h t = Some d) by reflexivity.
  destruct (C73_std false t d h C eq_refl ltac:(discriminate)) as (h1 & E1 & _).
  destruct (C73_standard_deviation false t (Some 1) false [1] 2 [] h ltac:(exists d; split; reflexivity) eq_refl ltac:(discriminate)
              ltac:(now left) ltac:(right; discriminate)) as (v & h2 & E2 & _ & _ & _ & _ & V).
  specialize (H false t 2 d h _ h1 v h2 C eq_refl eq_refl ltac:(discriminate) E1 E2).
  specialize (V [0] [] d ltac:(repeat constructor) ltac:(constructor)).
  assert (L : line h t [0] [] 2 d) by (split; [reflexivity|]; intros [|[|k]] Hk; [reflexivity|reflexivity|lia]).
  specialize (V L). cbn [left_index app] in V. rewrite V in H. injection H as H.
  assert (P : population_deviation d = 1%R).
  { unfold population_deviation. replace (population_variance d) with 1%R; [apply sqrt_1|].
    unfold population_variance, squared_deviations, average, d. cbn [map total length INR]. lra. }
  rewrite P, Rmult_1_r in H. unfold d in H. cbn [length INR] in H.
  assert (Q : (sqrt (1 + 1) * sqrt (1 + 1) = 1 + 1)%R) by (apply sqrt_sqrt; lra). rewrite <- H in Q. lra.
Qed.
Print Assumptions C73_std_is_standard_deviation_refuted.

(** norm( ts ): the Euclidean norm over the number of elements; so the Euclidean norm only of a single element or of zeros *)
Theorem C73_norm : forall dbg t d (h : list (list R)),
  contents h t = Some d -> d <> [] ->
  norm dbg t h = Ok (euclidean d / INR (length d), h)%R /\
  ((euclidean d / INR (length d))%R = euclidean d <-> length d = 1 \/ forall x, In x d -> x = 0%R).
Proof.
  intros dbg t d h Hd Nd. unfold contents in Hd.
  assert (Z : length d =? 0 = false) by (destruct d; [congruence|reflexivity]).
  assert (N : (INR (length d) <> 0)%R) by (apply not_0_INR; destruct d; [congruence|discriminate]).
  split.
  - unfold norm, bind, data. rewrite Hd. unfold better_assert. rewrite Z. cbn [negb]. unfold ret. rewrite fold_squares, Rplus_0_l.
    reflexivity.
  - split.
    + intros E. assert (P : ((INR (length d) - 1) * euclidean d = 0)%R) by (assert (euclidean d / INR (length d) * INR (length d) = euclidean d)%R by (field; exact N); rewrite E in *; lra).
      apply Rmult_integral in P. destruct P as [P|P].
      * left. apply INR_eq. cbn [INR]. lra.
      * right. apply squares_zero. apply sqrt_eq_0; [apply squares_nonneg|exact P].
    + intros [E|E]; [rewrite E; cbn [INR]; field|]. unfold euclidean. rewrite (proj2 (squares_zero d) E), sqrt_0. unfold Rdiv. ring.
Qed.
Print Assumptions C73_norm.

(** linspace( start, stop, num, endpoint ): num equally spaced numbers, the first is start; the last is stop with the end point,
    and one step short of it without *)
Theorem C73_linspace : forall dbg start stop num endpoint (h : list (list R)), 2 <= num ->
  exists t d, linspace dbg start stop num endpoint h = Ok (t, h ++ [d]) /\ shape t = [num] /\ ref t = length h /\ length d = num /\
    nth_error d 0 = Some start /\
    (exists step, (forall i, S i < num -> exists x y, nth_error d i = Some x /\ nth_error d (S i) = Some y /\ (y - x = step)%R) /\
       exists z, nth_error d (num - 1) = Some z /\ (if endpoint then z = stop else z + step = stop)%R).
Proof.
  intros dbg start stop num endpoint h Hn. set (segs := if endpoint then num - 1 else num).
  assert (S0 : segs <> 0) by (unfold segs; destruct endpoint; lia).
  assert (N : (INR segs <> 0)%R) by now apply not_0_INR.
  unfold linspace, bind, better_assert. rewrite (proj2 (Nat.ltb_lt 1 num)) by lia.
  rewrite (proj2 (Nat.eqb_neq num 0)) by lia. fold segs. rewrite (proj2 (Nat.eqb_neq segs 0) S0). unfold alloc.
  eexists _, _. split; [reflexivity|]. split; [reflexivity|]. split; [reflexivity|]. split; [apply tab_length|].
  split; [rewrite nth_error_tab by lia; cbn [INR]; f_equal; ring|].
  exists ((stop - start) / INR segs)%R. split.
  - intros i Hi. eexists _, _. rewrite !nth_error_tab by lia. split; [reflexivity|]. split; [reflexivity|]. rewrite S_INR. ring.
  - eexists. rewrite nth_error_tab by lia. split; [reflexivity|]. unfold segs in *. destruct endpoint.
    + field. assumption.
    + rewrite minus_INR by lia. cbn [INR]. field. assumption.
Qed.
Print Assumptions C73_linspace.

Theorem C73_linspace_one_aborts : forall start stop num endpoint (h : list (list R)), num <= 1 -> linspace true start stop num endpoint h = Abort.
Proof.
  intros start stop num endpoint h Hn. unfold linspace, bind, better_assert. now rewrite (proj2 (Nat.ltb_ge 1 num)) by lia.
Qed.
Print Assumptions C73_linspace_one_aborts.

Module Case.

(** a 2 x 3 tensor next to another one: both lines have a non-zero variance *)
Definition t := mkT [2; 3] 1.
Definition h : list (list R) := [[7]; [1; 2; 3; 4; 6; 11]]%R.

Example meets : well_formed h t /\ shape t = [2] ++ 3 :: [] /\ prod (shape t) <> 0 /\ axis_is None (length (shape t)) (length [2]) /\
  (false = true \/ [2] ++ [] <> []) /\ line h t [1] [] 3 [4; 6; 11]%R /\ population_variance [4; 6; 11]%R = (26 / 3)%R.
Proof.
  split; [eexists; split; reflexivity|]. split; [reflexivity|]. split; [discriminate|]. split; [right; split; reflexivity|].
  split; [right; discriminate|]. split; [split; [reflexivity|]; intros [|[|[|k]]] Hk; [reflexivity|reflexivity|reflexivity|lia]|].
  unfold population_variance, squared_deviations, average. cbn [map total length INR]. field.
Qed.

Example variance_case : exists v h', variance true t None false h = Ok (v, h') /\ shape v = [2] /\
  nth_error h' 1 = Some [1; 2; 3; 4; 6; 11]%R /\ elem h' v [0] = Some (2 / 3)%R /\ elem h' v [1] = Some (26 / 3)%R.
Proof.
  destruct meets as (M1 & M2 & M3 & M4 & M5 & L1 & P1).
  destruct (C73_variance true t None false [2] 3 [] h M1 M2 M3 M4 M5) as (v & h' & E & Es & _ & _ & F & V).
  exists v, h'. split; [exact E|]. split; [exact Es|]. split; [apply F; cbn; lia|]. split.
  - assert (L0 : line h t [0] [] 3 [1; 2; 3]%R)
      by (split; [reflexivity|]; intros [|[|[|k]]] Hk; [reflexivity|reflexivity|reflexivity|lia]).
    pose proof (V [0] [] [1; 2; 3]%R ltac:(repeat constructor) ltac:(constructor) L0) as X. cbn [left_index app] in X. rewrite X. f_equal.
    unfold population_variance, squared_deviations, average. cbn [map total length INR]. field.
  - pose proof (V [1] [] [4; 6; 11]%R ltac:(repeat constructor) ltac:(constructor) L1) as X. cbn [left_index app] in X. rewrite X. now f_equal.
Qed.

(** var of the tensor 1, 3: 2 rather than 1; norm of 3, 4: 5/2 rather than 5; five numbers from 0 to 2 *)
Example var_case : (exists h', var true (mkT [2] 0) [[1; 3]%R] = Ok (2%R, h')) /\ population_variance [1; 3]%R = 1%R.
Proof.
  assert (P : population_variance [1; 3]%R = 1%R)
    by (unfold population_variance, squared_deviations, average; cbn [map total length INR]; field).
  split; [|exact P]. destruct (C73_var true (mkT [2] 0) [1; 3]%R [[1; 3]%R] eq_refl eq_refl ltac:(discriminate)) as (h' & E & _).
  exists h'. rewrite E, P. cbn [length INR]. f_equal. f_equal. ring.
Qed.

Example norm_case : norm true (mkT [2] 0) [[3; 4]%R] = Ok (5 / 2, [[3; 4]])%R /\ euclidean [3; 4]%R = 5%R.
Proof.
  assert (P : euclidean [3; 4]%R = 5%R).
  { unfold euclidean. cbn [map total]. replace (3 ^ 2 + (4 ^ 2 + 0))%R with (5 * 5)%R by ring. apply sqrt_square. lra. }
  split; [|exact P]. destruct (C73_norm true (mkT [2] 0) [3; 4]%R [[3; 4]%R] eq_refl ltac:(discriminate)) as [E _].
  rewrite E, P. cbn [length INR]. f_equal.
Qed.

Example linspace_case : exists t d, linspace true 0 2 5 true [] = Ok (t, [d]) /\ shape t = [5] /\ d = [0; 1 / 2; 1; 3 / 2; 2]%R.
Proof.
  unfold linspace, bind, better_assert. cbn [Nat.ltb Nat.leb Nat.eqb Nat.sub]. unfold alloc. cbn [app].
  eexists _, _. split; [reflexivity|]. split; [reflexivity|]. unfold tab. cbn [seq map INR].
  repeat (apply f_equal2; [field|]). reflexivity.
Qed.

End Case.
