(** Random tensors and initial weights. *)
From Coq Require Import List Arith Bool PeanoNat NArith ZArith Reals Lia Lra.
From Verif Require Import ListBase TensorModel RandModel RandSpec RandProofs NetModel NetSpec.
Import ListNotations.
Local Open Scope nat_scope.

(** ** C85: random_seed *)

(** tensor.hpp:24-30 promises that results are reproduced by assigning random_seed.  But no assignment has any effect: removing all of them
    changes nothing that a program sees, ... *)
Theorem C85_seed : forall {G D : Type} (engine : N -> G) canonical (fresh : R -> R -> D) normal poissonian fuel clock l,
  seen (performs canonical fresh normal poissonian fuel l (start engine clock)) =
  seen (performs canonical fresh normal poissonian fuel (filter (fun a => negb (assigns a)) l) (start engine clock)).
Proof.
  intros. generalize (start engine clock) as p. intros p.
  assert (X : forall p q, gen p = gen q -> seen (performs canonical fresh normal poissonian fuel l p) =
    seen (performs canonical fresh normal poissonian fuel (filter (fun a => negb (assigns a)) l) q)); [|now apply X].
  clear p. induction l as [|a l IH]; intros p q E; [reflexivity|].
  assert (T : forall r : result (array * G), seen (rbind (tell p r) (fun r => rbind (performs canonical fresh normal poissonian fuel l (snd r)) (fun r' => Done (fst r ++ fst r', snd r')))) =
    seen (rbind (tell q r) (fun r => rbind (performs canonical fresh normal poissonian fuel (filter (fun a => negb (assigns a)) l) (snd r)) (fun r' => Done (fst r ++ fst r', snd r'))))).
  { intros [[v g]| |]; try reflexivity. unfold tell. cbn [rbind fst snd]. specialize (IH (Process (seed p) g) (Process (seed q) g) eq_refl).
    destruct (performs _ _ _ _ _ l _) as [[o1 p1]| |], (performs _ _ _ _ _ (filter _ l) _) as [[o2 p2]| |]; cbn [rbind fst snd seen] in *; try discriminate IH; try reflexivity.
    unfold seen in *. cbn [rbind fst] in *. congruence. }
  destruct a; cbn [filter assigns negb performs perform]; try (rewrite E; apply T).
  cbn [rbind fst snd]. rewrite <- (IH (Process z (gen p)) q E). destruct (performs _ _ _ _ _ l _) as [[o1 p1]| |]; reflexivity.
Qed.
Print Assumptions C85_seed.

(** ... so that after random_seed = z two runs of a program show different numbers, whenever the generators that the two clocks seeded do. *)
Theorem C85_seed_refuted : forall {G D : Type} (engine : N -> G) canonical (fresh : R -> R -> D) normal poissonian fuel z clock clock',
  fst (canonical (engine clock)) <> fst (canonical (engine clock')) ->
  seen (performs canonical fresh normal poissonian fuel [Seed z; Random [1] 0 1] (start engine clock)) <>
  seen (performs canonical fresh normal poissonian fuel [Seed z; Random [1] 0 1] (start engine clock')).
Proof.
  intros G D engine canonical fresh normal poissonian fuel z c c' H E. apply H. unfold start in E.
  cbn [performs perform rbind fst snd gen tell] in E. rewrite !random_ok in E by lra. unfold tell in E. cbn [rbind fst snd app seen] in E.
  unfold seen in E. cbn [rbind fst snd app] in E. unfold numbers in E. cbn in E. injection E as E. lra.
Qed.
Print Assumptions C85_seed_refuted.

(** ** C85: uniform numbers *)
Theorem C85_random : forall {G : Type} (canonical : G -> R * G) shape min max g,
  ((max < min)%R -> random canonical shape min max g = Undefined) /\
  ((min <= max)%R -> exists l,
    random canonical shape min max g = Done ((shape, l), after canonical (prod shape) g) /\
    l = map (fun u => (min + u * (max - min))%R) (numbers canonical (prod shape) g) /\ length l = prod shape /\
    ((forall g, (0 <= fst (canonical g) < 1)%R) -> (min < max)%R -> Forall (fun x => (min <= x < max)%R) l)).
Proof.
  intros G canonical shape min max g. split; [apply random_bad|]. intros L. eexists. split; [now apply random_ok|]. split; [reflexivity|]. split.
  - now rewrite map_length, numbers_length.
  - intros P L'. apply uniform_range; [exact L'|]. now apply numbers_proper.
Qed.
Print Assumptions C85_random.

(** ** C85: normal numbers: the first of a new distribution object *)
Theorem C85_randn : forall {G D : Type} (fresh : R -> R -> D) (normal : D -> G -> R * (D * G)) shape mean stddev g,
  ((stddev <= 0)%R -> randn fresh normal shape mean stddev g = Undefined) /\
  ((0 < stddev)%R -> randn fresh normal shape mean stddev g =
     Done ((shape, numbers (both normal) (prod shape) (fresh mean stddev, g)), snd (after (both normal) (prod shape) (fresh mean stddev, g)))).
Proof.
  intros. unfold randn. split; intros H; destruct (Raux.Rlt_bool_spec 0 stddev) as [C|C]; try lra; [reflexivity|].
  now rewrite (generate_numbers (both normal)).
Qed.
Print Assumptions C85_randn.

(** ** C85: truncated numbers *)

(** a result has the first numbers between the limits, and the generator stands behind the last of them; there is a result, with enough fuel,
    exactly if there are enough such numbers *)
Theorem C85_truncated : forall {G D : Type} (fresh : R -> R -> D) (normal : D -> G -> R * (D * G)) shape mean stddev lower upper g,
  (0 < stddev)%R ->
  let start := (fresh mean stddev, g) in
  let between k := filter (accepted lower upper) (numbers (both normal) k start) in
  (forall fuel s l g', truncated_normal fresh normal fuel shape mean stddev lower upper g = Done ((s, l), g') ->
     s = shape /\ length l = prod shape /\ Forall (fun x => (lower <= x <= upper)%R) l /\
     exists k, l = between k /\ g' = snd (after (both normal) k start) /\ forall j, j < k -> length (between j) < prod shape) /\
  (forall k, prod shape <= length (between k) ->
     exists r, forall fuel, k <= fuel -> truncated_normal fresh normal fuel shape mean stddev lower upper g = Done r) /\
  ((forall k, length (between k) < prod shape) -> forall fuel, truncated_normal fresh normal fuel shape mean stddev lower upper g = Endless).
Proof.
  intros G D fresh normal shape mean stddev lower upper g SD start between. unfold truncated_normal.
  destruct (Raux.Rlt_bool_spec 0 stddev) as [_|C]; [|lra].
  assert (SO : forall fuel s l g', rbind (fill normal fuel lower upper (prod shape) (fresh mean stddev, g)) (fun ls => Done ((shape, fst ls), snd (snd ls))) = Done ((s, l), g') ->
     s = shape /\ length l = prod shape /\ Forall (fun x => (lower <= x <= upper)%R) l /\
     exists k, l = between k /\ g' = snd (after (both normal) k start) /\ forall j, j < k -> length (between j) < prod shape).
  { intros fuel s l g' H. destruct (fill normal fuel lower upper (prod shape) (fresh mean stddev, g)) as [[l1 s1]| |] eqn:F; cbn [rbind fst snd] in H; [|discriminate..].
    injection H as <- <- <-. destruct (fill_sound _ _ _ _ _ _ _ _ F) as (k & L & Ln & S1 & Mi). split; [reflexivity|]. split; [exact Ln|]. split.
    - rewrite L. apply Forall_forall. intros x Hx. apply filter_In in Hx. destruct Hx as [_ A]. unfold accepted in A.
      destruct (Rle_dec lower x), (Rle_dec x upper); try discriminate. lra.
    - exists k. split; [exact L|]. split; [now rewrite S1|exact Mi]. }
  split; [exact SO|]. split.
  - intros k H. destruct (fill_complete normal lower upper k (prod shape) k start H (le_n k)) as [r0 E0].
    destruct (rbind (fill normal k lower upper (prod shape) (fresh mean stddev, g)) (fun ls => Done ((shape, fst ls), snd (snd ls)))) as [[[s0 l0] g0]| |] eqn:R0.
    2,3: unfold start in E0; rewrite E0 in R0; discriminate.
    destruct (SO _ _ _ _ R0) as (_ & Ln0 & _ & k0 & L0 & G0 & M0).
    exists ((shape, l0), g0). intros fuel Hf. destruct (fill_complete normal lower upper fuel (prod shape) k start H Hf) as [[l1 s1] E1].
    unfold start in E1. rewrite E1. cbn [rbind fst snd].
    destruct (SO fuel shape l1 (snd s1)) as (_ & Ln1 & _ & k1 & L1 & G1 & M1); [now rewrite E1|].
    assert (k0 = k1); [|subst k1; now rewrite L0, L1, G0, G1].
    destruct (Nat.lt_trichotomy k0 k1) as [T|[T|T]]; [|exact T|].
    + specialize (M1 _ T). rewrite <- L0 in M1. lia.
    + specialize (M0 _ T). rewrite <- L1 in M0. lia.
  - intros H fuel. change (rbind (fill normal fuel lower upper (prod shape) start) (fun ls => Done ((shape, fst ls), snd (snd ls))) = Endless).
    rewrite (fill_never normal lower upper fuel (prod shape) start H). reflexivity.
Qed.
Print Assumptions C85_truncated.

(** ** C85: Poisson numbers *)

(** the mean is the element rounded down; an element below 1, such as 0.5, or of 2^63 and more makes undefined behaviour *)
Theorem C85_poisson : forall {G : Type} (poissonian : Z -> G -> Z * G) s l g,
  (poisson poissonian (s, l) g = Undefined <-> Exists (fun x => (x < 1 \/ 9223372036854775808 <= x)%R) l) /\
  (Forall (fun x => (1 <= x < 9223372036854775808)%R) l ->
     exists ks g', poisson poissonian (s, l) g = Done ((s, ks), g') /\ counts poissonian l g ks g').
Proof.
  intros G poissonian s l g. unfold poisson. cbn [fst snd]. destruct (poissons_cases poissonian l g) as [[B E]|[F (ks & g' & E & C)]]; rewrite E; cbn [rbind fst snd].
  - split; [split; intros _; [exact B|reflexivity]|]. intros F. exfalso. rewrite Exists_exists in B. destruct B as (x & I & U). rewrite Forall_forall in F.
    specialize (F x I). unfold unfit in U. lra.
  - split; [split; [discriminate|]|].
    + intros B. exfalso. rewrite Exists_exists in B. destruct B as (x & I & U). rewrite Forall_forall in F. exact (F x I U).
    + intros _. exists ks, g'. split; [reflexivity|exact C].
Qed.
Print Assumptions C85_poisson.

(** ** C85: Glorot's initial values *)

(** a kernel is filled with numbers inside the bound made of its first two extents; a shape of fewer than two is undefined behaviour *)
Theorem C85_glorot : forall {G : Type} (canonical : G -> R * G) g,
  (forall shape, glorot_uniform canonical shape g = Undefined <-> length shape < 2) /\
  (forall a b rest, 1 <= a + b -> (forall g, (0 <= fst (canonical g) < 1)%R) ->
     exists l, glorot_uniform canonical (a :: b :: rest) g = Done ((a :: b :: rest, l), after canonical (prod (a :: b :: rest)) g) /\
       length l = prod (a :: b :: rest) /\ Forall (inside (glorot a b)) l).
Proof.
  intros G canonical g. split.
  - intros [|a [|b rest]]; cbn [glorot_uniform length]; [split; [intros _; lia|reflexivity]..|]. split; [|lia]. intros H. exfalso.
    pose proof (bound_pos a b) as B. rewrite random_ok in H by lra. discriminate.
  - intros a b rest H P. eexists. split; [now apply glorot_ok|]. split; [now rewrite map_length, numbers_length|].
    apply glorot_inside; [exact H|]. now apply numbers_proper.
Qed.
Print Assumptions C85_glorot.

Lemma glorot_lt a b c d : 1 <= a + b -> a + b < c + d -> (glorot c d < glorot a b)%R.
Proof.
  intros H L. unfold glorot. apply sqrt_lt_1_alt.
  assert (P : (1 <= INR (a + b))%R) by (change 1%R with (INR 1); now apply le_INR). apply lt_INR in L. split.
  - apply Rlt_le, Rdiv_lt_0_compat; lra.
  - apply Rmult_lt_compat_l; [lra|]. apply Rinv_lt_contravar; [|exact L]. apply Rmult_lt_0_compat; lra.
Qed.

(** For a dense layer these are its inputs and outputs (above, with a and b).  For a convolution they are not: the bound is Glorot's only for a
    kernel of one pixel on one channel; otherwise there are initial values beyond Glorot's bound. *)
Theorem C85_convolution_refuted : forall {G : Type} (canonical : G -> R * G) g out kx ky ch,
  1 <= out -> 1 <= kx -> 1 <= ky -> 1 <= ch ->
  let fan_in := kx * ky * ch in
  let fan_out := kx * ky * out in
  (glorot out kx = glorot fan_in fan_out <-> kx = 1 /\ ky = 1 /\ ch = 1) /\
  (~ (kx = 1 /\ ky = 1 /\ ch = 1) -> (glorot fan_in fan_out < glorot out kx)%R /\
     (fst (canonical g) = 0%R -> exists x l g', glorot_uniform canonical [out; kx; ky; ch] g = Done (([out; kx; ky; ch], x :: l), g') /\ ~ inside (glorot fan_in fan_out) x)).
Proof.
  intros G canonical g out kx ky ch H1 H2 H3 H4 fan_in fan_out.
  assert (L : ~ (kx = 1 /\ ky = 1 /\ ch = 1) -> out + kx < fan_in + fan_out).
  { intros N. unfold fan_in, fan_out. assert (Q : kx <= kx * ky) by nia. remember (kx * ky) as q eqn:Eq.
    assert (A : q <= q * ch) by nia. assert (B : out <= q * out) by nia.
    destruct (Nat.eq_dec q 1) as [->|Nq].
    - assert (kx = 1 /\ ky = 1) by nia. lia.
    - assert (2 * out <= q * out) by (apply Nat.mul_le_mono_r; lia). lia. }
  assert (LT : ~ (kx = 1 /\ ky = 1 /\ ch = 1) -> (glorot fan_in fan_out < glorot out kx)%R) by (intros N; apply glorot_lt; [lia|auto]).
  split; [split|].
  - intros E. destruct (Nat.eq_dec kx 1), (Nat.eq_dec ky 1), (Nat.eq_dec ch 1); try (split; [assumption|split; assumption]); exfalso; assert (N : ~ (kx = 1 /\ ky = 1 /\ ch = 1)) by tauto; specialize (LT N); lra.
  - intros (-> & -> & ->). unfold glorot, fan_in, fan_out. do 3 f_equal. lia.
  - intros N. split; [auto|]. intros Z. rewrite glorot_ok by lia.
    assert (P : exists n, prod [out; kx; ky; ch] = S n) by (exists (pred (prod [out; kx; ky; ch])); cbn [prod fold_right]; nia).
    destruct P as [n P]. rewrite P, numbers_S, Z. cbn [map]. eexists _, _, _. split; [reflexivity|]. unfold inside. specialize (LT N). lra.
Qed.
Print Assumptions C85_convolution_refuted.

(** ** C85: the variables of a network *)
Lemma initial_ok {G} (canonical : G -> R * G) (P : forall g, (0 <= fst (canonical g) < 1)%R) (a b : nat) rest bs ps g : 1 <= a + b ->
  (exists vs g', initial canonical ps (after canonical (prod (a :: b :: rest)) g) = Done (vs, g') /\ map fst vs = ps /\
     g' = after canonical (kernels ps) (after canonical (prod (a :: b :: rest)) g) /\
     forall k s l, nth_error vs k = Some (s, l) -> length l = prod s /\ (if Nat.even k then exists a b rest, s = a :: b :: rest /\ Forall (inside (glorot a b)) l else Forall (eq 0%R) l)) ->
  exists vs g', initial canonical ((a :: b :: rest) :: bs :: ps) g = Done (vs, g') /\ map fst vs = (a :: b :: rest) :: bs :: ps /\
     g' = after canonical (kernels ((a :: b :: rest) :: bs :: ps)) g /\
     forall k s l, nth_error vs k = Some (s, l) -> length l = prod s /\ (if Nat.even k then exists a b rest, s = a :: b :: rest /\ Forall (inside (glorot a b)) l else Forall (eq 0%R) l).
Proof.
  intros H (vs & g' & E & M & A & V). remember (a :: b :: rest) as w eqn:W. cbn [initial]. rewrite W, glorot_ok, <- W by exact H. cbn [rbind fst snd]. rewrite E. cbn [rbind fst snd].
  eexists _, _. split; [reflexivity|]. cbn [map fst]. rewrite M. split; [reflexivity|]. split; [cbn [kernels]; now rewrite after_add|].
  intros [|[|k]] s l N; cbn [nth_error] in N.
  - injection N as <- <-. split; [now rewrite map_length, numbers_length|]. cbn. exists a, b, rest. split; [exact W|].
    apply glorot_inside; [exact H|]. now apply numbers_proper.
  - injection N as <- <-. split; [apply repeat_length|]. cbn. apply Forall_forall. intros x Hx. apply repeat_spec in Hx. now symmetry.
  - exact (V k s l N).
Qed.

(** every variable of a network gets as many elements as its shape says: a kernel numbers inside the bound of its first two extents, a bias zeros;
    the generator gives one number to every element of a kernel *)
Theorem C85_initial : forall {G : Type} (canonical : G -> R * G) g m ts p ts' ps,
  (forall g, (0 <= fst (canonical g) < 1)%R) -> well_formed m ts p ts' ps ->
  exists vs g', initial canonical ps g = Done (vs, g') /\ map fst vs = ps /\ g' = after canonical (kernels ps) g /\
    forall k s l, nth_error vs k = Some (s, l) -> length l = prod s /\
      (if Nat.even k then exists a b rest, s = a :: b :: rest /\ Forall (inside (glorot a b)) l else Forall (eq 0%R) l).
Proof.
  intros G canonical g m ts p ts' ps P W. revert g. induction W as [ts|ts l i t t' ps1 p ts' ps2 I M Wi W IH|ts l i j a b t p ts' ps I J Q Wi W IH]; intros g.
  - exists [], g. repeat split; destruct k; discriminate.
  - assert (OUT : forall out, Forall (fun n => 1 <= n) [out] -> 1 <= out) by (intros ? F; now inversion F).
    assert (CV : forall out kx ky pd sx sy dx dy s s', convolves m out kx ky pd sx sy dx dy s s' -> 1 <= out).
    { intros until s'. intros (? & ? & ? & ? & ? & ? & _ & _ & _ & _ & _ & _ & O & _). exact O. }
    destruct M; cbn [app]; try apply IH; (apply initial_ok; [exact P| |apply IH]).
    + destruct Wi as (_ & F & _). specialize (OUT _ F). lia.
    + specialize (CV _ _ _ _ _ _ _ _ _ _ H). lia.
    + specialize (CV _ _ _ _ _ _ _ _ _ _ H). lia.
    + specialize (CV _ _ _ _ _ _ _ _ _ _ H2). lia.
  - apply IH.
Qed.
Print Assumptions C85_initial.

(** ** A case: a generator that counts modulo four *)
Module Case.
Definition quarter (g : nat) : R * nat := ((INR (g mod 4) / 4)%R, S g).
Definition engine (z : N) : nat := N.to_nat z.
Definition plain (_ _ : R) : unit := tt.
Definition half (d : unit) (g : nat) : R * (unit * nat) := ((INR (g mod 4) - 1)%R, (tt, S g)).
Definition same (z : Z) (g : nat) : Z * nat := (z, S g).

Lemma quarter_proper g : (0 <= fst (quarter g) < 1)%R.
Proof.
  unfold quarter. cbn [fst]. assert (L : g mod 4 < 4) by (apply Nat.mod_upper_bound; lia). apply lt_INR in L. pose proof (pos_INR (g mod 4)).
  change (INR 4) with (1 + 1 + 1 + 1)%R in L. lra.
Qed.

(** random_seed = 42, then the clock decides *)
Example C85_seed_case :
  seen (performs quarter plain half same 9 [Seed 42; Random [1] 0 1] (start engine 1)) <> seen (performs quarter plain half same 9 [Seed 42; Random [1] 0 1] (start engine 2)).
Proof. apply C85_seed_refuted. intros E. change (INR 1 / 4 = INR 2 / 4)%R in E. cbn [INR] in E. lra. Qed.

(** of the numbers -1 0 1 2 -1 0 ... those between 0 and 1: 0 1 0, with six numbers taken *)
Ltac decide_it := unfold accepted; repeat (match goal with |- context [Rle_dec ?a ?b] => destruct (Rle_dec a b) end); cbn [INR] in *; first [reflexivity|exfalso; lra].
Lemma taken : forall j, j <= 6 -> filter (accepted 0 1) (numbers (both half) j (plain 0 1, 0)) = firstn (nth j [0; 0; 1; 2; 2; 2; 3] 0) [INR 1 - 1; INR 2 - 1; INR 1 - 1]%R.
Proof.
  assert (A0 : accepted 0 1 (INR 0 - 1) = false) by decide_it.
  assert (A1 : accepted 0 1 (INR 1 - 1) = true) by decide_it.
  assert (A2 : accepted 0 1 (INR 2 - 1) = true) by decide_it.
  assert (A3 : accepted 0 1 (INR 3 - 1) = false) by decide_it.
  intros j Hj. do 7 (destruct j as [|j]; [unfold numbers, both, half; cbn -[accepted INR]; rewrite ?A0, ?A1, ?A2, ?A3; reflexivity|]). lia.
Qed.

Example C85_truncated_case : exists fuel, truncated_normal plain half fuel [3] 0 1 0 1 0 = Done (([3], [0; 1; 0]%R), 6).
Proof.
  destruct (C85_truncated plain half [3] 0 1 0 1 0 ltac:(lra)) as (S & C & _).
  destruct (C 6) as [[[s l] g'] E]; [rewrite taken by lia; cbn; lia|]. exists 6. rewrite (E 6 (le_n 6)).
  destruct (S 6 s l g' (E 6 (le_n 6))) as (-> & Ln & _ & k & L & G' & Mi).
  assert (k = 6).
  { destruct (Nat.lt_trichotomy k 6) as [T|[T|T]]; [|exact T|].
    - rewrite (taken k) in L by lia. subst l. exfalso. do 6 (destruct k as [|k]; [cbn in Ln; lia|]). lia.
    - specialize (Mi 6 T). rewrite taken in Mi by lia. cbn in Mi. lia. }
  subst k. rewrite taken in L by lia. rewrite L, G'. cbn -[INR]. repeat f_equal; cbn; lra.
Qed.

(** limits in the wrong order: the loop does not end *)
Example C85_truncated_endless : forall fuel, truncated_normal plain half fuel [3] 0 1 1 0 0 = Endless.
Proof.
  destruct (C85_truncated plain half [3] 0 1 1 0 0 ltac:(lra)) as (_ & _ & E). apply E. intros k.
  assert (F : forall l, filter (accepted 1 0) l = []).
  { induction l as [|x l IH]; [reflexivity|]. cbn [filter]. unfold accepted at 1. destruct (Rle_dec 1 x), (Rle_dec x 0); try exact IH. lra. }
  rewrite F. cbn. lia.
Qed.

(** an element of 0.5 *)
Example C85_poisson_case : poisson same ([2], [3; 1/2]%R) 0 = Undefined.
Proof. apply C85_poisson. right. left. left. lra. Qed.

(** 3 x 3 kernels from 2 to 8 channels: numbers up to sqrt(6/11), where Glorot's bound is sqrt(6/90) *)
Example C85_convolution_case : exists x l g', glorot_uniform quarter [8; 3; 3; 2] 0 = Done (([8; 3; 3; 2], x :: l), g') /\ ~ inside (glorot 18 72) x.
Proof. apply (C85_convolution_refuted quarter 0 8 3 3 2); [lia..|]. unfold quarter. cbn. lra. Qed.

(** two dense layers, of 2 and 3 units *)
Example C85_initial_case : exists vs g', initial quarter [[4; 2]; [1; 2]; [2; 3]; [1; 3]] 0 = Done (vs, g') /\ g' = 14.
Proof.
  destruct (C85_initial quarter 0 100 [[4]] [Apply1 (Dense 2) 0; Apply1 (Dense 3) 1] [[4]; [2]; [3]] [[4; 2]; [1; 2]; [2; 3]; [1; 3]]) as (vs & g' & E & _ & A & _).
  - apply quarter_proper.
  - assert (W : forall n, 1 <= n <= 100 -> NetSpec.within 100 [n]) by (intros n Hn; split; [discriminate|]; split; [constructor; [lia|constructor]|cbn; lia]).
    apply (wf_one 100 [[4]] (Dense 2) 0 [4] [2] [[4; 2]; [1; 2]]); [reflexivity|constructor|apply W; lia|].
    apply (wf_one 100 [[4]; [2]] (Dense 3) 1 [2] [3] [[2; 3]; [1; 3]] [] _ []); [reflexivity|constructor|apply W; lia|constructor].
  - exists vs, g'. split; [exact E|]. rewrite A. reflexivity.
Qed.
End Case.
