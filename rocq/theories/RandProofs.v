(** Proofs about random tensors. *)
From Coq Require Import List Arith Bool PeanoNat NArith ZArith Reals Lia Lra.
From Flocq Require Import Core.Raux.
From Verif Require Import ListBase TensorModel RandModel RandSpec.
Import ListNotations.
Local Open Scope nat_scope.

Lemma numbers_S {T S} (next : S -> T * S) n s : numbers next (Datatypes.S n) s = fst (next s) :: numbers next n (snd (next s)).
Proof. unfold numbers. cbn [seq map after]. f_equal. rewrite <- seq_shift, map_map. reflexivity. Qed.

Lemma numbers_length {T S} (next : S -> T * S) n s : length (numbers next n s) = n.
Proof. unfold numbers. now rewrite map_length, seq_length. Qed.

Lemma generate_numbers {S} (next : S -> R * S) n : forall s, generate next n s = (numbers next n s, after next n s).
Proof.
  induction n as [|n IH]; intros s; [reflexivity|]. cbn [generate after]. rewrite numbers_S.
  destruct (next s) as [v s'] eqn:E. cbn [fst snd]. rewrite IH. reflexivity.
Qed.

Lemma after_add {T S} (next : S -> T * S) a b : forall s, after next (a + b) s = after next b (after next a s).
Proof. induction a as [|a IH]; intros s; [reflexivity|]. apply IH. Qed.

Lemma numbers_add {T S} (next : S -> T * S) a b : forall s, numbers next (a + b) s = numbers next a s ++ numbers next b (after next a s).
Proof. induction a as [|a IH]; intros s; [reflexivity|]. cbn [Nat.add after]. rewrite !numbers_S. cbn [app]. now rewrite IH. Qed.

Section Uniform.
Context {G : Type} (canonical : G -> R * G).

Lemma uniform_after lo hi n : forall g, after (uniform canonical lo hi) n g = after canonical n g.
Proof. induction n as [|n IH]; intros g; [reflexivity|]. cbn [after]. rewrite IH. unfold uniform. now destruct (canonical g). Qed.

Lemma uniform_numbers lo hi n : forall g, numbers (uniform canonical lo hi) n g = map (fun u => (lo + u * (hi - lo))%R) (numbers canonical n g).
Proof.
  induction n as [|n IH]; intros g; [reflexivity|]. rewrite !numbers_S. cbn [map].
  replace (snd (uniform canonical lo hi g)) with (snd (canonical g)) by (unfold uniform; now destruct (canonical g)).
  rewrite IH. f_equal. unfold uniform. destruct (canonical g). cbn [fst]. ring.
Qed.

Lemma random_ok shape lo hi g : (lo <= hi)%R ->
  random canonical shape lo hi g = Done ((shape, map (fun u => (lo + u * (hi - lo))%R) (numbers canonical (prod shape) g)), after canonical (prod shape) g).
Proof.
  intros H. unfold random. destruct (Rle_bool_spec lo hi) as [_|C]; [|lra].
  now rewrite generate_numbers, uniform_after, uniform_numbers.
Qed.

Lemma random_bad shape lo hi g : (hi < lo)%R -> random canonical shape lo hi g = Undefined.
Proof. intros H. unfold random. destruct (Rle_bool_spec lo hi) as [C|_]; [lra|reflexivity]. Qed.

Definition proper : Prop := forall g, (0 <= fst (canonical g) < 1)%R.

Lemma uniform_range lo hi l : (lo < hi)%R -> Forall (fun u => (0 <= u < 1)%R) l -> Forall (fun x => (lo <= x < hi)%R) (map (fun u => (lo + u * (hi - lo))%R) l).
Proof.
  intros L F. apply Forall_map. revert F. apply Forall_impl. intros u [H0 H1]. split.
  - assert (0 <= u * (hi - lo))%R by (apply Rmult_le_pos; lra). lra.
  - assert (u * (hi - lo) < 1 * (hi - lo))%R by (apply Rmult_lt_compat_r; lra). lra.
Qed.

Lemma numbers_proper n : proper -> forall g, Forall (fun u => (0 <= u < 1)%R) (numbers canonical n g).
Proof. intros P g. unfold numbers. apply Forall_map, Forall_forall. intros k _. apply P. Qed.

Lemma bound_pos d0 d1 : (0 < bound_of d0 d1)%R.
Proof.
  unfold bound_of. apply sqrt_lt_R0. apply Rdiv_lt_0_compat; [lra|]. pose proof (Rmax_l 1 (INR d0 + INR d1)). lra.
Qed.

Lemma bound_glorot d0 d1 : 1 <= d0 + d1 -> bound_of d0 d1 = glorot d0 d1.
Proof.
  intros H. unfold bound_of, glorot. rewrite plus_INR. rewrite Rmax_right; [reflexivity|]. rewrite <- plus_INR. change 1%R with (INR 1). now apply le_INR.
Qed.

Lemma glorot_ok d0 d1 rest g : 1 <= d0 + d1 ->
  glorot_uniform canonical (d0 :: d1 :: rest) g =
    Done ((d0 :: d1 :: rest, map (fun u => ((2 * u - 1) * glorot d0 d1)%R) (numbers canonical (prod (d0 :: d1 :: rest)) g)), after canonical (prod (d0 :: d1 :: rest)) g).
Proof.
  intros H. unfold glorot_uniform. pose proof (bound_pos d0 d1) as B. rewrite random_ok by lra. rewrite (bound_glorot _ _ H).
  do 3 f_equal. apply map_ext. intros u. ring.
Qed.

Lemma glorot_inside d0 d1 l : 1 <= d0 + d1 -> Forall (fun u => (0 <= u < 1)%R) l -> Forall (inside (glorot d0 d1)) (map (fun u => ((2 * u - 1) * glorot d0 d1)%R) l).
Proof.
  intros H F. pose proof (bound_pos d0 d1) as B. rewrite (bound_glorot _ _ H) in B. apply Forall_map. revert F. apply Forall_impl.
  intros u [H0 H1]. unfold inside. split; nra.
Qed.
End Uniform.

Section Truncated.
Context {G D : Type} (fresh : R -> R -> D) (normal : D -> G -> R * (D * G)).

Lemma accepted_bool lo hi x : Rle_bool lo x && Rle_bool x hi = accepted lo hi x.
Proof.
  unfold accepted. destruct (Rle_dec lo x), (Rle_dec x hi), (Rle_bool_spec lo x), (Rle_bool_spec x hi); try reflexivity; lra.
Qed.

(** one accepted number *)
Lemma until_sound lo hi fuel : forall s x s', until normal fuel lo hi s = Done (x, s') ->
  exists j, filter (accepted lo hi) (numbers (both normal) j s) = [] /\ fst (both normal (after (both normal) j s)) = x /\ accepted lo hi x = true /\
    s' = after (both normal) (S j) s.
Proof.
  induction fuel as [|fuel IH]; intros s x s' H; [discriminate|]. cbn [until] in H. unfold both in *.
  destruct (normal (fst s) (snd s)) as [y s1] eqn:E. rewrite accepted_bool in H. destruct (accepted lo hi y) eqn:A.
  - injection H as <- <-. exists 0. repeat split; [now cbn [after]; rewrite E|exact A|]. cbn [after]. now rewrite E.
  - destruct (IH _ _ _ H) as (j & N & X & A' & S'). exists (S j). cbn [after] in *. rewrite numbers_S, E. cbn [fst snd filter].
    rewrite A, N. repeat split; assumption.
Qed.

Lemma until_complete lo hi : forall j s fuel, accepted lo hi (fst (both normal (after (both normal) j s))) = true ->
  filter (accepted lo hi) (numbers (both normal) j s) = [] -> j < fuel ->
  until normal fuel lo hi s = Done (fst (both normal (after (both normal) j s)), after (both normal) (S j) s).
Proof.
  induction j as [|j IH]; intros s fuel A N L; (destruct fuel as [|fuel]; [lia|]); cbn [until].
  - cbn [after] in *. unfold both in *. destruct (normal (fst s) (snd s)) as [y s1] eqn:E. cbn [fst snd] in *. now rewrite accepted_bool, A.
  - rewrite numbers_S in N. cbn [after] in *. unfold both in *. destruct (normal (fst s) (snd s)) as [y s1] eqn:E. cbn [fst snd filter] in *.
    rewrite accepted_bool. destruct (accepted lo hi y) eqn:A'; [discriminate|]. apply IH; [exact A|exact N|lia].
Qed.

Definition count lo hi k s : nat := length (filter (accepted lo hi) (numbers (both normal) k s)).

Lemma count_mono lo hi a b s : a <= b -> count lo hi a s <= count lo hi b s.
Proof. intros H. unfold count. replace b with (a + (b - a)) by lia. rewrite numbers_add, filter_app, app_length. lia. Qed.

Lemma fill_sound lo hi fuel n : forall s l s', fill normal fuel lo hi n s = Done (l, s') ->
  exists k, l = filter (accepted lo hi) (numbers (both normal) k s) /\ length l = n /\ s' = after (both normal) k s /\
    forall j, j < k -> count lo hi j s < n.
Proof.
  induction n as [|n IH]; intros s l s' H; cbn [fill] in H.
  - injection H as <- <-. exists 0. repeat split. intros j Hj. lia.
  - destruct (until normal fuel lo hi s) as [[x s1]| |] eqn:U; cbn [rbind fst snd] in H; [|discriminate..].
    destruct (fill normal fuel lo hi n s1) as [[l1 s2]| |] eqn:F; cbn [rbind fst snd] in H; [|discriminate..].
    injection H as <- <-. destruct (until_sound _ _ _ _ _ _ U) as (j & N & X & A & S1). destruct (IH _ _ _ F) as (k & L & Ln & S2 & Mi).
    assert (FS : filter (accepted lo hi) (numbers (both normal) (S j) s) = [x]).
    { replace (S j) with (j + 1) by lia. rewrite numbers_add, filter_app, N. rewrite numbers_S. cbn [numbers seq map filter app]. rewrite X, A. reflexivity. }
    exists (S j + k). repeat split.
    + rewrite numbers_add, filter_app, FS. cbn [app]. now rewrite <- S1, L.
    + cbn [length]. now rewrite Ln.
    + rewrite after_add, <- S1. exact S2.
    + intros i Hi. destruct (Nat.le_gt_cases i j) as [C|C].
      * pose proof (count_mono lo hi i j s C) as M. unfold count in *. rewrite N in M. cbn [length] in M. lia.
      * specialize (Mi (i - S j) ltac:(lia)). unfold count in *. replace i with (S j + (i - S j)) by lia.
        rewrite numbers_add, filter_app, FS, <- S1. cbn [app length]. lia.
Qed.

Lemma first_accepted lo hi : forall k s, 1 <= count lo hi k s ->
  exists j, j < k /\ filter (accepted lo hi) (numbers (both normal) j s) = [] /\ accepted lo hi (fst (both normal (after (both normal) j s))) = true.
Proof.
  induction k as [|k IH]; intros s H; [unfold count in H; cbn in H; lia|].
  unfold count in H. rewrite numbers_S in H. cbn [filter] in H. destruct (accepted lo hi (fst (both normal s))) eqn:A.
  - exists 0. repeat split; [lia|exact A].
  - destruct (IH _ H) as (j & L & N & A'). exists (S j). rewrite numbers_S. cbn [filter after]. rewrite A. repeat split; [lia|assumption..].
Qed.

Lemma fill_complete lo hi fuel n : forall k s, n <= count lo hi k s -> k <= fuel -> exists r, fill normal fuel lo hi n s = Done r.
Proof.
  induction n as [|n IH]; intros k s H L; [eexists; reflexivity|].
  destruct (first_accepted lo hi k s ltac:(lia)) as (j & Lj & N & A).
  cbn [fill]. rewrite (until_complete lo hi j s fuel A N) by lia. cbn [rbind fst snd].
  assert (FS : filter (accepted lo hi) (numbers (both normal) (S j) s) = [fst (both normal (after (both normal) j s))]).
  { replace (S j) with (j + 1) by lia. rewrite numbers_add, filter_app, N. rewrite numbers_S. cbn [numbers seq map filter app]. rewrite A. reflexivity. }
  assert (C : n <= count lo hi (k - S j) (after (both normal) (S j) s)).
  { unfold count in *. replace k with (S j + (k - S j)) in H by lia. rewrite numbers_add, filter_app, app_length, FS in H. cbn [length] in H. lia. }
  destruct (IH _ _ C ltac:(lia)) as [r ->]. eexists. reflexivity.
Qed.

Lemma fill_never lo hi fuel n s : (forall k, count lo hi k s < n) -> fill normal fuel lo hi n s = Endless.
Proof.
  intros H. destruct (fill normal fuel lo hi n s) as [[l s']| |] eqn:F; [| |reflexivity].
  - destruct (fill_sound _ _ _ _ _ _ _ F) as (k & L & Ln & _). specialize (H k). unfold count in H. rewrite <- L in H. lia.
  - exfalso. clear H. revert s F. induction n as [|n IH]; intros s F; [discriminate|]. cbn [fill] in F.
    assert (U : until normal fuel lo hi s <> Undefined).
    { clear. revert s. induction fuel as [|fuel IH]; intros s; [discriminate|]. cbn [until]. destruct (normal (fst s) (snd s)) as [x s1].
      destruct (Rle_bool lo x && Rle_bool x hi); [discriminate|apply IH]. }
    destruct (until normal fuel lo hi s) as [[x s1]| |]; cbn [rbind] in F; [|congruence|discriminate].
    cbn [fst snd] in F. destruct (fill normal fuel lo hi n s1) as [[l s2]| |] eqn:E; cbn [rbind] in F; [discriminate|exact (IH _ E)|discriminate].
Qed.
End Truncated.

Section Poisson.
Context {G : Type} (poissonian : Z -> G -> Z * G).

Definition unfit (x : R) : Prop := (x < 1 \/ 9223372036854775808 <= x)%R.

Lemma trunc_fit x : ~ unfit x -> to_long x = Done (Zfloor x) /\ (0 < Zfloor x)%Z.
Proof.
  intros U. unfold unfit in U. assert (H : (1 <= x < 9223372036854775808)%R) by lra. clear U.
  assert (L : (1 <= Zfloor x)%Z) by (apply Zfloor_lub; lra).
  assert (M : (Zfloor x < 9223372036854775808)%Z) by (apply lt_IZR; pose proof (Zfloor_lb x); lra).
  unfold to_long. rewrite Ztrunc_floor by lra. split; [|lia].
  rewrite (proj2 (Z.leb_le (-9223372036854775808) (Zfloor x))) by lia. rewrite (proj2 (Z.leb_le (Zfloor x) 9223372036854775807)) by lia. reflexivity.
Qed.

Lemma trunc_unfit x : unfit x -> to_long x = Undefined \/ exists z, to_long x = Done z /\ (z <= 0)%Z.
Proof.
  intros U. unfold to_long. destruct (Z.leb (-9223372036854775808) (Ztrunc x) && Z.leb (Ztrunc x) 9223372036854775807) eqn:E; [|now left].
  right. eexists. split; [reflexivity|]. apply andb_prop in E. destruct E as [_ E]. apply Z.leb_le in E. destruct U as [U|U].
  - destruct (Rlt_le_dec x 0) as [N|P].
    + rewrite Ztrunc_ceil by lra. apply Zceil_glb. lra.
    + rewrite Ztrunc_floor by lra. enough (Zfloor x < 1)%Z by lia. apply lt_IZR. pose proof (Zfloor_lb x). lra.
  - exfalso. rewrite Ztrunc_floor in E by lra. assert (9223372036854775808 <= Zfloor x)%Z by (apply Zfloor_lub; exact U). lia.
Qed.

Lemma unfit_dec x : {unfit x} + {~ unfit x}.
Proof. unfold unfit. destruct (Rlt_le_dec x 1); [left; lra|]. destruct (Rlt_le_dec x 9223372036854775808); [right; lra|left; lra]. Qed.

Lemma poissons_cases l : forall g, (Exists unfit l /\ poissons poissonian l g = Undefined) \/
  (Forall (fun x => ~ unfit x) l /\ exists ks g', poissons poissonian l g = Done (ks, g') /\ counts poissonian l g ks g').
Proof.
  induction l as [|x l IH]; intros g.
  - right. split; [constructor|]. exists [], g. split; [reflexivity|constructor].
  - cbn [poissons]. destruct (unfit_dec x) as [U|U].
    + left. split; [now left|]. destruct (trunc_unfit x U) as [E|(z & E & L)]; rewrite E; cbn [rbind]; [reflexivity|].
      destruct (Z.ltb_spec 0 z); [lia|reflexivity].
    + destruct (trunc_fit x U) as [E P]. rewrite E. cbn [rbind]. rewrite (proj2 (Z.ltb_lt _ _) P).
      destruct (poissonian (Zfloor x) g) as [k g1] eqn:K. destruct (IH g1) as [[B Q]|[F (ks & g' & Q & C)]].
      * left. split; [now right|]. now rewrite Q.
      * right. split; [now constructor|]. rewrite Q. cbn [rbind fst snd]. exists (IZR k :: ks), g'. split; [reflexivity|].
        econstructor; [exact P| |exact K|exact C]. split; [apply Zfloor_lb|apply Zfloor_ub].
Qed.
End Poisson.
