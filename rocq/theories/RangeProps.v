(** C94: loops over range, enumerate and reverse. *)
From Coq Require Import List Arith Lia Bool PeanoNat ZArith.
From Verif Require Import ListBase TensorModel RangeModel RangeSpec RangeProofs.
Import ListNotations.

(** A loop over range( first, last, f, equal ) ends exactly if some of first, f first, f (f first), ... equals last, and its body is then run
    for those before the first that does, in order. *)
Theorem C94_range : forall (V S : Type) (f : V -> V) (equal : V -> V -> bool) (body : V -> S -> S) first last s s',
  (exists fuel, run (fun v => Ok (f v)) equal fuel body first last s = Some (Ok s')) <->
  (exists k, equal (Nat.iter k f first) last = true /\ (forall j, j < k -> equal (Nat.iter j f first) last = false) /\
     s' = for_values k (fun i => Nat.iter i f first) body s).
Proof.
  intros V S f equal body first last s s'. split.
  - intros [fuel E]. revert first s E. induction fuel as [|fuel IH]; intros first s E; cbn [run] in E; destruct (equal first last) eqn:Q.
    1,3: injection E as <-; exists 0; split; [exact Q|split; [intros; lia|reflexivity]].
    + discriminate.
    + unfold next in E. destruct (IH _ _ E) as (k & E1 & E2 & E3). exists (Datatypes.S k). split; [|split].
      * rewrite <- iter_comm. exact E1.
      * intros j Hj. destruct j as [|j]; [exact Q|]. rewrite <- iter_comm. apply E2. lia.
      * rewrite for_values_S. rewrite E3. apply for_values_ext. intros i. apply iter_comm.
  - intros (k & E1 & E2 & ->). exists (k + 0).
    rewrite (run_count (fun v => Ok (f v)) equal body last k (fun i => Nat.iter i f first)).
    + cbn [run]. now rewrite E1.
    + intros i Hi. split; [now apply E2|reflexivity].
Qed.
Print Assumptions C94_range.

(** it + n, n + it and it += n are n steps *)
Theorem C94_advance : forall (V : Type) (f : V -> V) n v, advance (fun v => Ok (f v)) n v = Ok (Nat.iter n f v).
Proof.
  intros V f n. induction n as [|n IH]; intros v; [reflexivity|]. cbn [advance next obind]. rewrite IH. f_equal. apply iter_comm.
Qed.
Print Assumptions C94_advance.

(** ints, in steps of d (range( first, last ) is d = 1): if the steps hit last exactly, first, first + d, ..., last - d are visited, in
    order; otherwise, also if last is below first, the loop runs past last until the int overflows. *)
Theorem C94_range_int : forall (S : Type) (body : Z -> S -> S) (d first last : Z) s,
  (0 < d)%Z -> (int_min <= first <= int_max)%Z -> (int_min <= last <= int_max)%Z ->
  ((first <= last)%Z /\ (d | last - first)%Z ->
    exists fuel, run (int_step d) Z.eqb fuel body first last s =
      Some (Ok (for_values (Z.to_nat ((last - first) / d)) (fun i => first + d * Z.of_nat i)%Z body s))) /\
  (~ ((first <= last)%Z /\ (d | last - first)%Z) -> exists fuel, run (int_step d) Z.eqb fuel body first last s = Some UB).
Proof.
  intros S body d first last s D F L. split.
  - intros [Le [q Q]]. assert (Hq : ((last - first) / d = q)%Z) by (rewrite Q; apply Z.div_mul; lia). rewrite Hq.
    assert (Pq : (0 <= q)%Z) by nia.
    exists (Z.to_nat q + 0).
    pose proof (run_count (int_step d) Z.eqb body last (Z.to_nat q) (fun i => first + d * Z.of_nat i)%Z 0 s) as R.
    cbv beta in R. replace (first + d * Z.of_nat 0)%Z with first in R by lia. rewrite R.
    + cbn [run]. replace (first + d * Z.of_nat (Z.to_nat q) =? last)%Z with true; [reflexivity|].
      symmetry. apply Z.eqb_eq. rewrite Z2Nat.id by assumption. lia.
    + intros i Hi. assert (Hi' : (Z.of_nat i + 1 <= q)%Z) by lia.
      assert (M : (d * (Z.of_nat i + 1) <= d * q)%Z) by (apply Z.mul_le_mono_nonneg_l; lia).
      assert (P : (0 <= d * Z.of_nat i)%Z) by (apply Z.mul_nonneg_nonneg; lia). split.
      * apply Z.eqb_neq. lia.
      * unfold int_step. replace (first + d * Z.of_nat (Datatypes.S i))%Z with (first + d * Z.of_nat i + d)%Z by lia.
        replace (first + d * Z.of_nat i + d <=? int_max)%Z with true by (symmetry; apply Z.leb_le; lia).
        replace (int_min <=? first + d * Z.of_nat i + d)%Z with true by (symmetry; apply Z.leb_le; lia). reflexivity.
  - intros N. assert (Never : forall i, (first + d * Z.of_nat i =? last)%Z = false).
    { intros i. apply Z.eqb_neq. intros E. apply N. split.
      - assert (0 <= d * Z.of_nat i)%Z by (apply Z.mul_nonneg_nonneg; lia). lia.
      - exists (Z.of_nat i). lia. }
    pose (k := ((int_max - first) / d)%Z).
    assert (Pk : (0 <= k)%Z) by (apply Z.div_pos; lia).
    assert (K1 : (d * k <= int_max - first)%Z) by (apply Z.mul_div_le; lia).
    assert (K2 : (int_max - first < d * (k + 1))%Z) by (pose proof (Z.mul_succ_div_gt (int_max - first) d D); fold k in H; lia).
    clearbody k. exists (Z.to_nat k + 1).
    pose proof (run_count (int_step d) Z.eqb body last (Z.to_nat k) (fun i => first + d * Z.of_nat i)%Z 1 s) as R.
    cbv beta in R. replace (first + d * Z.of_nat 0)%Z with first in R by lia. rewrite R; clear R.
    + cbn [run]. rewrite Never. unfold next, int_step. rewrite Z2Nat.id by assumption.
      replace (first + d * k + d <=? int_max)%Z with false by (symmetry; apply Z.leb_gt; lia). reflexivity.
    + intros i Hi. split; [apply Never|]. assert (Hi' : (Z.of_nat i + 1 <= k)%Z) by lia.
      assert (M : (d * (Z.of_nat i + 1) <= d * k)%Z) by (apply Z.mul_le_mono_nonneg_l; lia).
      assert (P : (0 <= d * Z.of_nat i)%Z) by (apply Z.mul_nonneg_nonneg; lia).
      unfold int_step. replace (first + d * Z.of_nat (Datatypes.S i))%Z with (first + d * Z.of_nat i + d)%Z by lia.
      replace (first + d * Z.of_nat i + d <=? int_max)%Z with true by (symmetry; apply Z.leb_le; lia).
      replace (int_min <=? first + d * Z.of_nat i + d)%Z with true by (symmetry; apply Z.leb_le; lia). reflexivity.
Qed.
Print Assumptions C94_range_int.

(** unsigned longs: as many values as the difference says, which wraps around if last is below first *)
Theorem C94_range_word : forall (S : Type) (body : Z -> S -> S) (first last : Z) s,
  (0 <= first < 2 ^ 64)%Z -> (0 <= last < 2 ^ 64)%Z ->
  exists fuel, run word_step Z.eqb fuel body first last s =
    Some (Ok (for_values (Z.to_nat ((last - first) mod 2 ^ 64)) (fun i => (first + Z.of_nat i) mod 2 ^ 64)%Z body s)).
Proof.
  intros S body first last s F L. set (w := (2 ^ 64)%Z) in *. assert (W : (0 < w)%Z) by (unfold w; lia).
  assert (ws : forall x, word_step x = Ok ((x + 1) mod w)%Z) by reflexivity. clearbody w.
  set (k := ((last - first) mod w)%Z). assert (Pk : (0 <= k < w)%Z) by (apply Z.mod_pos_bound; lia).
  assert (Lk : ((first + k) mod w = last)%Z).
  { unfold k. rewrite Zplus_mod_idemp_r. replace (first + (last - first))%Z with last by lia. now apply Z.mod_small. }
  clearbody k. exists (Z.to_nat k + 0).
  pose proof (run_count word_step Z.eqb body last (Z.to_nat k) (fun i => (first + Z.of_nat i) mod w)%Z 0 s) as R.
  cbv beta in R. replace ((first + Z.of_nat 0) mod w)%Z with first in R by (rewrite Z.add_0_r; symmetry; now apply Z.mod_small). rewrite R; clear R.
  - cbn [run]. rewrite Z2Nat.id by lia. rewrite Lk, Z.eqb_refl. reflexivity.
  - intros i Hi. split.
    + apply Z.eqb_neq. intros E.
      assert (Z0 : ((k - Z.of_nat i) mod w = 0)%Z).
      { replace (k - Z.of_nat i)%Z with ((first + k) - (first + Z.of_nat i))%Z by lia. rewrite Zminus_mod, E, Lk, Z.sub_diag. apply Z.mod_0_l. lia. }
      rewrite Z.mod_small in Z0 by lia. lia.
    + rewrite ws. rewrite Zplus_mod_idemp_l. f_equal. f_equal. lia.
Qed.
Print Assumptions C94_range_word.

(** for ( auto [i, e] : enumerate( c ) ): the body is run once for every element c had at the start, in order and with its position,
    whatever the body does to c. *)
Theorem C94_enumerate : forall (A S : Type) (body : nat -> A -> list A * S -> A * (list A * S)) (c : list A) (s : S),
  enumerate body c s = Ok (fold_left (fun st p => snd (body (fst p) (snd p) st)) (numbered c) (c, s)).
Proof.
  intros A S body c s. unfold enumerate. destruct (enumerate_steps body c [] (c, s)) as [held E]. cbn [app length] in E. rewrite E. reflexivity.
Qed.
Print Assumptions C94_enumerate.

(** but the references the body is given are not to c: whatever is written through them, c stays *)
Theorem C94_enumerate_writes_refuted : forall (A S : Type) (body : nat -> A -> list A * S -> A * (list A * S)) (c : list A) (s : S),
  (forall i e st, fst (snd (body i e st)) = fst st) -> exists s', enumerate body c s = Ok (c, s').
Proof.
  intros A S body c s H. rewrite C94_enumerate.
  assert (G : forall l (st : list A * S), fst (fold_left (fun st (p : nat * A) => snd (body (fst p) (snd p) st)) l st) = fst st).
  { induction l as [|p l IH]; intros st; [reflexivity|]. cbn [fold_left]. rewrite IH. apply H. }
  specialize (G (numbered c) (c, s)). destruct (fold_left _ (numbered c) (c, s)) as [c' s']. cbn [fst] in G. subst c'. now exists s'.
Qed.
Print Assumptions C94_enumerate_writes_refuted.

(** for ( auto& e : reverse( c ) ): the body is run once for every element of c, from the last to the first, and what it writes is
    written to c; a loop over reverse of a temporary is undefined. *)
Theorem C94_reverse : forall (A S : Type) (body : A -> S -> A * S) (temporary : bool) (c : list A) (s : S),
  reverse temporary body c s =
    if temporary then UB else Ok (rev (fst (visit body (rev c) s)), snd (visit body (rev c) s)).
Proof.
  intros A S body temporary c s. unfold reverse. destruct temporary; [reflexivity|].
  pose proof (reverse_steps body c [] s) as E. rewrite !app_nil_r in E. exact E.
Qed.
Print Assumptions C94_reverse.

(** Beside the theorems. *)
Module Case.
Definition log (v : Z) (s : list Z) : list Z := s ++ [v].
(** range( 2, 11, x + 3 ): 2, 5, 8;  range( 0, n ) of any number *)
Example strides : run (int_step 3) Z.eqb 10 log 2%Z 11%Z [] = Some (Ok [2; 5; 8]%Z).
Proof. reflexivity. Qed.
Example strides_meet : (2 <= 11)%Z /\ (3 | 11 - 2)%Z.
Proof. split; [lia|]. exists 3%Z. reflexivity. Qed.
Example strides_miss : ~ ((0 <= 10)%Z /\ (3 | 10 - 0)%Z).
Proof. intros [_ [q Q]]. lia. Qed.
(** doubling, until 100 is passed: range( 3, 100, x * 2, >= ) *)
Example doubling : run (fun v => Ok (v * 2)%Z) (fun a b => b <=? a)%Z 10 log 3%Z 100%Z [] = Some (Ok [3; 6; 12; 24; 48; 96]%Z).
Proof. reflexivity. Qed.
(** unsigned longs around the end *)
Example around : run word_step Z.eqb 5 log (2 ^ 64 - 2)%Z 1%Z [] = Some (Ok [2 ^ 64 - 2; 2 ^ 64 - 1; 0]%Z).
Proof. reflexivity. Qed.
(** positions and elements; the body doubles what it is given and drops an element of the container each time *)
Example numbers : enumerate (fun i e st => ((e * 2)%Z, (tl (fst st), snd st ++ [(i, e)]))) [7; 8; 9]%Z [] = Ok ([], [(0, 7%Z); (1, 8%Z); (2, 9%Z)]).
Proof. reflexivity. Qed.
Example writes_lost : enumerate (fun i e st => ((e * 2)%Z, (fst st, snd st ++ [(i, e)]))) [7; 8; 9]%Z [] = Ok ([7; 8; 9]%Z, [(0, 7%Z); (1, 8%Z); (2, 9%Z)]).
Proof. reflexivity. Qed.
(** sums from the end, written in place *)
Example sums : reverse false (fun e s => ((e + s)%Z, (e + s)%Z)) [1; 2; 3]%Z 0%Z = Ok ([6; 5; 3]%Z, 6%Z).
Proof. reflexivity. Qed.
End Case.
