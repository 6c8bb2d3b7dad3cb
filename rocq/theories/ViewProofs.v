(** Proofs about ViewModel.v. *)
From Coq Require Import List Bool NArith ZArith Lia.
From Verif Require Import TensorModel ViewModel ViewSpec.
Import ListNotations.
Local Open Scope N_scope.

Lemma w64_small x : x < 18446744073709551616 -> w64 x = x.
Proof. apply N.mod_small. Qed.

Lemma valid_elems shape idx : valid shape idx -> 1 <= elems shape.
Proof. induction 1 as [|n i shape idx H _ IH]; cbn [elems]; nia. Qed.

Lemma position_below shape idx : valid shape idx -> position shape idx < elems shape.
Proof. induction 1 as [|n i shape idx H _ IH]; cbn [elems position]; nia. Qed.

Lemma fold_prod rest : forall a, Forall (fun n => 1 <= n) rest -> 1 <= a -> a * elems rest < 18446744073709551616 -> fold_left (fun a b => w64 (a * b)) rest a = a * elems rest.
Proof.
  induction rest as [|n rest IH]; intros a F Ha Hb; cbn [fold_left elems] in *; [lia|]. inversion F as [|? ? Hn F']; subst.
  assert (1 <= elems rest). { clear - F'. induction F'; cbn [elems]; nia. }
  rewrite w64_small by nia. rewrite IH; nia || assumption.
Qed.

Lemma valid_pos shape idx : valid shape idx -> Forall (fun n => 1 <= n) shape.
Proof. induction 1; constructor; auto; lia. Qed.

Section Views.
Variable size : N.
Hypothesis Hsize : size < 18446744073709551616.

Lemma padd_ok p k : p + k <= size -> padd size p k = Ok (p + k).
Proof. intros H. unfold padd. now rewrite (proj2 (N.leb_le _ _) H). Qed.

(** one index *)
Lemma sub_ok dbg p n rest i idx : i < n -> valid rest idx -> p + elems (n :: rest) <= size -> sub size dbg p (n :: rest) i = Ok (p + i * elems rest, rest).
Proof.
  intros Hi V Hp. pose proof (valid_elems _ _ V) as H1. pose proof (valid_pos _ _ V) as Hr. cbn [elems] in Hp.
  destruct rest as [|c [|k [|l [|m rest]]]].
  - cbn [sub elems] in *. rewrite padd_ok by lia. cbn [obind]. unfold deref. rewrite (proj2 (N.ltb_lt _ _)) by lia. cbn [obind]. do 2 f_equal. lia.
  - cbn [sub elems] in *. rewrite w64_small by nia. rewrite padd_ok by nia. cbn [obind]. do 2 f_equal. lia.
  - inversion Hr as [|? ? A1 Hr1]; subst. inversion Hr1 as [|? ? A2 _]; subst. cbn [sub elems] in *.
    assert (Q : i * (c * (k * 1)) = i * c * k) by lia. rewrite (w64_small (i * c)) by nia. rewrite w64_small by nia. rewrite padd_ok by nia. cbn [obind]. do 2 f_equal. lia.
  - inversion Hr as [|? ? A1 Hr1]; subst. inversion Hr1 as [|? ? A2 Hr2]; subst. inversion Hr2 as [|? ? A3 _]; subst. cbn [sub elems] in *.
    assert (Q : i * (c * (k * (l * 1))) = i * c * k * l) by lia. set (t := i * (c * (k * (l * 1)))) in *. set (u := i * c) in *. set (x := u * k) in *. assert (u <= x) by nia. assert (x <= x * l) by nia. assert (t < size) by (unfold t; nia).
    rewrite (w64_small u) by lia. fold x. rewrite (w64_small x) by lia. rewrite w64_small by lia. rewrite padd_ok by (unfold t in Q; nia). cbn [obind]. do 2 f_equal. lia.
  - unfold sub. rewrite (proj2 (N.ltb_lt _ _) Hi). rewrite andb_false_r. rewrite (fold_prod _ 1 Hr ltac:(lia)) by nia. rewrite N.mul_1_l.
    rewrite w64_small by nia. rewrite padd_ok by nia. reflexivity.
Qed.

Lemma at_ok dbg shape idx : valid shape idx -> forall p, p + elems shape <= size -> at_ size dbg p shape idx = Ok (p + position shape idx, []).
Proof.
  induction 1 as [|n i shape idx H V IH]; intros p Hp; [cbn [at_ position]; do 2 f_equal; lia|].
  cbn [at_]. rewrite (sub_ok dbg p n shape i idx H V Hp). cbn [obind fst snd]. cbn [elems] in Hp. rewrite IH by nia. cbn [position]. do 2 f_equal. lia.
Qed.
End Views.

(** positions and indices are in one-to-one correspondence *)
Lemma position_inj shape : forall a b, valid shape a -> valid shape b -> position shape a = position shape b -> a = b.
Proof.
  induction shape as [|n rest IH]; intros a b Va Vb E; inversion Va as [|? i ? a' A1 A2]; inversion Vb as [|? j ? b' B1 B2]; subst; [reflexivity|].
  cbn [position] in E. pose proof (position_below _ _ A2). pose proof (position_below _ _ B2).
  assert (i = j) by nia. subst j. f_equal. apply IH; try assumption. lia.
Qed.

Lemma position_onto shape : forall q, q < elems shape -> exists idx, valid shape idx /\ position shape idx = q.
Proof.
  induction shape as [|n rest IH]; intros q Hq; cbn [elems] in Hq.
  - exists []. split; [constructor|]. cbn. lia.
  - assert (He : elems rest <> 0) by nia. destruct (IH (q mod elems rest) (N.mod_lt _ _ He)) as (idx & V & E).
    exists (q / elems rest :: idx). split.
    + constructor; [|assumption]. apply N.div_lt_upper_bound; [assumption|]. lia.
    + cbn [position]. rewrite E. rewrite (N.div_mod q (elems rest)) at 3 by assumption. lia.
Qed.

(** indices that are not below their extents, where nothing is checked *)
Section Unchecked.
Variable size : N.
Hypothesis Hsize : size < 18446744073709551616.

Lemma sub_any dbg p n rest i : Forall (fun n => 1 <= n) rest -> p <= size -> i * elems rest < 18446744073709551616 -> elems rest < 18446744073709551616 ->
  (dbg = false \/ (length rest < 4)%nat) ->
  sub size dbg p (n :: rest) i = if p + i * elems rest <=? (match rest with [] => size - 1 | _ => size end) then if (size =? 0) && match rest with [] => true | _ => false end then UB else Ok (p + i * elems rest, rest) else UB.
Proof.
  intros Hr Hp Hi He Hd. destruct rest as [|c [|k [|l [|m rest]]]].
  - cbn [sub elems] in *. unfold padd, deref. rewrite N.mul_1_r. destruct (N.leb_spec (p + i) size); cbn [obind].
    + destruct (N.ltb_spec (p + i) size); cbn [obind].
      * rewrite (proj2 (N.leb_le _ _)) by lia. rewrite (proj2 (N.eqb_neq _ _)) by lia. reflexivity.
      * destruct (N.leb_spec (p + i) (size - 1)); [|reflexivity]. assert (size = 0) by lia. subst. reflexivity.
    + destruct (N.leb_spec (p + i) (size - 1)); [|reflexivity]. lia.
  - cbn [sub elems] in *. rewrite N.mul_1_r in *. rewrite w64_small by lia. unfold padd. rewrite andb_false_r. now destruct (p + i * c <=? size).
  - inversion Hr as [|? ? A1 Hr1]; subst. inversion Hr1 as [|? ? A2 _]; subst. cbn [sub elems] in *. rewrite N.mul_1_r in *. rewrite andb_false_r.
    assert (Q : i * (c * k) = i * c * k) by lia. rewrite (w64_small (i * c)) by nia. rewrite w64_small by lia. rewrite Q. unfold padd. now destruct (p + i * c * k <=? size).
  - inversion Hr as [|? ? A1 Hr1]; subst. inversion Hr1 as [|? ? A2 Hr2]; subst. inversion Hr2 as [|? ? A3 _]; subst. cbn [sub elems] in *. rewrite N.mul_1_r in *. rewrite andb_false_r.
    assert (Q : i * (c * (k * l)) = i * c * k * l) by lia. rewrite Q in *. set (u := i * c) in *. set (x := u * k) in *. assert (u <= x) by nia. assert (x <= x * l) by nia.
    rewrite (w64_small u) by lia. fold x. rewrite (w64_small x) by lia. rewrite w64_small by lia. unfold padd. now destruct (p + x * l <=? size).
  - unfold sub. destruct Hd as [->|Hd]; [|cbn in Hd; lia]. cbn [andb]. rewrite (fold_prod _ 1 Hr ltac:(lia)) by lia. rewrite N.mul_1_l. rewrite w64_small by lia. rewrite andb_false_r.
    unfold padd. now destruct (p + i * elems _ <=? size).
Qed.

Lemma at_any dbg shape : (dbg = false \/ (length shape <= 4)%nat) -> Forall (fun n => 1 <= n) shape -> shape <> [] -> elems shape < 18446744073709551616 ->
  forall idx p, length idx = length shape -> p <= size -> p + position shape idx < 18446744073709551616 ->
  at_ size dbg p shape idx = if p + position shape idx <? size then Ok (p + position shape idx, []) else UB.
Proof.
  intros Hd F. induction F as [|n rest Hn F IH]; [easy|]. intros _ He idx p L Hp Hq.
  destruct idx as [|i idx]; [discriminate|]. cbn [at_ position elems] in *. injection L as L.
  assert (1 <= elems rest). { clear - F. induction F; cbn [elems]; nia. }
  rewrite sub_any; [|assumption|assumption|nia|nia|destruct Hd as [->|Hd]; [now left|right; cbn in Hd; lia]].
  destruct rest as [|m rest].
  - destruct idx; [|discriminate]. cbn [elems position at_] in *. rewrite N.mul_1_r, N.add_0_r in *. destruct (N.leb_spec (p + i) (size - 1)).
    + destruct (N.eqb_spec size 0) as [E|E]; cbn [andb obind].
      * destruct (N.ltb_spec (p + i) size); [lia|reflexivity].
      * rewrite (proj2 (N.ltb_lt _ _)) by lia. reflexivity.
    + cbn [obind]. destruct (N.ltb_spec (p + i) size); [lia|reflexivity].
  - rewrite andb_false_r. destruct (N.leb_spec (p + i * elems (m :: rest)) size) as [Hl|Hl]; cbn [obind fst snd].
    + rewrite IH; [|destruct Hd as [->|Hd]; [now left|right; cbn in *; lia]|discriminate|nia|assumption|assumption|lia]. rewrite !N.add_assoc. reflexivity.
    + destruct (N.ltb_spec (p + (i * elems (m :: rest) + position (m :: rest) idx)) size); [lia|reflexivity].
Qed.
End Unchecked.

(** columns *)
Section Columns.
Variable size : N.

Lemma steps_ok n : forall b d, (0 <= b)%Z -> (0 <= d)%Z -> (b + (Z.of_nat n - 1) * d < Z.of_N size)%Z ->
  steps size n (Stride b d) = Ok (map (fun i => Z.to_N (b + Z.of_nat i * d)) (seq 0 n)).
Proof.
  induction n as [|n IH]; intros b d Hb Hd Hs; [reflexivity|]. cbn [steps]. unfold star. cbn [iter]. rewrite Nat2Z.inj_succ in Hs.
  rewrite (proj2 (Z.leb_le _ _)) by lia. rewrite (proj2 (Z.ltb_lt _ _)) by nia. cbn [andb obind]. destruct n as [|n].
  - cbn. do 3 f_equal. lia.
  - unfold next, zadd. cbn [iter step]. rewrite (proj2 (Z.leb_le _ _)) by lia. rewrite (proj2 (Z.leb_le _ _)) by nia. cbn [andb obind].
    rewrite IH by nia. cbn [obind]. f_equal. cbn [seq map]. f_equal; [f_equal; lia|]. f_equal; [f_equal; lia|]. rewrite <- (seq_shift n 1), map_map. apply map_ext. intros a. f_equal. lia.
Qed.

Lemma walk_ok n : forall b d, (0 <= b)%Z -> (0 < d)%Z -> (b + Z.of_nat n * d <= Z.of_N size)%Z ->
  walk size n (Stride b d) (Stride (b + Z.of_nat n * d) d) = Ok (map (fun i => Z.to_N (b + Z.of_nat i * d)) (seq 0 n)).
Proof.
  induction n as [|n IH]; intros b d Hb Hd Hs.
  - cbn [walk]. unfold same. cbn [iter step]. replace (b + Z.of_nat 0 * d)%Z with b by lia. now rewrite !Z.eqb_refl.
  - cbn [walk]. unfold same. cbn [iter step]. rewrite (proj2 (Z.eqb_neq _ _)) by nia. cbn [andb]. unfold star. cbn [iter].
    rewrite (proj2 (Z.leb_le _ _)) by lia. rewrite (proj2 (Z.ltb_lt _ _)) by nia. cbn [andb obind]. unfold next, zadd. cbn [iter step].
    rewrite (proj2 (Z.leb_le _ _)) by lia. rewrite (proj2 (Z.leb_le _ _)) by nia. cbn [andb obind].
    replace (b + Z.of_nat (S n) * d)%Z with (b + d + Z.of_nat n * d)%Z by lia. rewrite IH by nia. cbn [obind]. f_equal. cbn [seq map]. f_equal; [f_equal; lia|].
    rewrite <- (seq_shift n 0), map_map. apply map_ext. intros a. f_equal. lia.
Qed.
End Columns.
