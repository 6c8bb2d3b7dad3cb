(** C83: string2float32 and float32. *)
From Coq Require Import List Arith ZArith Bool Lia Reals Lra.
From Flocq Require Import Core.
From Verif Require Import ListBase TensorModel ParseModel ParseSpec ParseProofs.
Import ListNotations.
Local Open Scope Z_scope.

(** the arithmetic of the real numbers; that of float and double, roundings to nearest even *)
Definition exactly : list Z -> outcome R := string2float32 0%R pushR (fun x => x * 10)%R (fun x => x * (1 / 10))%R Ropp.
Definition in_float : list Z -> outcome R := string2float32 0%R push32 times10_32 times01_32 Ropp.

(** Every text has a longest numeral at its beginning. *)
Theorem C83_total text : exists l rest, text = written l ++ rest /\ proper l /\ longest l rest.
Proof. exact (has_numeral text). Qed.
Print Assumptions C83_total.

(** A text, followed by NUL and anything: the longest numeral at its beginning is read, and the rest ignored.  In exact arithmetic the
    result is what the numeral means; if its exponent or its fraction is so long that an int overflows, the behaviour is undefined. *)
Theorem C83_value l rest junk : proper l -> longest l rest ->
  let text := written l ++ rest in
  (small l -> exactly (text ++ 0 :: junk) = Ok (meaning l)) /\ (~ small l -> exactly (text ++ 0 :: junk) = UB).
Proof.
  intros P L text. unfold exactly, text. rewrite <- app_assoc, (reads _ _ _ _ _ l rest junk P L). split; intros H.
  - rewrite (proj2 (small_bP l) H). unfold number_of, meaning. rewrite scaled_exact. rewrite (pushes (ints l ++ fractional l) 0). reflexivity.
  - destruct (small_b l) eqn:E; [|reflexivity]. apply small_bP in E. contradiction.
Qed.
Print Assumptions C83_value.

(** Whatever the arithmetic: nothing behind the terminating NUL is read or matters, and a text without exponent of no more than 2^31
    characters is read without undefined behaviour. *)
Theorem C83_safe {F} (zero : F) push times10 times01 opposite text junk :
  string2float32 zero push times10 times01 opposite (text ++ 0 :: junk) = float32 zero push times10 times01 opposite text /\
  (~ In 101 text -> ~ In 69 text -> Z.of_nat (length text) <= 2147483648 -> exists v, float32 zero push times10 times01 opposite text = Ok v).
Proof.
  unfold float32. destruct (has_numeral text) as (l & rest & -> & P & L). rewrite <- !app_assoc. rewrite !(reads _ _ _ _ _ l rest _ P L). split; [reflexivity|].
  intros N1 N2 Hl. assert (Ee : expo l = None).
  { destruct (expo l) as [[[b s] ds]|] eqn:E; [|reflexivity]. exfalso. destruct b; [apply N1|apply N2]; unfold written, w_expo; rewrite E; rewrite !in_app_iff; left; do 5 right; now left. }
  rewrite (proj2 (small_bP l)); [eauto|]. assert (Hf : Z.of_nat (length (fractional l)) <= 2147483648).
  { rewrite app_length in Hl. unfold written in Hl. rewrite !app_length in Hl. unfold fractional. unfold w_frac in Hl. destruct (frac l); cbn [length] in *; [unfold figures in Hl; rewrite map_length in Hl|]; lia. }
  split; [exact Hf|]. split; [congruence|]. unfold shift, power. rewrite Ee. lia.
Qed.
Print Assumptions C83_safe.

(** In float: if the fraction is made up for by the exponent and the number is at most 2^24, the result is exact. *)
Theorem C83_whole_numbers l rest junk : proper l -> longest l rest -> small l -> 0 <= shift l -> (Rabs (meaning l) <= 16777216)%R ->
  in_float ((written l ++ rest) ++ 0 :: junk) = Ok (meaning l).
Proof.
  intros P L Hs Sh Hm. unfold in_float. rewrite <- app_assoc, (reads _ _ _ _ _ l rest junk P L), (proj2 (small_bP l) Hs). f_equal.
  assert (D : digits_ok (ints l ++ fractional l)).
  { apply Forall_app. destruct P as (P1 & P2 & _). split; [exact P1|]. unfold fractional. destruct (frac l); [now apply P2|constructor]. }
  pose proof (decimal_nonneg _ D) as Dn. assert (K : 0 < 10 ^ shift l) by (apply Z.pow_pos_nonneg; lia).
  assert (Ep : powerRZ 10 (shift l) = IZR (10 ^ shift l)) by (replace (shift l) with (Z.of_nat (Z.to_nat (shift l))) by lia; rewrite <- pow_powerRZ, pow_IZR; reflexivity).
  assert (B : decimal (ints l ++ fractional l) * 10 ^ shift l <= 16777216).
  { apply le_IZR. rewrite mult_IZR, <- Ep. revert Hm. unfold meaning. destruct (minus l); [rewrite Rabs_Ropp|]; intros Hm; eapply Rle_trans; try exact Hm; apply Rle_abs. }
  unfold number_of, meaning. change 0%R with (IZR 0). rewrite pushes32; [|exact D|lia|fold (decimal (ints l ++ fractional l)); nia]. fold (decimal (ints l ++ fractional l)).
  assert (Es : scaled times10_32 times01_32 (IZR (decimal (ints l ++ fractional l))) (shift l) = (IZR (decimal (ints l ++ fractional l)) * powerRZ 10 (shift l))%R).
  { rewrite Ep, <- mult_IZR. unfold scaled. destruct (0 <? shift l) eqn:E.
    - rewrite tens32; [f_equal; f_equal; f_equal; lia|lia|]. rewrite Z2Nat.id by lia. exact B.
    - apply Z.ltb_ge in E. replace (shift l) with 0 by lia. cbn. f_equal. lia. }
  rewrite Es. reflexivity.
Qed.
Print Assumptions C83_whole_numbers.

(** But the float read is not always the nearest one: float32{ "0.09" } is not 0.09f. *)
Theorem C83_nearest_refuted : exists text v, in_float (text ++ [0]) = Ok v /\ exactly (text ++ [0]) = Ok (9 / 100)%R /\ v <> single (9 / 100).
Proof.
  pose (l := Numeral 0 false false [0] (Some [0; 9]) None).
  assert (P : proper l) by (split; [|split]; cbn; [repeat constructor; lia|intros ds [= <-]; repeat constructor; lia|discriminate]).
  assert (L : longest l []) by (unfold longest, l; cbn; intuition discriminate).
  assert (Sm : small l) by (unfold small, l; cbn; repeat split; try lia; discriminate).
  exists (written l). rewrite <- (app_nil_r (written l)). exists (IZR 12079595 * bpow radix2 (-3 - 24))%R. split; [|split].
  - unfold in_float. rewrite <- app_assoc, (reads _ _ _ _ _ l [] [] P L), (proj2 (small_bP l) Sm). f_equal. unfold number_of, l. cbn [ints frac fractional minus app shift power expo length].
    change 0%R with (IZR 0). rewrite pushes32; [|repeat constructor; lia|lia|cbn; lia]. cbn [fold_left]. change (Nat.iter 2 times01_32 9%R = (IZR 12079595 * bpow radix2 (-3 - 24))%R).
    change (times01_32 (times01_32 9) = (IZR 12079595 * bpow radix2 (-3 - 24))%R). rewrite nine_1. apply nine_2.
  - destruct (C83_value l [] [] P L) as [H _]. rewrite (H Sm). f_equal. unfold meaning. change (decimal (ints l ++ fractional l)) with 9. change (shift l) with (-2). change (minus l) with false. cbn [powerRZ]. change (Pos.to_nat 2) with 2%nat. cbn [pow]. field.
  - rewrite nine_near. intros E. apply Rmult_eq_reg_r in E; [apply eq_IZR in E; discriminate|]. apply Rgt_not_eq, bpow_gt_0.
Qed.
Print Assumptions C83_nearest_refuted.

(** ** "  +-12.50E+1x" is read as -125; "1e9999999999" overflows *)
Module Case.
Definition text : list Z := [32; 32; 43; 45; 49; 50; 46; 53; 48; 69; 43; 49; 120].
Definition l : numeral := Numeral 2 true true [1; 2] (Some [5; 0]) (Some (false, Plus, [1])).
Example C83_case : text = written l ++ [120] /\ proper l /\ longest l [120] /\ small l /\ exactly (text ++ [0]) = Ok (-125)%R.
Proof.
  assert (P : proper l) by (split; [|split]; [repeat constructor; lia|intros ds [= <-]; repeat constructor; lia|intros b s ds [= _ _ <-]; repeat constructor; lia]).
  assert (L : longest l [120]) by (unfold longest, l; cbn; intuition discriminate).
  assert (Sm : small l) by (unfold small, l; cbn; repeat split; try lia; intros b s ds [= _ _ <-]; cbn; lia).
  split; [reflexivity|]. split; [exact P|]. split; [exact L|]. split; [exact Sm|]. change text with (written l ++ [120]).
  destruct (C83_value l [120] [] P L) as [H _]. rewrite (H Sm). f_equal. unfold meaning. change (decimal (ints l ++ fractional l)) with 1250. change (shift l) with (-1). change (minus l) with true. cbn [powerRZ]. change (Pos.to_nat 1) with 1%nat. cbn [pow]. field.
Qed.
Example C83_whole_case : in_float ([49; 46; 53; 101; 49] ++ [0]) = Ok 15%R.
Proof.
  pose (l := Numeral 0 false false [1] (Some [5]) (Some (true, Plain, [1]))).
  assert (P : proper l) by (split; [|split]; [repeat constructor; lia|intros ds [= <-]; repeat constructor; lia|intros b s ds [= _ _ <-]; repeat constructor; lia]).
  assert (L : longest l []) by (unfold longest, l; cbn; intuition discriminate).
  assert (Sm : small l) by (unfold small, l; cbn; repeat split; try lia; intros b s ds [= _ _ <-]; cbn; lia).
  assert (M : meaning l = 15%R) by (unfold meaning; change (decimal (ints l ++ fractional l)) with 15; change (shift l) with 0; change (minus l) with false; cbn; ring).
  rewrite <- M. change [49; 46; 53; 101; 49] with (written l ++ []). apply C83_whole_numbers; auto; [unfold shift, l; cbn; lia|]. rewrite M, Rabs_pos_eq; lra.
Qed.
Example C83_overflow_case : exactly ([49; 101; 57; 57; 57; 57; 57; 57; 57; 57; 57; 57] ++ [0]) = UB.
Proof. reflexivity. Qed.
End Case.
