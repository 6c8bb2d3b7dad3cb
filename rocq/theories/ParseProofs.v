(** Proofs about string2float32: every text is read as its longest numeral; exact arithmetic; arithmetic in float. *)
From Coq Require Import List Arith ZArith Bool Lia Reals Lra.
From Flocq Require Import Core.
From Verif Require Import ListBase TensorModel ParseModel ParseSpec.
Import ListNotations.
Local Open Scope Z_scope.

Lemma isdigit_codes c : isdigit c = true <-> In c digit_codes.
Proof.
  unfold isdigit, digit_codes. cbn [In]. rewrite andb_true_iff, !Z.leb_le. lia.
Qed.

Lemma avoids_app cs a b : ~ In 0 cs -> avoids cs a -> avoids cs (a ++ 0 :: b).
Proof. intros N H. destruct a; [exact N|exact H]. Qed.

Lemma avoids_digit c s : avoids digit_codes (c :: s) -> isdigit c = false.
Proof. intros H. destruct (isdigit c) eqn:E; [|reflexivity]. apply isdigit_codes in E. contradiction. Qed.

Lemma digit_ok d : 0 <= d <= 9 -> (d + 48 =? 0) = false /\ isdigit (d + 48) = true /\ d + 48 - 48 = d.
Proof. intros H. unfold isdigit. split; [|split]; [apply Z.eqb_neq; lia|apply andb_true_iff; rewrite !Z.leb_le; lia|lia]. Qed.

Section Any.
Context {F : Type}.
Variables (zero : F) (push : F -> Z -> F) (times10 times01 opposite : F -> F).
Notation parse := (string2float32 zero push times10 times01 opposite).

Lemma skip_blanks n c s : c <> 32 -> skip (repeat 32 n ++ c :: s) = Ok (c :: s).
Proof.
  intros N. induction n as [|n IH]; cbn [repeat app skip].
  - unfold isspace. rewrite (proj2 (Z.eqb_neq c 32) N), andb_false_r. reflexivity.
  - exact IH.
Qed.

Lemma integer_figures ds c s : digits_ok ds -> isdigit c = false -> forall a, integer push a (figures ds ++ c :: s) = Ok (c, fold_left push ds a, s).
Proof.
  intros D N. induction D as [|d ds Hd D IH]; intros a; cbn [figures map app integer fold_left].
  - rewrite N, andb_false_r. reflexivity.
  - destruct (digit_ok d Hd) as (-> & -> & ->). cbn [negb andb]. apply IH.
Qed.

Lemma fraction_figures ds c s : digits_ok ds -> isdigit c = false -> forall a e, -2147483648 <= e <= 2147483647 ->
  fraction push a e (figures ds ++ c :: s) =
    if -2147483648 <=? e - Z.of_nat (length ds) then Ok (c, fold_left push ds a, e - Z.of_nat (length ds), s) else UB.
Proof.
  intros D N. induction D as [|d ds Hd D IH]; intros a e He; cbn [figures map app fraction fold_left length].
  - rewrite N, andb_false_r. replace (e - Z.of_nat 0) with e by lia. rewrite (proj2 (Z.leb_le _ e)) by lia. reflexivity.
  - destruct (digit_ok d Hd) as (-> & -> & ->). cbn [negb andb]. unfold int, int_ok. rewrite (proj2 (Z.leb_le (e - 1) _)) by lia. rewrite andb_true_r.
    destruct (-2147483648 <=? e - 1) eqn:E.
    + apply Z.leb_le in E. cbn [obind]. fold (figures ds). rewrite IH by lia. replace (e - 1 - Z.of_nat (length ds)) with (e - Z.of_nat (S (length ds))) by lia. reflexivity.
    + apply Z.leb_gt in E. cbn [obind]. rewrite (proj2 (Z.leb_gt _ _)) by lia. reflexivity.
Qed.

Lemma decimal_grows ds : digits_ok ds -> forall i, 0 <= i -> i <= fold_left (fun n d => n * 10 + d) ds i.
Proof. intros D. induction D as [|d ds Hd D IH]; intros i Hi; cbn [fold_left]; [lia|]. specialize (IH (i * 10 + d) ltac:(lia)). lia. Qed.

Lemma exponent_figures ds x t : digits_ok ds -> isdigit x = false -> forall i c s, 0 <= i <= 2147483647 -> c :: s = figures ds ++ x :: t ->
  exponent i c s = if fold_left (fun n d => n * 10 + d) ds i <=? 2147483647 then Ok (fold_left (fun n d => n * 10 + d) ds i) else UB.
Proof.
  intros D N. induction D as [|d ds Hd D IH]; intros i c s Hi E; cbn [figures map app fold_left] in *; injection E as -> ->.
  - destruct t; cbn [exponent]; rewrite N, (proj2 (Z.leb_le i _)) by lia; reflexivity.
  - destruct (digit_ok d Hd) as (_ & Ed & Es).
    assert (G : exponent i (d + 48) (figures ds ++ x :: t) =
      obind (int (i * 10 + (d + 48 - 48))) (fun i' => match figures ds ++ x :: t with [] => UB | c' :: s' => exponent i' c' s' end))
      by (destruct (figures ds ++ x :: t); cbn [exponent]; rewrite Ed; reflexivity).
    fold (figures ds). rewrite G, Es. unfold int, int_ok. rewrite (proj2 (Z.leb_le _ (i * 10 + d))) by lia. cbn [andb].
    pose proof (decimal_grows ds D (i * 10 + d) ltac:(lia)).
    destruct (i * 10 + d <=? 2147483647) eqn:E; cbn [obind].
    + apply Z.leb_le in E. destruct (figures ds ++ x :: t) as [|c' s'] eqn:Ef; [now destruct (figures ds)|]. apply IH; [lia|congruence].
    + apply Z.leb_gt in E. rewrite (proj2 (Z.leb_gt _ _)) by lia. reflexivity.
Qed.

Lemma decimal_nonneg ds : digits_ok ds -> 0 <= decimal ds.
Proof. intros D. apply (decimal_grows ds D 0). lia. Qed.

(** the number read, in any arithmetic *)
Definition number_of (l : numeral) : F :=
  let a := scaled times10 times01 (fold_left push (ints l ++ fractional l) zero) (shift l) in if minus l then opposite a else a.
Definition small_b (l : numeral) : bool :=
  (Z.of_nat (length (fractional l)) <=? 2147483648) && match expo l with Some (_, _, ds) => decimal ds <=? 2147483647 | None => true end && (-2147483648 <=? shift l).

Lemma small_bP l : small_b l = true <-> small l.
Proof.
  unfold small_b, small. rewrite !andb_true_iff, !Z.leb_le. split.
  - intros [[A B] C]. split; [exact A|]. split; [|exact C]. intros b s ds E. rewrite E in B. now apply Z.leb_le.
  - intros (A & B & C). split; [|exact C]. split; [exact A|]. destruct (expo l) as [[[b s] ds]|]; [|reflexivity]. apply Z.leb_le. exact (B b s ds eq_refl).
Qed.

Lemma nonempty a (b : list Z) : exists c s, a ++ 0 :: b = c :: s.
Proof. destruct a; cbn; eauto. Qed.

Lemma avoids_not cs c s k : avoids cs (c :: s) -> In k cs -> (c =? k) = false.
Proof. intros H I. apply Z.eqb_neq. intros ->. contradiction. Qed.

Ltac zero_out := let Q := fresh in intros Q; cbn [In digit_codes] in Q; intuition lia.

Theorem reads l rest junk : proper l -> longest l rest -> parse (written l ++ rest ++ 0 :: junk) = if small_b l then Ok (number_of l) else UB.
Proof.
  intros (Di & Df & De) H. unfold longest in H. cbv zeta in H.
  set (a5 := w_expo l ++ rest) in *. set (a4 := w_frac l ++ a5) in *. set (a3 := w_ints l ++ a4) in *. set (a2 := w_minus l ++ a3) in *. set (a1 := w_plus l ++ a2) in *.
  destruct H as (H1 & H2 & H3 & H4 & H5 & H6).
  replace (written l ++ rest ++ 0 :: junk) with (w_blanks l ++ a1 ++ 0 :: junk)
    by (unfold a1, a2, a3, a4, a5, written; rewrite <- !app_assoc; reflexivity).
  unfold string2float32.
  (* blanks *)
  apply (avoids_app [32] a1 junk ltac:(zero_out)) in H1. destruct (nonempty a1 junk) as (c1 & s1 & E1). rewrite E1 in *. unfold w_blanks.
  rewrite skip_blanks by (intros ->; apply H1; now left). cbn [obind deref].
  (* plus *)
  assert (P : (if c1 =? 43 then tl (c1 :: s1) else c1 :: s1) = a2 ++ 0 :: junk).
  { rewrite <- E1. unfold a1, w_plus in *. destruct (plus l); cbn [app] in E1 |- *; [injection E1 as <- <-; reflexivity|].
    specialize (H2 eq_refl). apply (fun q N => avoids_app _ _ junk N q) in H2; [|zero_out]. rewrite E1 in H2. rewrite (avoids_not _ _ _ 43 H2) by now left. reflexivity. }
  rewrite P. clear P c1 s1 E1 H1 H2. destruct (nonempty a2 junk) as (c2 & s2 & E2). rewrite E2. cbn [deref obind].
  (* minus *)
  assert (P : (c2 =? 45) = minus l /\ (if c2 =? 45 then tl (c2 :: s2) else c2 :: s2) = a3 ++ 0 :: junk).
  { rewrite <- E2. unfold a2, w_minus in *. destruct (minus l); cbn [app] in E2 |- *; [injection E2 as <- <-; split; reflexivity|].
    specialize (H3 eq_refl). apply (fun q N => avoids_app _ _ junk N q) in H3; [|zero_out]. rewrite E2 in H3. rewrite (avoids_not _ _ _ 45 H3) by now left. split; reflexivity. }
  destruct P as [Pm P]. rewrite P, Pm. clear P Pm c2 s2 E2 H3.
  (* digits *)
  apply (avoids_app digit_codes a4 junk ltac:(zero_out)) in H4. destruct (nonempty a4 junk) as (c4 & s4 & E4). rewrite E4 in H4.
  replace (a3 ++ 0 :: junk) with (figures (ints l) ++ c4 :: s4) by (unfold a3, w_ints; rewrite <- app_assoc, E4; reflexivity).
  rewrite (integer_figures (ints l) c4 s4 Di (avoids_digit _ _ H4)). cbn [obind]. set (a := fold_left push (ints l) zero).
  (* fraction *)
  destruct (nonempty a5 junk) as (c5 & s5 & E5).
  assert (P : (if c4 =? 46 then fraction push a 0 s4 else Ok (c4, a, 0, s4)) =
              if Z.of_nat (length (fractional l)) <=? 2147483648 then Ok (c5, fold_left push (fractional l) a, - Z.of_nat (length (fractional l)), s5) else UB).
  { unfold a4, w_frac, fractional in *. destruct (frac l) as [ds|] eqn:Ef.
    - apply (fun q N => avoids_app _ _ junk N q) in H5; [|zero_out]. rewrite E5 in H5. cbn [app] in E4. injection E4 as <- <-. rewrite Z.eqb_refl.
      rewrite <- app_assoc, E5. rewrite (fraction_figures ds c5 s5 (Df ds eq_refl) (avoids_digit _ _ H5)) by lia.
      replace (0 - Z.of_nat (length ds)) with (- Z.of_nat (length ds)) by lia.
      replace (-2147483648 <=? - Z.of_nat (length ds)) with (Z.of_nat (length ds) <=? 2147483648); [reflexivity|].
      destruct (Z.leb_spec (Z.of_nat (length ds)) 2147483648); symmetry; [apply Z.leb_le|apply Z.leb_gt]; lia.
    - cbn [app] in E4. rewrite E4 in E5. injection E5 as <- <-. apply (fun q N => avoids_app _ _ junk N q) in H5; [|zero_out]. rewrite E4 in H5.
      rewrite (avoids_not _ _ _ 46 H5) by now left. reflexivity. }
  rewrite P. clear P E4 H4 H5 c4 s4. unfold small_b, number_of. rewrite fold_left_app. fold a. set (fa := fold_left push (fractional l) a).
  set (n := Z.of_nat (length (fractional l))) in *. assert (Hn : 0 <= n) by (unfold n; lia).
  destruct (n <=? 2147483648) eqn:En; cbn [obind andb]; [|reflexivity]. apply Z.leb_le in En.
  (* exponent *)
  unfold shift. fold n.
  assert (P : (if (c5 =? 101) || (c5 =? 69) then
                obind (next s5) (fun '(c, s) =>
                obind (if c =? 43 then obind (next s) (fun '(c, s) => Ok (c, 1, s)) else if c =? 45 then obind (next s) (fun '(c, s) => Ok (c, -1, s)) else Ok (c, 1, s)) (fun '(c, sign, s) =>
                obind (exponent 0 c s) (fun i => obind (int (i * sign)) (fun k => int (- n + k)))))
               else Ok (- n)) =
              if match expo l with Some (_, _, ds) => decimal ds <=? 2147483647 | None => true end && (-2147483648 <=? power l - n) then Ok (power l - n) else UB).
  { unfold a5, w_expo, power in *. destruct (expo l) as [[[b sg] ds]|] eqn:Ee.
    - destruct H6 as [H6 H7]. specialize (De b sg ds eq_refl). pose proof (decimal_nonneg ds De) as Dn.
      apply (avoids_app digit_codes rest junk ltac:(zero_out)) in H6. destruct (nonempty rest junk) as (x & t & Ex). rewrite Ex in H6.
      destruct (nonempty (figures ds ++ rest) junk) as (c7 & s7 & E7).
      assert (E7' : c7 :: s7 = figures ds ++ x :: t) by (rewrite <- E7, <- app_assoc, Ex; reflexivity).
      pose proof (exponent_figures ds x t De (avoids_digit _ _ H6) 0 c7 s7 ltac:(lia) E7') as X. fold (decimal ds) in X.
      assert (M : (c5 =? 101) || (c5 =? 69) = true /\ s5 = w_sign sg ++ c7 :: s7).
      { cbn [app] in E5. injection E5 as <- <-. split; [now destruct b|]. rewrite <- app_assoc, <- app_assoc, Ex, <- E7'. reflexivity. }
      destruct M as [-> ->].
      assert (Sg : obind (next (w_sign sg ++ c7 :: s7)) (fun '(c, s) =>
        (if c =? 43 then obind (next s) (fun '(c, s) => Ok (c, 1, s)) else if c =? 45 then obind (next s) (fun '(c, s) => Ok (c, -1, s)) else Ok (c, 1, s))) =
        Ok (c7, match sg with Minus => -1 | _ => 1 end, s7)).
      { destruct sg; cbn [w_sign app next obind]; [|reflexivity|reflexivity].
        specialize (H7 eq_refl). apply (fun q N => avoids_app _ _ junk N q) in H7; [|zero_out]. rewrite E7 in H7.
        rewrite (avoids_not _ _ _ 43 H7) by (now left). rewrite (avoids_not _ _ _ 45 H7) by (right; now left). reflexivity. }
      destruct (next (w_sign sg ++ c7 :: s7)) as [[cc ss]| |]; cbn [obind] in Sg |- *; try discriminate. rewrite Sg. cbn [obind]. rewrite X. clear X Sg.
      destruct (decimal ds <=? 2147483647) eqn:Ed; cbn [obind andb]; [|reflexivity]. apply Z.leb_le in Ed.
      assert (I1 : forall k, -2147483648 <= k <= 2147483647 -> int k = Ok k)
        by (intros k Hk; unfold int, int_ok; rewrite (proj2 (Z.leb_le _ k)), (proj2 (Z.leb_le k _)) by lia; reflexivity).
      assert (I2 : forall k, k <= 2147483647 -> int k = if -2147483648 <=? k then Ok k else UB)
        by (intros k Hk; unfold int, int_ok; rewrite (proj2 (Z.leb_le k _)), andb_true_r by lia; reflexivity).
      destruct sg; rewrite I1 by lia; cbn [obind]; rewrite I2 by lia.
      + replace (- n + decimal ds * 1) with (decimal ds - n) by lia. reflexivity.
      + replace (- n + decimal ds * 1) with (decimal ds - n) by lia. reflexivity.
      + replace (- n + decimal ds * -1) with (- decimal ds - n) by lia. reflexivity.
    - cbn [app] in E5. apply (fun q N => avoids_app _ _ junk N q) in H6; [|zero_out]. rewrite E5 in H6.
      rewrite (avoids_not _ _ _ 101 H6) by (now left). rewrite (avoids_not _ _ _ 69 H6) by (right; now left). cbn [orb andb].
      rewrite (proj2 (Z.leb_le _ (0 - n))) by lia. f_equal. }
  rewrite P. destruct (_ && _); [|reflexivity]. cbn [obind]. destruct (minus l); reflexivity.
Qed.
End Any.

(** every text has a longest numeral *)
Lemma span_digits text : exists ds rest, text = figures ds ++ rest /\ digits_ok ds /\ avoids digit_codes rest.
Proof.
  induction text as [|c text (ds & rest & -> & D & A)]; [exists [], []; repeat split; constructor|].
  destruct (isdigit c) eqn:E.
  - exists (c - 48 :: ds), rest. split; [cbn [figures map app]; f_equal; lia|]. split; [|exact A]. constructor; [|exact D].
    unfold isdigit in E. apply andb_true_iff in E. rewrite !Z.leb_le in E. lia.
  - exists [], (c :: figures ds ++ rest). repeat split; [constructor|]. intros I. apply isdigit_codes in I. congruence.
Qed.

Lemma span_one k (text : list Z) : (exists rest, text = k :: rest) \/ avoids [k] text.
Proof. destruct text as [|c text]; [now right|]. destruct (Z.eq_dec c k) as [->|N]; [left; eauto|]. right. intros [Q|[]]; congruence. Qed.

Lemma span_blanks text : exists n rest, text = repeat 32 n ++ rest /\ avoids [32] rest.
Proof.
  induction text as [|c text (n & rest & -> & A)]; [exists 0%nat, []; split; reflexivity|].
  destruct (Z.eq_dec c 32) as [->|N]; [exists (S n), rest; split; [reflexivity|exact A]|].
  exists 0%nat, (c :: repeat 32 n ++ rest). split; [reflexivity|]. intros [Q|[]]; congruence.
Qed.

Lemma span_expo text : exists ex rest, text = w_expo (Numeral 0 false false [] None ex) ++ rest /\ (forall b s ds, ex = Some (b, s, ds) -> digits_ok ds) /\
  match ex with Some (_, s, ds) => avoids digit_codes rest /\ (s = Plain -> avoids [43; 45] (figures ds ++ rest)) | None => avoids [101; 69] rest end.
Proof.
  assert (K : forall b text, exists s ds rest, text = w_sign s ++ figures ds ++ rest /\ digits_ok ds /\ avoids digit_codes rest /\ (s = Plain -> avoids [43; 45] (figures ds ++ rest)) /\ (b : bool) = b).
  { intros b t. destruct (span_one 43 t) as [(t' & ->)|N1].
    - destruct (span_digits t') as (ds & rest & -> & D & A). exists Plus, ds, rest. repeat split; auto. discriminate.
    - destruct (span_one 45 t) as [(t' & ->)|N2].
      + destruct (span_digits t') as (ds & rest & -> & D & A). exists Minus, ds, rest. repeat split; auto. discriminate.
      + destruct (span_digits t) as (ds & rest & E & D & A). exists Plain, ds, rest. split; [exact E|]. split; [exact D|]. split; [exact A|]. split; [|reflexivity].
        intros _. rewrite <- E. destruct t; [exact I|]. cbn in *. tauto. }
  destruct (span_one 101 text) as [(t & ->)|N1]; [|destruct (span_one 69 text) as [(t & ->)|N2]].
  - destruct (K true t) as (s & ds & rest & -> & D & A & P & _). exists (Some (true, s, ds)), rest. cbn [w_expo expo]. split; [cbn [app]; now rewrite <- !app_assoc|]. split; [congruence|]. split; assumption.
  - destruct (K false t) as (s & ds & rest & -> & D & A & P & _). exists (Some (false, s, ds)), rest. cbn [w_expo expo]. split; [cbn [app]; now rewrite <- !app_assoc|]. split; [congruence|]. split; assumption.
  - exists None, text. split; [reflexivity|]. split; [congruence|]. destruct text; [exact I|]. cbn in *. tauto.
Qed.

Theorem has_numeral text : exists l rest, text = written l ++ rest /\ proper l /\ longest l rest.
Proof.
  destruct (span_blanks text) as (n & t1 & -> & A1).
  assert (P : exists pl t2, t1 = (if pl : bool then [43] else []) ++ t2 /\ (pl = false -> avoids [43] t2)).
  { destruct (span_one 43 t1) as [(t2 & ->)|N]; [exists true, t2; split; [reflexivity|discriminate]|exists false, t1; split; [reflexivity|auto]]. }
  destruct P as (pl & t2 & -> & A2).
  assert (P : exists mi t3, t2 = (if mi : bool then [45] else []) ++ t3 /\ (mi = false -> avoids [45] t3)).
  { destruct (span_one 45 t2) as [(t3 & ->)|N]; [exists true, t3; split; [reflexivity|discriminate]|exists false, t2; split; [reflexivity|auto]]. }
  destruct P as (mi & t3 & -> & A3). destruct (span_digits t3) as (is & t4 & -> & D4 & A4).
  assert (P : exists fr t5, t4 = match fr with Some ds => 46 :: figures ds | None => [] end ++ t5 /\ (forall ds, fr = Some ds -> digits_ok ds) /\
                match fr with Some _ => avoids digit_codes t5 | None => avoids [46] t5 end).
  { destruct (span_one 46 t4) as [(t & ->)|N].
    - destruct (span_digits t) as (ds & t5 & -> & D & A). exists (Some ds), t5. split; [reflexivity|]. split; [congruence|exact A].
    - exists None, t4. split; [reflexivity|]. split; [congruence|exact N]. }
  destruct P as (fr & t5 & -> & D5 & A5). destruct (span_expo t5) as (ex & rest & -> & D6 & A6).
  exists (Numeral n pl mi is fr ex), rest. split; [|split].
  - unfold written, w_blanks, w_plus, w_minus, w_ints, w_frac, w_expo. cbn [blanks plus minus ints frac expo]. rewrite <- !app_assoc. reflexivity.
  - split; [exact D4|]. split; [exact D5|exact D6].
  - unfold longest, w_plus, w_minus, w_ints, w_frac. cbn [blanks plus minus ints frac expo]. split; [exact A1|]. split; [exact A2|]. split; [exact A3|]. split; [exact A4|]. split; [exact A5|exact A6].
Qed.

(** ** exact arithmetic *)
Section Exact.
Local Open Scope R_scope.
Definition pushR (a : R) (d : Z) : R := a * 10 + IZR d.
Lemma pushes ds : forall n, fold_left pushR ds (IZR n) = IZR (fold_left (fun n d => n * 10 + d)%Z ds n).
Proof. induction ds as [|d ds IH]; intros n; cbn [fold_left]; [reflexivity|]. unfold pushR at 2. rewrite <- mult_IZR, <- plus_IZR. apply IH. Qed.

Lemma iter_times (c : R) n a : Nat.iter n (fun x => x * c) a = a * c ^ n.
Proof. induction n as [|n IH]; [cbn; ring|]. change (Nat.iter n (fun x => x * c) a * c = a * (c * c ^ n)). rewrite IH. ring. Qed.

Lemma scaled_exact a e : scaled (fun x => x * 10) (fun x => x * (1 / 10)) a e = a * powerRZ 10 e.
Proof.
  unfold scaled. destruct (0 <? e)%Z eqn:E.
  - apply Z.ltb_lt in E. rewrite iter_times. f_equal. rewrite pow_powerRZ. f_equal. lia.
  - apply Z.ltb_ge in E. rewrite iter_times. f_equal. replace e with (- Z.of_nat (Z.to_nat (- e)))%Z at 2 by lia.
    rewrite powerRZ_neg', <- pow_powerRZ, <- pow_inv. f_equal. lra.
Qed.
End Exact.

(** ** float: 24 bits, computed in double: 53 bits.  Overflow is not modelled (the exponent is not bounded above). *)
Section Float.
Local Open Scope R_scope.
Definition single (x : R) : R := round radix2 (FLT_exp (-149) 24) ZnearestE x.
Definition double (x : R) : R := round radix2 (FLT_exp (-1074) 53) ZnearestE x.
Definition tenth : R := double (1 / 10).
Definition push32 (a : R) (d : Z) : R := single (double (double (a * 10) + IZR d)).
Definition times10_32 (a : R) : R := single (double (a * 10)).
Definition times01_32 (a : R) : R := single (double (a * tenth)).

Lemma round_int emin prec z : (emin <= 0)%Z -> (0 < prec)%Z -> (Z.abs z <= 2 ^ prec)%Z -> round radix2 (FLT_exp emin prec) ZnearestE (IZR z) = IZR z.
Proof.
  intros He Hp Hz. apply round_generic; [apply valid_rnd_N|].
  destruct (Z.eq_dec (Z.abs z) (2 ^ prec)) as [E|N].
  - assert (G : generic_format radix2 (FLT_exp emin prec) (bpow radix2 prec)) by (apply generic_format_bpow; unfold FLT_exp; lia).
    assert (B : bpow radix2 prec = IZR (2 ^ prec)) by (symmetry; apply (IZR_Zpower radix2); lia).
    destruct (Z.abs_spec z) as [[_ Q]|[_ Q]].
    + rewrite <- Q, E, <- B. exact G.
    + replace z with (- (2 ^ prec))%Z by lia. rewrite opp_IZR, <- B. now apply generic_format_opp.
  - apply generic_format_FLT. exists (Float radix2 z 0); cbn [Fnum Fexp]; [unfold F2R; cbn; ring| |exact He].
    change (Z.pow_pos 2) with (fun p => Z.pow 2 (Zpos p)). change (radix_val radix2) with 2%Z. lia.
Qed.

Lemma single_int z : (Z.abs z <= 16777216)%Z -> single (IZR z) = IZR z.
Proof. intros H. apply round_int; [lia|lia|exact H]. Qed.
Lemma double_int z : (Z.abs z <= 9007199254740992)%Z -> double (IZR z) = IZR z.
Proof. intros H. apply round_int; [lia|lia|exact H]. Qed.

Lemma push32_int n d : (0 <= n)%Z -> (0 <= d <= 9)%Z -> (n * 10 + d <= 16777216)%Z -> push32 (IZR n) d = IZR (n * 10 + d).
Proof.
  intros Hn Hd H. unfold push32. rewrite <- mult_IZR, double_int by lia. rewrite <- plus_IZR, double_int by lia. apply single_int. lia.
Qed.

Lemma pushes32 ds : digits_ok ds -> forall n, (0 <= n)%Z -> (fold_left (fun n d => n * 10 + d) ds n <= 16777216)%Z ->
  fold_left push32 ds (IZR n) = IZR (fold_left (fun n d => n * 10 + d)%Z ds n).
Proof.
  intros D. induction D as [|d ds Hd D IH]; intros n Hn H; cbn [fold_left] in *; [reflexivity|].
  pose proof (decimal_grows ds D (n * 10 + d)%Z ltac:(lia)). rewrite push32_int by lia. apply IH; lia.
Qed.

Lemma tens32 k : forall n, (0 <= n)%Z -> (n * 10 ^ Z.of_nat k <= 16777216)%Z -> Nat.iter k times10_32 (IZR n) = IZR (n * 10 ^ Z.of_nat k).
Proof.
  induction k as [|k IH]; intros n Hn H; [cbn; f_equal; lia|]. change (times10_32 (Nat.iter k times10_32 (IZR n)) = IZR (n * 10 ^ Z.of_nat (S k))).
  rewrite Nat2Z.inj_succ, Z.pow_succ_r in * by lia. assert (0 < 10 ^ Z.of_nat k)%Z by (apply Z.pow_pos_nonneg; lia).
  rewrite IH by nia. unfold times10_32. rewrite <- mult_IZR. rewrite double_int by nia. rewrite single_int by nia. f_equal. ring.
Qed.

(** a nearest float, given its mantissa and the power *)
Lemma nearest emin prec x k m : bpow radix2 (k - 1) <= x < bpow radix2 k -> (emin <= k - prec)%Z -> Rabs (x * bpow radix2 (prec - k) - IZR m) < 1 / 2 ->
  round radix2 (FLT_exp emin prec) ZnearestE x = IZR m * bpow radix2 (k - prec).
Proof.
  intros [L U] He Hm. assert (P : 0 < x) by (eapply Rlt_le_trans; [apply (bpow_gt_0 radix2 (k - 1))|exact L]).
  assert (Mg : mag radix2 x = k :> Z) by (apply mag_unique; rewrite Rabs_pos_eq by lra; split; assumption).
  unfold round, cexp, scaled_mantissa, cexp, FLT_exp. rewrite Mg. rewrite Z.max_l by exact He. unfold F2R. cbn [Fnum Fexp].
  replace (- (k - prec))%Z with (prec - k)%Z by ring. do 2 f_equal. apply Znearest_imp. replace (/ 2) with (1 / 2) by field. exact Hm.
Qed.
End Float.

(** ** the text 0.09: the float read is one below the nearest *)
Section Nine.
Local Open Scope R_scope.
Ltac powers := repeat match goal with |- context [bpow radix2 ?k] => let z := eval compute in k in
  match z with
  | Z0 => change (bpow radix2 k) with 1
  | Zpos ?n => let m := eval compute in (Z.pow_pos 2 n) in change (bpow radix2 k) with (IZR m)
  | Zneg ?n => let m := eval compute in (Z.pow_pos 2 n) in change (bpow radix2 k) with (/ IZR m)
  end end.
Ltac near_by := apply nearest; [powers; split; lra|lia|powers; unfold Rabs; destruct (Rcase_abs _); lra].

Lemma tenth_is : tenth = IZR 7205759403792794 * bpow radix2 (-3 - 53).
Proof. unfold tenth, double. near_by. Qed.
Lemma nine_1 : times01_32 9 = IZR 15099494 * bpow radix2 (0 - 24).
Proof.
  unfold times01_32. replace (double (9 * tenth)) with (IZR 8106479329266893 * bpow radix2 (0 - 53)).
  - unfold single. near_by.
  - symmetry. rewrite tenth_is. unfold double. near_by.
Qed.
Lemma nine_2 : times01_32 (IZR 15099494 * bpow radix2 (0 - 24)) = IZR 12079595 * bpow radix2 (-3 - 24).
Proof.
  unfold times01_32. replace (double (IZR 15099494 * bpow radix2 (0 - 24) * tenth)) with (IZR 6485183291614823 * bpow radix2 (-3 - 53)).
  - unfold single. near_by.
  - symmetry. rewrite tenth_is. unfold double. near_by.
Qed.
Lemma nine_near : single (9 / 100) = IZR 12079596 * bpow radix2 (-3 - 24).
Proof. unfold single. near_by. Qed.
End Nine.
