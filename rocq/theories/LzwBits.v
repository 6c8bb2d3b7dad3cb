(** Bit-level lemmas about the LZW code writer and reader. *)
From Coq Require Import List NArith ZArith Arith Bool Lia ZifyBool ZifyNat ZifyN.
From Verif Require Import LzwModel.
Import ListNotations.
Local Open Scope N_scope.
Ltac Zify.zify_post_hook ::= Z.div_mod_to_equations.

(** the n low bits of k, least significant first *)
Definition bits_of (n : nat) (k : N) : list bool := map (fun j => N.testbit k (N.of_nat j)) (seq 0 n).

Fixpoint val (l : list bool) : N :=
  match l with [] => 0 | b :: t => N.b2n b + 2 * val t end.

Definition bytes_bits (bs : list N) : list bool := flat_map (bits_of 8) bs.

Lemma bits_of_length n k : length (bits_of n k) = n.
Proof. unfold bits_of. now rewrite map_length, seq_length. Qed.

Lemma bits_of_nth n k j : (j < n)%nat -> nth j (bits_of n k) false = N.testbit k (N.of_nat j).
Proof.
  intros H. unfold bits_of.
  rewrite (nth_indep _ false (N.testbit k (N.of_nat 0))) by (rewrite map_length, seq_length; lia).
  rewrite (map_nth (fun j => N.testbit k (N.of_nat j))). now rewrite seq_nth by lia.
Qed.

Lemma bits_ext n k k' : (forall j, (j < n)%nat -> N.testbit k (N.of_nat j) = N.testbit k' (N.of_nat j)) ->
  bits_of n k = bits_of n k'.
Proof.
  intros H. unfold bits_of. apply map_ext_in. intros j Hj. apply in_seq in Hj. apply H. lia.
Qed.

Lemma seq_shift_add m n : seq m n = map (fun j => (m + j)%nat) (seq 0 n).
Proof.
  revert m. induction n as [|n IH]; intros m; cbn [seq map]; [easy|].
  f_equal; [lia|]. rewrite (IH (S m)), (IH 1%nat), map_map. apply map_ext. intros; lia.
Qed.

Lemma bits_of_app m n k : bits_of (m + n) k = bits_of m k ++ bits_of n (N.shiftr k (N.of_nat m)).
Proof.
  unfold bits_of. rewrite seq_app, map_app. f_equal.
  cbn [Nat.add]. rewrite (seq_shift_add m n), map_map. apply map_ext. intros j.
  rewrite N.shiftr_spec by lia. f_equal. lia.
Qed.

Lemma bits_of_0 k : bits_of 0 k = [].
Proof. reflexivity. Qed.

Lemma testbit_high k n j : k < 2 ^ n -> n <= j -> N.testbit k j = false.
Proof.
  intros Hk Hj. rewrite <- (N.mod_small k (2 ^ n)) by exact Hk. now apply N.mod_pow2_bits_high.
Qed.

Lemma bits_of_mod n m k : (n <= m)%nat -> bits_of n (k mod 2 ^ N.of_nat m) = bits_of n k.
Proof.
  intros H. apply bits_ext. intros j Hj. apply N.mod_pow2_bits_low. lia.
Qed.

Lemma bits_of_u8 n k : (n <= 8)%nat -> bits_of n (u8 k) = bits_of n k.
Proof. intros H. unfold u8. change 256 with (2 ^ N.of_nat 8). now apply bits_of_mod. Qed.

Lemma val_bound l : val l < 2 ^ N.of_nat (length l).
Proof.
  induction l as [|b t IH]; cbn [val length]; [cbn; lia|].
  rewrite Nat2N.inj_succ, N.pow_succ_r'. destruct b; cbn [N.b2n]; lia.
Qed.

Lemma val_app l1 l2 : val (l1 ++ l2) = val l1 + 2 ^ N.of_nat (length l1) * val l2.
Proof.
  induction l1 as [|b t IH]; cbn [val length app].
  - change (N.of_nat 0) with 0. rewrite N.pow_0_r. lia.
  - rewrite IH, Nat2N.inj_succ, N.pow_succ_r'. lia.
Qed.

Lemma bits_of_S n k : bits_of (S n) k = N.odd k :: bits_of n (N.div2 k).
Proof.
  change (S n) with (1 + n)%nat. rewrite bits_of_app, N.div2_spec.
  unfold bits_of at 1. cbn [seq map app]. change (N.of_nat 0) with 0. now rewrite N.bit0_odd.
Qed.

Lemma val_bits_of n k : val (bits_of n k) = k mod 2 ^ N.of_nat n.
Proof.
  revert k. induction n as [|n IH]; intros k.
  - rewrite bits_of_0. change (N.of_nat 0) with 0. rewrite N.pow_0_r, N.mod_1_r. reflexivity.
  - rewrite bits_of_S. cbn [val]. rewrite IH.
    rewrite Nat2N.inj_succ, N.pow_succ_r'.
    rewrite N.div2_div.
    rewrite N.mod_mul_r by (try apply N.pow_nonzero; lia).
    rewrite <- N.bit0_mod. rewrite N.bit0_odd. lia.
Qed.

Lemma val_bits_small n k : k < 2 ^ N.of_nat n -> val (bits_of n k) = k.
Proof. intros H. rewrite val_bits_of. now apply N.mod_small. Qed.

Lemma lor_shiftl_add a b n : a < 2 ^ n -> N.lor a (N.shiftl b n) = a + 2 ^ n * b.
Proof.
  intros Ha. rewrite <- N.lxor_lor, <- N.add_nocarry_lxor.
  - rewrite N.shiftl_mul_pow2. lia.
  - apply N.bits_inj. intros j. rewrite N.land_spec, N.bits_0.
    destruct (N.lt_ge_cases j n) as [H|H].
    + rewrite N.shiftl_spec_low by exact H. apply andb_false_r.
    + rewrite (testbit_high a n j) by assumption. reflexivity.
  - apply N.bits_inj. intros j. rewrite N.land_spec, N.bits_0.
    destruct (N.lt_ge_cases j n) as [H|H].
    + rewrite N.shiftl_spec_low by exact H. apply andb_false_r.
    + rewrite (testbit_high a n j) by assumption. reflexivity.
Qed.

(* ------------------------------------------------------------------ writer *)

(** all bits handed to the writer so far *)
Definition wstream (w : writer) : list bool := bytes_bits (w_os w) ++ bits_of (w_used w) (w_data w).

Definition wf_writer (w : writer) : Prop :=
  (w_used w < 8)%nat /\ w_data w < 2 ^ N.of_nat (w_used w) /\ Forall (fun b => b < 256) (w_os w).

Lemma bytes_bits_app a b : bytes_bits (a ++ b) = bytes_bits a ++ bytes_bits b.
Proof. unfold bytes_bits. apply flat_map_app. Qed.

Lemma bytes_bits_length a : length (bytes_bits a) = (8 * length a)%nat.
Proof.
  induction a as [|x a IH]; [reflexivity|].
  change (bytes_bits (x :: a)) with (bits_of 8 x ++ bytes_bits a).
  rewrite app_length, bits_of_length, IH. cbn [length]. lia.
Qed.

Lemma u8_lt k : u8 k < 256.
Proof. unfold u8. lia. Qed.

Lemma write_loop_spec fuel : forall os k rem os' used data,
  (rem <= fuel)%nat -> k < 2 ^ N.of_nat rem -> Forall (fun b => b < 256) os ->
  write_loop fuel os k rem = (os', used, data) ->
  bytes_bits os' ++ bits_of used data = bytes_bits os ++ bits_of rem k /\
  (used < 8)%nat /\ data < 2 ^ N.of_nat used /\ Forall (fun b => b < 256) os'.
Proof.
  induction fuel as [|fuel IH]; intros os k rem os' used data Hf Hk Hos H; cbn [write_loop] in H.
  - injection H as <- <- <-. replace rem with O by lia. rewrite !bits_of_0.
    repeat split; try exact Hos; cbn; lia.
  - destruct (Nat.eqb_spec rem 0) as [E|E].
    + injection H as <- <- <-. subst rem. rewrite !bits_of_0.
      repeat split; try exact Hos; cbn; lia.
    + destruct (Nat.leb_spec 8 rem) as [L|L].
      * apply IH in H; [|lia| |].
        -- destruct H as (H1 & H2 & H3 & H4). repeat split; try assumption.
           rewrite H1. rewrite bytes_bits_app. unfold bytes_bits at 2. cbn [flat_map]. rewrite app_nil_r.
           rewrite bits_of_u8 by lia. rewrite <- app_assoc. f_equal.
           replace rem with (8 + (rem - 8))%nat at 2 by lia. rewrite bits_of_app. reflexivity.
        -- rewrite N.shiftr_div_pow2. apply N.div_lt_upper_bound; [lia|].
           rewrite <- N.pow_add_r. replace (8 + N.of_nat (rem - 8)) with (N.of_nat rem) by lia. exact Hk.
        -- apply Forall_app. split; [exact Hos|]. constructor; [apply u8_lt|constructor].
      * injection H as <- <- <-. repeat split; [|lia| |exact Hos].
        -- now rewrite bits_of_u8 by lia.
        -- unfold u8. rewrite N.mod_small; [exact Hk|].
           apply N.lt_le_trans with (1 := Hk). change 256 with (2 ^ 8). apply N.pow_le_mono_r; lia.
Qed.

Lemma bits_of_lor_byte used data k : (used < 8)%nat -> data < 2 ^ N.of_nat used ->
  bits_of 8 (u8 (N.lor data (u32 (N.shiftl k (N.of_nat used))))) = bits_of used data ++ bits_of (8 - used) k.
Proof.
  intros Hu Hd. rewrite bits_of_u8 by lia.
  assert (E : bits_of 8 (N.lor data (u32 (N.shiftl k (N.of_nat used)))) =
              bits_of 8 (N.lor data (N.shiftl k (N.of_nat used)))).
  { apply bits_ext. intros j Hj. rewrite !N.lor_spec. f_equal. unfold u32. apply N.mod_pow2_bits_low. lia. }
  rewrite E. replace 8%nat with (used + (8 - used))%nat at 1 by lia. rewrite bits_of_app. f_equal.
  - apply bits_ext. intros j Hj. rewrite N.lor_spec, N.shiftl_spec_low by lia. apply orb_false_r.
  - apply bits_ext. intros j Hj. rewrite N.shiftr_spec, N.lor_spec by lia.
    rewrite (testbit_high data (N.of_nat used)) by (assumption || lia).
    rewrite N.shiftl_spec_high by lia. cbn [orb]. f_equal. lia.
Qed.

Lemma write_spec w k : wf_writer w -> (8 <= w_bits w)%nat -> k < 2 ^ N.of_nat (w_bits w) ->
  wf_writer (write w k) /\ wstream (write w k) = wstream w ++ bits_of (w_bits w) k /\ w_bits (write w k) = w_bits w.
Proof.
  intros (Hu & Hd & Ho) Hb Hk. unfold write.
  destruct (Nat.eqb_spec (w_used w) 0) as [E|E].
  - destruct (write_loop (w_bits w) (w_os w) k (w_bits w)) as [[os used] data] eqn:W.
    apply write_loop_spec in W; [|lia|exact Hk|exact Ho]. destruct W as (W1 & W2 & W3 & W4).
    repeat split; cbn [w_os w_bits w_used w_data]; try assumption. unfold wstream. cbn [w_os w_bits w_used w_data]. rewrite W1, E, bits_of_0, app_nil_r. reflexivity.
  - set (byte := u8 _).
    destruct (write_loop (w_bits w) (w_os w ++ [byte]) (N.shiftr k (N.of_nat (8 - w_used w)))
                (w_bits w - (8 - w_used w))) as [[os used] data] eqn:W.
    apply write_loop_spec in W; [|lia| |].
    + destruct W as (W1 & W2 & W3 & W4). repeat split; cbn [w_os w_bits w_used w_data]; try assumption.
      unfold wstream. cbn [w_os w_used w_data]. rewrite W1. rewrite bytes_bits_app.
      unfold bytes_bits at 2. cbn [flat_map]. rewrite app_nil_r. subst byte.
      rewrite bits_of_lor_byte by assumption. rewrite <- !app_assoc. f_equal. f_equal.
      replace (w_bits w) with ((8 - w_used w) + (w_bits w - (8 - w_used w)))%nat at 2 by lia.
      rewrite bits_of_app. reflexivity.
    + rewrite N.shiftr_div_pow2. apply N.div_lt_upper_bound; [apply N.pow_nonzero; lia|].
      rewrite <- N.pow_add_r.
      replace (N.of_nat (8 - w_used w) + N.of_nat (w_bits w - (8 - w_used w))) with (N.of_nat (w_bits w)) by lia.
      exact Hk.
    + apply Forall_app. split; [exact Ho|]. constructor; [apply u8_lt|constructor].
Qed.

(** the bytes finally written carry exactly the bits, the Eof code and fewer than 8 zero bits *)
Lemma writer_finish_spec w : wf_writer w -> (9 <= w_bits w)%nat ->
  exists pad, (pad < 8)%nat /\
    bytes_bits (writer_finish w) = wstream w ++ bits_of (w_bits w) eof_code ++ repeat false pad /\
    Forall (fun b => b < 256) (writer_finish w).
Proof.
  intros Hw Hb.
  destruct (write_spec w eof_code Hw) as (H1 & H2 & H3); [lia| |].
  { unfold eof_code. change 256 with (2 ^ 8). apply N.pow_lt_mono_r; lia. }
  unfold writer_finish. destruct H1 as (Hu & Hd & Ho).
  destruct (Nat.eqb_spec (w_used (write w eof_code)) 0) as [E|E].
  - exists O. split; [lia|]. split; [|exact Ho]. cbn [repeat]. rewrite app_nil_r. rewrite <- H2. unfold wstream.
    rewrite E, bits_of_0, app_nil_r. reflexivity.
  - set (w' := write w eof_code) in *. exists (8 - w_used w')%nat. split; [lia|]. split.
    + rewrite bytes_bits_app. unfold bytes_bits at 2. cbn [flat_map]. rewrite app_nil_r.
      rewrite app_assoc, <- H2. unfold wstream. rewrite <- app_assoc. f_equal.
      replace 8%nat with (w_used w' + (8 - w_used w'))%nat at 1 by lia. rewrite bits_of_app. f_equal.
      apply nth_ext with (d := false) (d' := false).
      * now rewrite bits_of_length, repeat_length.
      * intros j Hj. rewrite bits_of_length in Hj. rewrite nth_repeat, bits_of_nth by exact Hj.
        rewrite N.shiftr_spec by lia. apply testbit_high with (n := N.of_nat (w_used w')); [exact Hd|lia].
    + apply Forall_app. split; [exact Ho|]. constructor; [|constructor].
      apply N.lt_trans with (1 := Hd). change 256 with (2 ^ 8). apply N.pow_lt_mono_r; lia.
Qed.

(* ------------------------------------------------------------------ reader *)

(** all bits the reader has not yet delivered *)
Definition rstream (r : reader) : list bool := bits_of (r_used r) (r_data r) ++ bytes_bits (r_is r).

Definition wf_reader (r : reader) : Prop :=
  (r_used r < 8)%nat /\ r_data r < 2 ^ N.of_nat (r_used r) /\ Forall (fun b => b < 256) (r_is r).

Lemma u32_small x : x < 2 ^ 32 -> u32 x = x.
Proof. intros H. unfold u32. now apply N.mod_small. Qed.

Lemma shiftl_lt a n m : a < 2 ^ n -> N.shiftl a m < 2 ^ (n + m).
Proof.
  intros H. rewrite N.shiftl_mul_pow2, N.pow_add_r.
  apply N.mul_lt_mono_pos_r; [|exact H]. assert (2 ^ m <> 0) by (apply N.pow_nonzero; lia). lia.
Qed.

Lemma read_loop_spec is : forall rem off k k' is' used data ok,
  Forall (fun b => b < 256) is -> k < 2 ^ N.of_nat off -> (off + rem <= 32)%nat ->
  read_loop is rem off k = (k', is', used, data, ok) ->
  (used < 8)%nat /\ data < 2 ^ N.of_nat used /\ Forall (fun b => b < 256) is' /\
  bits_of used data ++ bytes_bits is' = skipn rem (bytes_bits is) /\
  k' = k + 2 ^ N.of_nat off * val (firstn rem (bytes_bits is)) /\
  ok = Nat.leb rem (length (bytes_bits is)) /\
  (length is' <= length is)%nat /\ (ok = true -> rem <> O -> (length is' < length is)%nat).
Proof.
  induction is as [|t is IH]; intros rem off k k' is' used data ok Hb Hk Hr H; cbn [read_loop] in H.
  - destruct (Nat.eqb_spec rem 0) as [E|E].
    + injection H as <- <- <- <- <-. subst rem. cbn. repeat split; try lia; auto.
    + injection H as <- <- <- <- <-. cbn [bytes_bits flat_map]. rewrite firstn_nil, skipn_nil. cbn [val length].
      assert (L : Nat.leb rem 0 = false) by (apply Nat.leb_gt; lia). rewrite L.
      repeat split; auto; try discriminate; cbn; lia.
  - inversion Hb as [|? ? Ht Hb']; subst.
    destruct (Nat.eqb_spec rem 0) as [E|E].
    + injection H as <- <- <- <- <-. subst rem. cbn [firstn skipn val]. rewrite bits_of_0.
      repeat split; auto; cbn; lia.
    + change (bytes_bits (t :: is)) with (bits_of 8 t ++ bytes_bits is).
      destruct (Nat.leb_spec 8 rem) as [L|L].
      * assert (U : u32 (N.shiftl t (N.of_nat off)) = N.shiftl t (N.of_nat off)).
        { apply u32_small. apply N.lt_le_trans with (2 ^ (8 + N.of_nat off)).
          - apply shiftl_lt. exact Ht.
          - apply N.pow_le_mono_r; lia. }
        rewrite U, lor_shiftl_add in H by exact Hk.
        apply IH in H; [|exact Hb'| |lia].
        -- destruct H as (H1 & H2 & H3 & H4 & H5 & H6 & H7 & H8).
           repeat split; try assumption.
           ++ rewrite H4. rewrite skipn_app, bits_of_length. rewrite (skipn_all2 (bits_of 8 t)) by (rewrite bits_of_length; lia).
              reflexivity.
           ++ rewrite H5. rewrite firstn_app, bits_of_length, (firstn_all2 (bits_of 8 t)) by (rewrite bits_of_length; lia).
              rewrite val_app, bits_of_length, val_bits_small by exact Ht.
              rewrite Nat2N.inj_add, N.pow_add_r. change (N.of_nat 8) with 8. lia.
           ++ rewrite H6. rewrite app_length, bits_of_length.
              destruct (Nat.leb_spec (rem - 8) (length (bytes_bits is))), (Nat.leb_spec rem (8 + length (bytes_bits is))); lia.
           ++ cbn [length]. lia.
           ++ intros _ _. cbn [length]. lia.
        -- rewrite Nat2N.inj_add, N.pow_add_r. change (N.of_nat 8) with 8. change (2 ^ 8) with 256.
           assert (2 ^ N.of_nat off * t <= 2 ^ N.of_nat off * 255) by (apply N.mul_le_mono_l; lia). lia.
      * remember (8 - rem)%nat as c8 eqn:Hc8. injection H as <- <- <- <- <-. subst c8.
        assert (U : N.land t (N.ones (N.of_nat rem)) = t mod 2 ^ N.of_nat rem) by apply N.land_ones.
        rewrite U. assert (Hm : t mod 2 ^ N.of_nat rem < 2 ^ N.of_nat rem) by (apply N.mod_lt, N.pow_nonzero; lia).
        rewrite u32_small.
        2:{ apply N.lt_le_trans with (2 ^ (N.of_nat rem + N.of_nat off)).
            - apply shiftl_lt. exact Hm.
            - apply N.pow_le_mono_r; lia. }
        rewrite lor_shiftl_add by exact Hk.
        assert (S8 : bits_of 8 t = bits_of rem t ++ bits_of (8 - rem) (N.shiftr t (N.of_nat rem))).
        { replace 8%nat with (rem + (8 - rem))%nat at 1 by lia. apply bits_of_app. }
        repeat split.
        -- lia.
        -- rewrite N.shiftr_div_pow2. apply N.div_lt_upper_bound; [apply N.pow_nonzero; lia|].
           rewrite <- N.pow_add_r. replace (N.of_nat rem + N.of_nat (8 - rem)) with 8 by lia. exact Ht.
        -- exact Hb'.
        -- rewrite S8, <- app_assoc. rewrite skipn_app, bits_of_length, Nat.sub_diag.
           rewrite (skipn_all2 (bits_of rem t)) by (rewrite bits_of_length; lia). reflexivity.
        -- rewrite S8, <- app_assoc. rewrite firstn_app, bits_of_length, Nat.sub_diag. cbn [firstn].
           rewrite firstn_all2 by (rewrite bits_of_length; lia). rewrite app_nil_r, val_bits_of. reflexivity.
        -- rewrite app_length, bits_of_length.
           destruct (Nat.leb_spec rem (8 + length (bytes_bits is))); [reflexivity|lia].
        -- cbn [length]. lia.
        -- intros _ _. cbn [length]. lia.
Qed.

(** what [read] does in terms of the undelivered bits *)
Lemma read_spec r : wf_reader r -> (8 <= r_bits r <= 32)%nat ->
  let s := rstream r in let w := r_bits r in
  let k := val (firstn w s) in
  let ok := Nat.leb w (length s) in
  exists r', read r = (k, (negb (k =? eof_code) && (r_good r && ok))%bool, r') /\
    wf_reader r' /\ rstream r' = skipn w s /\ r_bits r' = w /\
    r_good r' = (r_good r && ok)%bool /\ r_feofmc r' = ((k =? eof_code) || r_feofmc r)%bool /\
    (length (r_is r') <= length (r_is r))%nat /\
    (ok = true -> (length (r_is r') < length (r_is r))%nat).
Proof.
  intros (Hu & Hd & Ho) Hb s w k ok. unfold read.
  destruct (read_loop (r_is r) (r_bits r - r_used r) (r_used r) (r_data r)) as [[[[k1 is'] used] data] ok1] eqn:E.
  apply read_loop_spec in E; [|exact Ho|exact Hd|lia].
  destruct E as (E1 & E2 & E3 & E4 & E5 & E6 & E7 & E8).
  assert (Ek : k1 = k).
  { subst k s w. unfold rstream. rewrite firstn_app, bits_of_length.
    rewrite (firstn_all2 (bits_of _ _)) by (rewrite bits_of_length; lia).
    rewrite val_app, bits_of_length, val_bits_small by exact Hd. exact E5. }
  assert (Eok : ok1 = ok).
  { subst ok s w. rewrite E6. unfold rstream. rewrite app_length, bits_of_length.
    destruct (Nat.leb_spec (r_bits r - r_used r) (length (bytes_bits (r_is r)))),
      (Nat.leb_spec (r_bits r) (r_used r + length (bytes_bits (r_is r)))); lia. }
  assert (Es : bits_of used data ++ bytes_bits is' = skipn w s).
  { subst s w. rewrite E4. unfold rstream. rewrite skipn_app, bits_of_length.
    rewrite (skipn_all2 (bits_of _ _)) by (rewrite bits_of_length; lia). reflexivity. }
  rewrite Ek, Eok in *. clear E5 E6.
  destruct (k =? eof_code).
  - eexists. split; [reflexivity|]. cbn. repeat split; try assumption. intros H. apply E8; [exact H|lia].
  - eexists. split; [reflexivity|]. cbn. repeat split; try assumption. intros H. apply E8; [exact H|lia].
Qed.
