(** Proofs about the LZW codec model. *)
From Coq Require Import List NArith ZArith Arith Bool Lia ZifyBool ZifyNat ZifyN.
From Verif Require Import LzwModel LzwBits.
Import ListNotations.
Local Open Scope N_scope.

(* ------------------------------------------------------------------ generic *)

Lemma at_Some_lt {A} (l : list A) i a : at_ l i = Some a -> i < size_ l.
Proof. unfold at_, size_. intros H. assert (N.to_nat i < length l)%nat by (apply nth_error_Some; congruence). lia. Qed.

Lemma at_lt {A} (l : list A) i : i < size_ l -> exists a, at_ l i = Some a.
Proof.
  unfold at_, size_. intros H. destruct (nth_error l (N.to_nat i)) as [a|] eqn:E; [now exists a|].
  apply nth_error_None in E. lia.
Qed.

Lemma at_app1 {A} (l l' : list A) i : i < size_ l -> at_ (l ++ l') i = at_ l i.
Proof. unfold at_, size_. intros H. apply nth_error_app1. lia. Qed.

Lemma at_snoc {A} (l : list A) a : at_ (l ++ [a]) (size_ l) = Some a.
Proof.
  unfold at_, size_. rewrite Nat2N.id. rewrite nth_error_app2 by lia. now rewrite Nat.sub_diag.
Qed.

Lemma at_snoc_inv {A} (l : list A) a i b : at_ (l ++ [a]) i = Some b ->
  (i < size_ l /\ at_ l i = Some b) \/ (i = size_ l /\ b = a).
Proof.
  intros H. destruct (N.lt_ge_cases i (size_ l)) as [L|L].
  - left. split; [exact L|]. now rewrite at_app1 in H.
  - right. pose proof (at_Some_lt _ _ _ H) as H'. unfold size_ in *. rewrite app_length in H'. cbn [length] in H'.
    assert (i = N.of_nat (length l)) by lia. subst i. split; [reflexivity|].
    change (N.of_nat (length l)) with (size_ l) in H. rewrite at_snoc in H. congruence.
Qed.

Lemma size_app {A} (l l' : list A) : size_ (l ++ l') = size_ l + size_ l'.
Proof. unfold size_. rewrite app_length. lia. Qed.

Lemma size_snoc {A} (l : list A) a : size_ (l ++ [a]) = size_ l + 1.
Proof. unfold size_. rewrite app_length. cbn [length]. lia. Qed.

Lemma upd_length {A} (l : list A) i a : length (upd l i a) = length l.
Proof. revert i; induction l as [|x l IH]; intros [|i]; cbn; auto. Qed.

Lemma upd_nth_same {A} (l : list A) i a : (i < length l)%nat -> nth_error (upd l i a) i = Some a.
Proof. revert i; induction l as [|x l IH]; intros [|i] H; cbn in *; auto; try lia. apply IH; lia. Qed.

Lemma upd_nth_other {A} (l : list A) i j a : i <> j -> nth_error (upd l i a) j = nth_error l j.
Proof. revert i j; induction l as [|x l IH]; intros [|i] [|j] H; cbn; auto; try lia. Qed.

Lemma at_upd_same {A} (l : list A) i a : i < size_ l -> at_ (upd l (N.to_nat i) a) i = Some a.
Proof. unfold at_, size_. intros H. apply upd_nth_same. lia. Qed.

Lemma at_upd_other {A} (l : list A) i j a : i <> j -> at_ (upd l (N.to_nat i) a) j = at_ l j.
Proof. unfold at_. intros H. apply upd_nth_other. lia. Qed.

Lemma size_upd {A} (l : list A) i a : size_ (upd l i a) = size_ l.
Proof. unfold size_. now rewrite upd_length. Qed.

(* ------------------------------------------------------------------ widths *)

Lemma rb_log2 n : 0 < n -> required_bits n = S (N.to_nat (N.log2 n)).
Proof.
  intros H. unfold required_bits. destruct (N.eqb_spec n 0); [lia|].
  rewrite N.size_log2 by lia. lia.
Qed.

Lemma rb_mono m n : 0 < m -> m <= n -> (required_bits m <= required_bits n)%nat.
Proof. intros H0 H. rewrite !rb_log2 by lia. assert (N.log2 m <= N.log2 n) by (apply N.log2_le_mono; lia). lia. Qed.

Lemma rb_succ n : 0 < n -> (required_bits (n + 1) <= S (required_bits n))%nat.
Proof.
  intros H0. rewrite !rb_log2 by lia. pose proof (N.log2_succ_le n). rewrite <- N.add_1_r in H. lia.
Qed.

Lemma rb_bound n : 0 < n -> n < 2 ^ N.of_nat (required_bits n).
Proof.
  intros H. rewrite rb_log2 by lia. pose proof (N.log2_spec n H) as [_ L].
  replace (N.of_nat (S (N.to_nat (N.log2 n)))) with (N.succ (N.log2 n)) by lia. exact L.
Qed.

Lemma rb_le n m : 0 < n -> n < 2 ^ N.of_nat m -> (required_bits n <= m)%nat.
Proof.
  intros H0 H. rewrite rb_log2 by lia. apply N.log2_lt_pow2 in H; lia.
Qed.

Lemma rb_256 : required_bits 256 = 9%nat. Proof. reflexivity. Qed.
Lemma rb_257 : required_bits 257 = 9%nat. Proof. reflexivity. Qed.

Lemma rb_ge9 n : 256 <= n -> (9 <= required_bits n)%nat.
Proof. intros H. rewrite <- rb_256. apply rb_mono; lia. Qed.

Definition is_fuel (x : dres) : bool := match x with DFuel _ => true | _ => false end.

Section Codec.
Variable dms : N.
Hypothesis dms_lo : 258 <= dms.
Hypothesis dms_hi : dms <= 2 ^ 25.

Notation reset_dict := (reset_dict dms).
Notation reset_nodes := (reset_nodes dms).
Notation rebuild := (rebuild dms).
Notation dec_step := (dec_step dms).
Notation dec_loop := (dec_loop dms).

Lemma rb_le25 n : 0 < n -> n < dms -> (required_bits n <= 25)%nat.
Proof. intros H0 H. apply rb_le; [exact H0|]. change (N.of_nat 25) with 25. lia. Qed.

(* ------------------------------------------------------------------ initial entries *)

Lemma initial_code_lt b : b < 256 -> initial_code b < 256.
Proof. unfold initial_code. destruct (N.ltb_spec b 128); lia. Qed.

Lemma initial_byte_code b : b < 256 -> initial_byte (initial_code b) = b.
Proof.
  unfold initial_byte, initial_code. intros H. destruct (N.ltb_spec b 128) as [L|L].
  - destruct (N.ltb_spec (b + 128) 128); lia.
  - destruct (N.ltb_spec (b - 128) 128); lia.
Qed.

Lemma initial_code_inj a b : a < 256 -> b < 256 -> initial_code a = initial_code b -> a = b.
Proof. intros Ha Hb H. rewrite <- (initial_byte_code a), <- (initial_byte_code b) by assumption. now rewrite H. Qed.

Lemma initial_byte_lt k : k < 256 -> initial_byte k < 256.
Proof. unfold initial_byte. destruct (N.ltb_spec k 128); lia. Qed.

Lemma all_bytes_at k : k < 256 -> at_ all_bytes k = Some (initial_byte k).
Proof.
  intros H. unfold at_, all_bytes. rewrite nth_error_map.
  rewrite (nth_error_nth' _ 0%nat) by (rewrite seq_length; lia).
  rewrite seq_nth by lia. cbn [option_map Nat.add]. f_equal. f_equal. lia.
Qed.

Lemma all_bytes_size : size_ all_bytes = 256.
Proof. reflexivity. Qed.

Lemma at_map {A B} (f : A -> B) l i : at_ (map f l) i = option_map f (at_ l i).
Proof. apply nth_error_map. Qed.

Lemma size_map {A B} (f : A -> B) l : size_ (map f l) = size_ l.
Proof. unfold size_. now rewrite map_length. Qed.

Lemma reset_dict_size : size_ reset_dict = 257.
Proof. unfold LzwModel.reset_dict. rewrite size_snoc, size_map, all_bytes_size. reflexivity. Qed.

Lemma reset_dict_at k : k < 256 -> at_ reset_dict k = Some (dms, initial_byte k).
Proof.
  intros H. unfold LzwModel.reset_dict. rewrite at_app1 by (rewrite size_map, all_bytes_size; lia).
  rewrite at_map, all_bytes_at by exact H. reflexivity.
Qed.

Lemma reset_dict_eof : at_ reset_dict 256 = Some (0, 0).
Proof.
  unfold LzwModel.reset_dict. replace 256 with (size_ (map (fun c => (dms, c)) all_bytes)) by (rewrite size_map; reflexivity).
  apply at_snoc.
Qed.

(* ------------------------------------------------------------------ decoder dictionaries *)

(** a dictionary as built by the codec: the 257 initial entries, and later entries that extend an earlier real entry *)
Definition dwf (D : list (N * N)) : Prop :=
  257 <= size_ D <= dms /\
  (forall k, k < 256 -> at_ D k = Some (dms, initial_byte k)) /\
  (forall j p c, 257 <= j -> at_ D j = Some (p, c) -> p < j /\ p <> 256 /\ c < 256).

Inductive strof (D : list (N * N)) : N -> list N -> Prop :=
| strof_init k c : k < 256 -> at_ D k = Some (dms, c) -> strof D k [c]
| strof_ext k p c s : 257 <= k -> at_ D k = Some (p, c) -> strof D p s -> strof D k (s ++ [c]).

Lemma dwf_reset : dwf reset_dict.
Proof.
  split; [|split].
  - rewrite reset_dict_size. lia.
  - apply reset_dict_at.
  - intros j p c Hj H. apply at_Some_lt in H. rewrite reset_dict_size in H. lia.
Qed.

Lemma dwf_snoc D i c : dwf D -> size_ D < dms -> i < size_ D -> i <> 256 -> c < 256 -> dwf (D ++ [(i, c)]).
Proof.
  intros (Hs & Hi & He) Hf Hi1 Hi2 Hc. split; [|split].
  - rewrite size_snoc. lia.
  - intros k Hk. rewrite at_app1 by lia. now apply Hi.
  - intros j p c' Hj H. apply at_snoc_inv in H. destruct H as [[_ H]|[-> H]].
    + now apply He in H.
    + injection H as -> ->. auto.
Qed.

Lemma strof_app D E k s : strof D k s -> strof (D ++ E) k s.
Proof.
  induction 1 as [k c Hk H|k p c s Hk H _ IH].
  - constructor; [exact Hk|]. rewrite at_app1; [exact H|]. now apply at_Some_lt in H.
  - econstructor; [exact Hk| |exact IH]. rewrite at_app1; [exact H|]. now apply at_Some_lt in H.
Qed.

Lemma strof_lt D k s : strof D k s -> k < size_ D /\ k <> 256.
Proof.
  destruct 1 as [k c Hk H|k p c s Hk H _]; apply at_Some_lt in H; lia.
Qed.

Lemma strof_fun D k s1 : strof D k s1 -> forall s2, strof D k s2 -> s1 = s2.
Proof.
  induction 1 as [k c Hk H|k p c s Hk H _ IH]; intros s2 H2; inversion H2; subst; try lia; try congruence.
  rewrite H in H1. injection H1 as <- <-. f_equal. now apply IH.
Qed.

Lemma strof_app_inv D E k s : dwf D -> k < size_ D -> strof (D ++ E) k s -> strof D k s.
Proof.
  intros HD Hk H. induction H as [k c Hk' H|k p c s Hk' H _ IH].
  - constructor; [exact Hk'|]. now rewrite at_app1 in H.
  - rewrite at_app1 in H by exact Hk. econstructor; [exact Hk'|exact H|]. apply IH.
    destruct HD as (_ & _ & He). destruct (He _ _ _ Hk' H) as (Hp & _). lia.
Qed.

Lemma strof_nonempty D k s : strof D k s -> s <> [].
Proof. destruct 1; [easy|]. destruct s; easy. Qed.

Lemma strof_total D : dwf D -> forall k, k < size_ D -> k <> 256 -> exists s, strof D k s.
Proof.
  intros (Hs & Hi & He) k. induction k as [k IH] using (well_founded_induction N.lt_wf_0). intros Hk Hk2.
  destruct (N.lt_ge_cases k 256) as [L|L].
  - exists [initial_byte k]. constructor; [exact L|]. now apply Hi.
  - destruct (at_lt D k Hk) as [[p c] E]. assert (257 <= k) as Hk3 by lia.
    destruct (He _ _ _ Hk3 E) as (Hp & Hp2 & _).
    destruct (IH p Hp ltac:(lia) Hp2) as [s H]. exists (s ++ [c]). now apply strof_ext with (p := p).
Qed.

Lemma strof_bytes D k s : dwf D -> strof D k s -> Forall (fun b => b < 256) s.
Proof.
  intros (Hs & Hi & He). induction 1 as [k c Hk H|k p c s Hk H _ IH].
  - rewrite Hi in H by exact Hk. injection H as <-. constructor; [now apply initial_byte_lt|constructor].
  - apply Forall_app. split; [exact IH|]. constructor; [|constructor]. now apply He in H.
Qed.

Lemma strof_len D k s : dwf D -> strof D k s -> (length s <= N.to_nat k + 1)%nat.
Proof.
  intros (Hs & Hi & He). induction 1 as [k c Hk H|k p c s Hk H _ IH]; cbn [length]; [lia|].
  rewrite app_length. cbn [length]. destruct (He _ _ _ Hk H) as (Hp & _). lia.
Qed.

Lemma rebuild_strof D k s : dwf D -> strof D k s -> forall fuel acc, (length s <= fuel)%nat ->
  rebuild fuel D k acc = RStr (s ++ acc).
Proof.
  intros HD. induction 1 as [k c Hk H|k p c s Hk H Hp IH]; intros fuel acc Hf.
  - destruct fuel as [|fuel]; [cbn in Hf; lia|]. cbn [LzwModel.rebuild].
    destruct (N.eqb_spec k dms); [lia|]. rewrite H. destruct fuel; cbn [LzwModel.rebuild]; now rewrite N.eqb_refl.
  - rewrite app_length in Hf. cbn [length] in Hf. destruct fuel as [|fuel]; [lia|]. cbn [LzwModel.rebuild].
    destruct (N.eqb_spec k dms) as [->|E].
    { apply at_Some_lt in H. destruct HD as ((_ & Hs) & _). lia. }
    rewrite H, IH by lia. now rewrite <- app_assoc.
Qed.

Lemma rebuild_ok D k s : dwf D -> strof D k s -> rebuild (S (length D)) D k [] = RStr s.
Proof.
  intros HD H. rewrite (rebuild_strof D k s HD H); [now rewrite app_nil_r|].
  pose proof (strof_len D k s HD H). apply strof_lt in H. unfold size_ in H. lia.
Qed.

(* ------------------------------------------------------------------ one decoder step *)

Definition dnorm (d : list (N * N)) : list (N * N) := if size_ d =? dms then reset_dict else d.

(** state of the decoder between two iterations of its loop *)
Definition dst0 (d : list (N * N)) (r : reader) : Prop :=
  257 <= size_ d <= dms /\ wf_reader r /\ r_bits r = required_bits (size_ d - 1) /\ r_good r = true /\ r_feofmc r = false.

Definition dst_ok (d : list (N * N)) (r : reader) : Prop := dwf d /\ dst0 d r.

Definition dec_width (d : list (N * N)) : nat := required_bits (size_ (dnorm d)).

Lemma dnorm_dwf d : dwf d -> dwf (dnorm d) /\ size_ (dnorm d) < dms.
Proof.
  intros H. unfold dnorm. destruct (N.eqb_spec (size_ d) dms) as [E|E].
  - split; [apply dwf_reset|]. rewrite reset_dict_size. lia.
  - split; [exact H|]. destruct H as (H & _). lia.
Qed.

Lemma dnorm_size d : 257 <= size_ d <= dms -> 257 <= size_ (dnorm d) < dms.
Proof.
  intros H. unfold dnorm. destruct (N.eqb_spec (size_ d) dms) as [E|E]; [rewrite reset_dict_size|]; lia.
Qed.

Lemma dec_width_range d : 257 <= size_ d <= dms -> (9 <= dec_width d <= 25)%nat.
Proof.
  intros H. pose proof (dnorm_size d H) as H2. split.
  - apply rb_ge9. lia.
  - apply rb_le25; lia.
Qed.

Lemma dec_width_norm d : dec_width (dnorm d) = dec_width d.
Proof.
  unfold dec_width. f_equal. unfold dnorm. destruct (N.eqb_spec (size_ d) dms) as [E1|E1].
  - rewrite reset_dict_size. destruct (N.eqb_spec 257 dms); reflexivity.
  - destruct (N.eqb_spec (size_ d) dms); [contradiction|reflexivity].
Qed.

(** what the reader looks like when [read] is called *)
Lemma dec_reader d r : dst0 d r ->
  let full := size_ d =? dms in
  let r1 := if full then r_set_bits r 9 else r in
  let r2 := if Nat.ltb (r_bits r1) (required_bits (size_ (dnorm d))) then r_set_bits r1 (S (r_bits r1)) else r1 in
  r2 = r_set_bits r (dec_width d).
Proof.
  intros (HD & _ & Hb & _) full r1 r2. subst r2 r1 full. unfold dec_width, dnorm.
  destruct (N.eqb_spec (size_ d) dms) as [E|E].
  - rewrite reset_dict_size, rb_257. cbn. reflexivity.
  - pose proof HD as Hs. pose proof (rb_mono (size_ d - 1) (size_ d) ltac:(lia) ltac:(lia)) as M.
    pose proof (rb_succ (size_ d - 1) ltac:(lia)) as S1. replace (size_ d - 1 + 1) with (size_ d) in S1 by lia.
    rewrite Hb in *. destruct r as [is b u dt g f]. cbn in Hb. cbn [r_set_bits r_bits r_is r_used r_data r_good r_feofmc].
    destruct (Nat.ltb_spec (required_bits (size_ d - 1)) (required_bits (size_ d))) as [L|L].
    + unfold r_set_bits. cbn. f_equal. lia.
    + unfold r_set_bits. cbn. f_equal. lia.
Qed.

Lemma rstream_set_bits r b : rstream (r_set_bits r b) = rstream r.
Proof. reflexivity. Qed.

Lemma wf_reader_set_bits r b : wf_reader r -> wf_reader (r_set_bits r b).
Proof. exact (fun H => H). Qed.

(** reading one complete code [k] *)
Lemma dec_read_code d r k X : dst_ok d r -> k < 2 ^ N.of_nat (dec_width d) -> k <> 256 ->
  rstream r = bits_of (dec_width d) k ++ X ->
  exists r', read (r_set_bits r (dec_width d)) = (k, true, r') /\ wf_reader r' /\ rstream r' = X /\
    r_bits r' = dec_width d /\ r_good r' = true /\ r_feofmc r' = false.
Proof.
  intros (HD0 & HD & Hw & Hb & Hg & Hf) Hk Hk2 Hs.
  pose proof (dec_width_range d HD) as HW.
  destruct (read_spec (r_set_bits r (dec_width d))) as (r' & E & Hw' & Hs' & Hb' & Hg' & Hf' & _).
  { exact Hw. } { cbn; lia. }
  rewrite rstream_set_bits in *. cbn [r_bits r_set_bits] in *.
  assert (F : firstn (dec_width d) (rstream r) = bits_of (dec_width d) k).
  { rewrite Hs, firstn_app, bits_of_length, Nat.sub_diag. cbn [firstn]. rewrite app_nil_r.
    apply firstn_all2. rewrite bits_of_length. lia. }
  assert (L : Nat.leb (dec_width d) (length (rstream r)) = true).
  { apply Nat.leb_le. rewrite Hs, app_length, bits_of_length. lia. }
  rewrite F, L, val_bits_small in * by exact Hk. unfold eof_code in *.
  destruct (N.eqb_spec k 256) as [|_]; [contradiction|]. cbn [negb andb orb r_good r_set_bits r_feofmc] in *.
  exists r'. rewrite Hg in E, Hg'. rewrite Hf in Hf'. cbn in *.
  repeat split; try assumption; try apply Hw'.
  rewrite Hs', Hs, skipn_app, bits_of_length, Nat.sub_diag. cbn [skipn].
  rewrite skipn_all2 by (rewrite bits_of_length; lia). reflexivity.
Qed.

Lemma dec_step_unfold d r i out : dst0 d r ->
  dec_step d r i out =
  let d := dnorm d in
  let '(k, ok, r) := read (r_set_bits r (dec_width d)) in
  if negb ok then Stop (if r_feofmc r then DDone out else DCorrupted out)
  else if size_ d <? k then Stop (DBadCode out)
  else if k =? size_ d then
    match rebuild (S (length d)) d i [] with
    | RStr (f :: _) =>
      match rebuild (S (length (d ++ [(i, f)]))) (d ++ [(i, f)]) k [] with
      | RStr s => Cont (d ++ [(i, f)]) r k (out ++ s)
      | ROob => Stop (DUb out)
      | RFuel => Stop (DLoop out)
      end
    | RStr [] => Stop (DUb out)
    | ROob => Stop (DUb out)
    | RFuel => Stop (DLoop out)
    end
  else
    match rebuild (S (length d)) d k [] with
    | RStr (f :: s') => Cont (if i =? dms then d else d ++ [(i, f)]) r k (out ++ f :: s')
    | RStr [] => Stop (DUb out)
    | ROob => Stop (DUb out)
    | RFuel => Stop (DLoop out)
    end.
Proof.
  intros H. pose proof (dec_reader d r H) as E. cbn zeta in E.
  pose proof (dec_width_norm d) as W.
  cbn zeta. rewrite W.
  unfold LzwModel.dec_step. change (if size_ d =? dms then reset_dict else d) with (dnorm d). rewrite E. reflexivity.
Qed.

(** the decoder has no previous code (start of the stream) *)
Lemma dec_step_first d r k X out t : dst_ok d r -> k < 2 ^ N.of_nat (dec_width d) ->
  rstream r = bits_of (dec_width d) k ++ X -> strof (dnorm d) k t ->
  exists r', dec_step d r dms out = Cont (dnorm d) r' k (out ++ t) /\
    wf_reader r' /\ rstream r' = X /\ r_bits r' = dec_width d /\ r_good r' = true /\ r_feofmc r' = false.
Proof.
  intros H Hk Hs Ht. pose proof (strof_lt _ _ _ Ht) as (Hk1 & Hk2).
  destruct (dec_read_code d r k X H Hk Hk2 Hs) as (r' & E & Hr). exists r'. split; [|exact Hr].
  assert (HD : dwf (dnorm d)) by (apply dnorm_dwf, H).
  rewrite dec_step_unfold by apply H. cbn zeta.
  pose proof (dec_width_norm d) as W.
  rewrite W, E. cbn [negb].
  destruct (N.ltb_spec (size_ (dnorm d)) k); [lia|]. destruct (N.eqb_spec k (size_ (dnorm d))); [lia|].
  rewrite (rebuild_ok _ _ _ HD Ht). pose proof (strof_nonempty _ _ _ Ht). destruct t as [|f t']; [easy|].
  now rewrite N.eqb_refl.
Qed.

(** the decoder has a previous code [i]; the code [k] denotes [t] once the pending entry (i, first byte of t) is added *)
Lemma dec_step_next d r i k X out t f : dst_ok d r -> k < 2 ^ N.of_nat (dec_width d) ->
  rstream r = bits_of (dec_width d) k ++ X -> i < size_ (dnorm d) -> i <> 256 ->
  strof (dnorm d ++ [(i, f)]) k t -> hd_error t = Some f ->
  exists r', dec_step d r i out = Cont (dnorm d ++ [(i, f)]) r' k (out ++ t) /\
    wf_reader r' /\ rstream r' = X /\ r_bits r' = dec_width d /\ r_good r' = true /\ r_feofmc r' = false.
Proof.
  intros H Hk Hs Hi Hi2 Ht Hf. pose proof (strof_lt _ _ _ Ht) as (Hk1 & Hk2).
  destruct (dec_read_code d r k X H Hk Hk2 Hs) as (r' & E & Hr). exists r'. split; [|exact Hr].
  destruct (dnorm_dwf d (proj1 H)) as (HD & Hsz).
  rewrite dec_step_unfold by apply H. cbn zeta.
  pose proof (dec_width_norm d) as W.
  rewrite W, E. cbn [negb]. rewrite size_snoc in Hk1.
  destruct (N.ltb_spec (size_ (dnorm d)) k); [lia|].
  destruct (strof_total _ HD i Hi Hi2) as [si Hsi].
  destruct (N.eqb_spec k (size_ (dnorm d))) as [Ek|Ek].
  - subst k. rewrite (rebuild_ok _ _ _ HD Hsi).
    inversion Ht as [? ? Hlt|? p c s Hge Hat Hsp]; subst; [destruct HD; lia|].
    rewrite at_snoc in Hat. injection Hat as <- <-.
    apply strof_app_inv in Hsp; [|exact HD|exact Hi]. pose proof (strof_fun _ _ _ Hsi _ Hsp) as <-.
    pose proof (strof_nonempty _ _ _ Hsi) as Hne. destruct si as [|f' si']; [easy|].
    cbn in Hf. injection Hf as ->.
    assert (HD' : dwf (dnorm d ++ [(i, f)])).
    { apply dwf_snoc; try assumption. pose proof (strof_bytes _ _ _ HD Hsi) as B. now inversion B. }
    rewrite (rebuild_ok _ _ _ HD' Ht). reflexivity.
  - apply strof_app_inv in Ht; [|exact HD|lia].
    rewrite (rebuild_ok _ _ _ HD Ht). destruct t as [|f' t']; [easy|]. cbn in Hf. injection Hf as ->.
    destruct (N.eqb_spec i dms); [lia|reflexivity].
Qed.

(* ------------------------------------------------------------------ encoder dictionary *)

Definition link_ok (D : list (N * N)) (j owner l : N) : Prop :=
  l = dms \/ (j < l /\ 257 <= l /\ exists c, at_ D l = Some (owner, c)).

(** the node table [vn] represents the entries [D] *)
Definition einv (vn : list (node)) (D : list (N * N)) : Prop :=
  length vn = length D /\ dwf D /\
  forall j nd p c, at_ vn j = Some nd -> at_ D j = Some (p, c) ->
    ch_ nd = c /\ link_ok D j j (first_ nd) /\ link_ok D j p (left_ nd) /\ link_ok D j p (right_ nd).

Lemma reset_nodes_at j nd : at_ reset_nodes j = Some nd -> exists c, nd = new_node dms c.
Proof.
  intros H. unfold LzwModel.reset_nodes in H. apply at_snoc_inv in H. destruct H as [[_ H]|[_ H]].
  - rewrite at_map in H. destruct (at_ all_bytes j) as [b|]; [|discriminate]. injection H as <-. now exists b.
  - exists 0. exact H.
Qed.

Lemma einv_reset : einv reset_nodes reset_dict.
Proof.
  split; [reflexivity|]. split; [apply dwf_reset|].
  intros j nd p c H1 H2. destruct (reset_nodes_at _ _ H1) as [c' E].
  split.
  - unfold LzwModel.reset_nodes in H1. unfold LzwModel.reset_dict in H2.
    apply at_snoc_inv in H1. apply at_snoc_inv in H2. rewrite !size_map in *.
    destruct H1 as [[L1 H1]|[L1 H1]], H2 as [[L2 H2]|[L2 H2]]; try lia.
    + rewrite at_map in H1. rewrite at_map in H2. destruct (at_ all_bytes j) as [b|]; [|discriminate].
      cbn [option_map] in H1, H2. assert (Hnd : nd = new_node dms b) by congruence. rewrite Hnd. cbn [ch_ new_node]. congruence.
    + subst nd. injection H2 as _ <-. reflexivity.
  - subst nd. cbn [first_ left_ right_ new_node]. repeat split; left; reflexivity.
Qed.

Lemma walk_spec vn D c p : einv vn D -> c < 256 -> forall fuel ci c0,
  at_ D ci = Some (p, c0) -> 257 <= ci -> (N.to_nat (size_ D) <= N.to_nat ci + fuel)%nat ->
  (exists cj, walk dms fuel vn ci c = WFound cj /\ 257 <= cj /\ at_ D cj = Some (p, c)) \/
  (exists cj n1 c1, walk dms fuel vn ci c = WLeft cj /\ at_ vn cj = Some n1 /\ at_ D cj = Some (p, c1) /\ left_ n1 = dms) \/
  (exists cj n1 c1, walk dms fuel vn ci c = WRight cj /\ at_ vn cj = Some n1 /\ at_ D cj = Some (p, c1) /\ right_ n1 = dms).
Proof.
  intros (HL & HD & HE) Hc. induction fuel as [|fuel IH]; intros ci c0 Hci Hge Hf.
  - apply at_Some_lt in Hci. lia.
  - cbn [walk]. destruct (at_lt vn ci) as [nd End].
    { apply at_Some_lt in Hci. unfold size_ in *. lia. }
    rewrite End. destruct (HE _ _ _ _ End Hci) as (Hch & _ & Hl & Hr).
    assert (Hc0 : c0 < 256) by (apply HD in Hci; [apply Hci|exact Hge]).
    destruct (N.ltb_spec (initial_code c) (initial_code (ch_ nd))) as [L|L].
    + destruct (N.eqb_spec (left_ nd) dms) as [E|E].
      * right; left. exists ci, nd, c0. auto.
      * destruct Hl as [Hl|(Hl1 & Hl2 & cl & Hl3)]; [contradiction|]. eapply IH; [exact Hl3|exact Hl2|lia].
    + destruct (N.ltb_spec (initial_code (ch_ nd)) (initial_code c)) as [L2|L2].
      * destruct (N.eqb_spec (right_ nd) dms) as [E|E].
        -- right; right. exists ci, nd, c0. auto.
        -- destruct Hr as [Hr|(Hr1 & Hr2 & cr & Hr3)]; [contradiction|]. eapply IH; [exact Hr3|exact Hr2|lia].
      * left. exists ci. split; [reflexivity|]. split; [exact Hge|]. rewrite Hci. do 2 f_equal.
        apply initial_code_inj; [exact Hc0|exact Hc|]. rewrite Hch in *. lia.
Qed.

Lemma link_ok_app D E j o l : link_ok D j o l -> link_ok (D ++ E) j o l.
Proof.
  intros [H|(H1 & H2 & c & H3)]; [now left|]. right. repeat split; try assumption. exists c.
  rewrite at_app1; [exact H3|]. now apply at_Some_lt in H3.
Qed.

Lemma einv_insert vn D i c j n1 p c1 n' :
  einv vn D -> size_ D < dms -> i < size_ D -> i <> 256 -> c < 256 ->
  at_ vn j = Some n1 -> at_ D j = Some (p, c1) -> ch_ n' = ch_ n1 ->
  (let D' := D ++ [(i, c)] in
   link_ok D' j j (first_ n') /\ link_ok D' j p (left_ n') /\ link_ok D' j p (right_ n')) ->
  einv (upd vn (N.to_nat j) n' ++ [new_node dms c]) (D ++ [(i, c)]).
Proof.
  intros (HL & HD & HE) Hsz Hi Hi2 Hc Hj1 Hj2 Hch Hlk. split; [|split].
  - rewrite !app_length, upd_length. cbn [length]. lia.
  - now apply dwf_snoc.
  - assert (HS : size_ vn = size_ D) by (unfold size_; now rewrite HL).
    intros j' nd p' c' H1 H2. apply at_snoc_inv in H1. rewrite size_upd in H1. apply at_snoc_inv in H2.
    destruct H1 as [[L1 H1]|[L1 H1]], H2 as [[L2 H2]|[L2 H2]]; try lia.
    + destruct (N.eq_dec j j') as [<-|Hne].
      * rewrite at_upd_same in H1 by exact L1. injection H1 as <-. rewrite Hj2 in H2. injection H2 as <- <-.
        split; [|exact Hlk]. rewrite Hch. now apply (HE _ _ _ _ Hj1 Hj2).
      * rewrite at_upd_other in H1 by exact Hne. destruct (HE _ _ _ _ H1 H2) as (A1 & A2 & A3 & A4).
        repeat split; try assumption; now apply link_ok_app.
    + subst nd. injection H2 as <- <-. cbn. repeat split; left; reflexivity.
Qed.

(** searching from a real code: either an existing extension is found, or a new entry is appended *)
Lemma search_spec vn D i c : einv vn D -> size_ D < dms -> i < size_ D -> i <> 256 -> c < 256 ->
  (exists ci, search_and_insert dms vn i c = Some (vn, ci) /\ ci <> dms /\ 257 <= ci /\ at_ D ci = Some (i, c)) \/
  (exists vn', search_and_insert dms vn i c = Some (vn', dms) /\ einv vn' (D ++ [(i, c)])).
Proof.
  intros HI Hsz Hi Hi2 Hc. pose proof HI as HI'. destruct HI as (HL & HD & HE).
  assert (HS : size_ vn = size_ D) by (unfold size_; now rewrite HL).
  unfold search_and_insert. destruct (N.eqb_spec i dms); [lia|].
  destruct (at_lt vn i ltac:(lia)) as [nd End]. destruct (at_lt D i Hi) as [[pi ci0] Edi]. rewrite End.
  destruct (HE _ _ _ _ End Edi) as (Hch & Hfi & Hle & Hri).
  assert (HN : at_ (D ++ [(i, c)]) (size_ D) = Some (i, c)) by apply at_snoc.
  assert (H257 : 257 <= size_ D) by apply HD.
  destruct (N.eqb_spec (first_ nd) dms) as [Ef|Ef].
  - right. eexists. split; [reflexivity|].
    eapply einv_insert; try eassumption; [reflexivity|]. cbn. repeat split.
    + right. rewrite HS. repeat split; try lia. now exists c.
    + now apply link_ok_app.
    + now apply link_ok_app.
  - destruct Hfi as [Hfi|(Hf1 & Hf2 & cf & Hf3)]; [contradiction|].
    assert (Hfuel : (N.to_nat (size_ D) <= N.to_nat (first_ nd) + length vn)%nat) by (unfold size_; lia).
    destruct (walk_spec vn D c i HI' Hc (length vn) (first_ nd) cf Hf3 Hf2 Hfuel)
      as [(cj & W & H1 & H2)|[(cj & n1 & c1 & W & H1 & H2 & H3)|(cj & n1 & c1 & W & H1 & H2 & H3)]]; rewrite W.
    + left. exists cj. repeat split; try assumption. apply at_Some_lt in H2. lia.
    + right. rewrite H1. eexists. split; [reflexivity|].
      destruct (HE _ _ _ _ H1 H2) as (A1 & A2 & A3 & A4).
      eapply einv_insert; try eassumption; [reflexivity|]. cbn. repeat split.
      * now apply link_ok_app.
      * right. rewrite HS. apply at_Some_lt in H2. repeat split; try lia. now exists c.
      * now apply link_ok_app.
    + right. rewrite H1. eexists. split; [reflexivity|].
      destruct (HE _ _ _ _ H1 H2) as (A1 & A2 & A3 & A4).
      eapply einv_insert; try eassumption; [reflexivity|]. cbn. repeat split.
      * now apply link_ok_app.
      * now apply link_ok_app.
      * right. rewrite HS. apply at_Some_lt in H2. repeat split; try lia. now exists c.
Qed.

(* ------------------------------------------------------------------ termination of the decoder *)

Lemma dnorm_reset : dnorm reset_dict = reset_dict.
Proof. unfold dnorm. rewrite reset_dict_size. destruct (N.eqb_spec 257 dms); reflexivity. Qed.

(** every continuing iteration consumes at least one byte and keeps the width invariant *)
Lemma dec_step_progress d r i out d' r' i' out' : dst0 d r -> (i = dms -> size_ d = 257) ->
  dec_step d r i out = Cont d' r' i' out' ->
  dst0 d' r' /\ i' < dms /\ (length (r_is r') < length (r_is r))%nat /\ exists e, out' = out ++ e.
Proof.
  intros H Hi. rewrite dec_step_unfold by assumption. cbn zeta. rewrite dec_width_norm by assumption.
  destruct H as (Hs & Hw & Hb & Hg & Hf). pose proof (dec_width_range d Hs) as HW.
  pose proof (dnorm_size d Hs) as HN.
  destruct (read_spec (r_set_bits r (dec_width d))) as (r1 & E & Hw1 & _ & Hb1 & Hg1 & Hf1 & _ & Hl1).
  { exact Hw. } { cbn [r_bits r_set_bits]; lia. }
  rewrite E. rewrite rstream_set_bits in *. cbn [r_bits r_set_bits r_good r_is r_feofmc] in *.
  set (k := val (firstn (dec_width d) (rstream r))) in *. rewrite Hg, Hf in *. cbn [andb] in *.
  destruct (k =? eof_code) eqn:Ek; cbn [negb andb orb] in *; [discriminate|].
  destruct (Nat.leb (dec_width d) (length (rstream r))) eqn:Eok; cbn [negb]; [|discriminate].
  destruct (N.ltb_spec (size_ (dnorm d)) k) as [|Hk]; [discriminate|].
  assert (Hpush : forall f, dst0 (dnorm d ++ [(i, f)]) r1).
  { intros f. unfold dst0. rewrite size_snoc. split; [lia|]. split; [exact Hw1|].
    split; [|now split]. rewrite Hb1. unfold dec_width. f_equal. lia. }
  destruct (k =? size_ (dnorm d)).
  - destruct (rebuild (S (length (dnorm d))) (dnorm d) i []) as [[|f s]| |]; try discriminate.
    destruct (rebuild _ (dnorm d ++ [(i, f)]) k []) as [s'| |]; try discriminate.
    intros HC. injection HC as <- <- <- <-. split; [apply Hpush|]. split; [lia|]. split; [now apply Hl1|now exists s'].
  - destruct (rebuild (S (length (dnorm d))) (dnorm d) k []) as [[|f s]| |]; try discriminate.
    intros HC. injection HC as <- <- <- <-.
    split; [|split; [lia|split; [now apply Hl1|now exists (f :: s)]]].
    destruct (N.eqb_spec i dms) as [Ei|Ei]; [|apply Hpush].
    (* the first code: nothing is pushed *)
    unfold dst0. split; [lia|]. split; [exact Hw1|]. split; [|now split].
    rewrite Hb1. unfold dec_width, dnorm. rewrite (Hi Ei).
    destruct (N.eqb_spec 257 dms); [lia|]. rewrite (Hi Ei). reflexivity.
Qed.

Lemma dec_loop_no_fuel f : forall d r i out, dst0 d r -> (i = dms -> size_ d = 257) ->
  (length (r_is r) < f)%nat -> is_fuel (dec_loop f d r i out) = false.
Proof.
  induction f as [|f IH]; intros d r i out H Hi Hl; [lia|].
  cbn [LzwModel.dec_loop]. destruct (dec_step d r i out) as [d' r' i' out'|res] eqn:E.
  - destruct (dec_step_progress _ _ _ _ _ _ _ _ H Hi E) as (H' & Hi' & Hl' & _). apply IH; [exact H'|lia|lia].
  - clear -E. unfold LzwModel.dec_step in E.
    repeat match type of E with context [match ?x with _ => _ end] => destruct x end; try discriminate; injection E as <-; reflexivity.
Qed.

Lemma dec_loop_mono f g : forall d r i out, is_fuel (dec_loop f d r i out) = false ->
  dec_loop (f + g) d r i out = dec_loop f d r i out.
Proof.
  induction f as [|f IH]; intros d r i out H; cbn [LzwModel.dec_loop Nat.add] in *; [discriminate|].
  destruct (dec_step d r i out) as [d' r' i' out'|res]; [|reflexivity]. now apply IH.
Qed.

Lemma reader_init_ok is : Forall (fun b => b < 256) is -> dst0 reset_dict (reader_init is).
Proof.
  intros H. unfold dst0. rewrite reset_dict_size. repeat split; try (cbn; lia). exact H.
Qed.

Lemma decompress_no_fuel is : Forall (fun b => b < 256) is -> is_fuel (decompress dms is) = false.
Proof.
  intros H. unfold decompress. apply dec_loop_no_fuel; [now apply reader_init_ok| |cbn; lia].
  intros _. apply reset_dict_size.
Qed.

(** any run with enough fuel is the real one *)
Lemma decompress_eq is f res : Forall (fun b => b < 256) is -> is_fuel res = false ->
  dec_loop f reset_dict (reader_init is) dms [] = res -> decompress dms is = res.
Proof.
  intros H Hr E. pose proof (decompress_no_fuel is H) as H2. unfold decompress in *.
  rewrite <- (dec_loop_mono _ f) by exact H2. rewrite Nat.add_comm. rewrite dec_loop_mono; [exact E|]. now rewrite E.
Qed.

(* ------------------------------------------------------------------ simulation *)

(** after the encoder consumed [s] (its dictionary being [D]), the decoder that has read every code written so far is in
    state (d, i, out) *)
Definition REL (e : enc) (s : list N) (D : list (N * N)) (d : list (N * N)) (i : N) (out : list N) : Prop :=
  einv (e_vn e) D /\ wf_writer (e_w e) /\ w_bits (e_w e) = required_bits (size_ D - 1) /\
  ((i = dms /\ d = reset_dict /\ D = reset_dict /\ out = [] /\
      ((e_i e = dms /\ s = []) \/ strof D (e_i e) s)) \/
   (exists t f, i < size_ (dnorm d) /\ i <> 256 /\ strof D (e_i e) t /\ hd_error t = Some f /\ s = out ++ t /\
      D = dnorm d ++ [(i, f)] /\ (size_ D = dms -> e_i e < 256))).

Definition SIM (e : enc) (s : list N) (D : list (N * N)) : Prop :=
  exists d i out, REL e s D d i out /\
  forall is X, Forall (fun b => b < 256) is -> bytes_bits is = wstream (e_w e) ++ X ->
  exists n r, (forall f, dec_loop (n + f) reset_dict (reader_init is) dms [] = dec_loop f d r i out) /\
    dst_ok d r /\ rstream r = X.

Lemma SIM_init : SIM (enc_init dms) [] reset_dict.
Proof.
  exists reset_dict, dms, []. split.
  - split; [now apply einv_reset|]. split; [|split].
    + split; [cbn; lia|]. split; [cbn; lia|constructor].
    + rewrite reset_dict_size. reflexivity.
    + left. repeat split; auto.
  - intros is X His HX. exists O, (reader_init is). split; [reflexivity|]. split.
    + split; [now apply dwf_reset|]. now apply reader_init_ok.
    + cbn in HX. exact HX.
Qed.

(** the decoder reads the code of the encoder's current string *)
Lemma SIM_read e s D d i out : REL e s D d i out -> e_i e <> dms ->
  (forall r X, dst_ok d r -> rstream r = bits_of (w_bits (e_w e)) (e_i e) ++ X ->
     exists r', dec_step d r i out = Cont D r' (e_i e) s /\ dst_ok D r' /\ rstream r' = X) /\
  e_i e < size_ D /\ e_i e <> 256 /\ (size_ D = dms -> e_i e < 256) /\ e_i e < 2 ^ N.of_nat (w_bits (e_w e)).
Proof.
  intros (HE & Hw & Hb & HR) Hk.
  assert (HD : dwf D) by apply HE.
  assert (Hkb : e_i e < size_ D -> e_i e < 2 ^ N.of_nat (w_bits (e_w e))).
  { intros L. rewrite Hb. destruct HD as (Hs & _). pose proof (rb_bound (size_ D - 1) ltac:(lia)). lia. }
  destruct HR as [(-> & -> & -> & -> & [(E & _)|HS])|(t & f & Hi & Hi2 & Ht & Hf & -> & ED & Hfull)].
  - contradiction.
  - pose proof (strof_lt _ _ _ HS) as (Hlt & Hne).
    assert (WD : dec_width reset_dict = w_bits (e_w e)).
    { unfold dec_width. rewrite dnorm_reset, Hb, reset_dict_size. reflexivity. }
    split; [|repeat split; try assumption; [|now apply Hkb]].
    + intros r X Hr HX. rewrite <- WD in HX.
      destruct (dec_step_first reset_dict r (e_i e) X [] s Hr) as (r' & E & Hwr & Hsr & Hbr & Hgr & Hfr).
      { rewrite WD. now apply Hkb. } { exact HX. } { rewrite dnorm_reset. exact HS. }
      rewrite dnorm_reset in E. exists r'. split; [exact E|]. split; [|exact Hsr].
      split; [exact HD|]. split; [destruct HD; lia|]. repeat split; try assumption; try apply Hwr.
      rewrite Hbr, WD, Hb. reflexivity.
    + intros _. rewrite reset_dict_size in Hlt. lia.
  - pose proof (strof_lt _ _ _ Ht) as (Hlt & Hne).
    assert (WD : dec_width d = w_bits (e_w e)).
    { rewrite Hb, ED, size_snoc. unfold dec_width. f_equal. lia. }
    split; [|repeat split; try assumption; now apply Hkb].
    intros r X Hr HX. rewrite <- WD in HX.
    destruct (dec_step_next d r i (e_i e) X out t f Hr) as (r' & E & Hwr & Hsr & Hbr & Hgr & Hfr);
      try assumption.
    { rewrite WD. now apply Hkb. } { now rewrite <- ED. }
    rewrite <- ED in E. exists r'. split; [exact E|]. split; [|exact Hsr].
    split; [exact HD|]. split; [destruct HD; lia|]. repeat split; try assumption; try apply Hwr.
    rewrite Hbr, WD, Hb. reflexivity.
Qed.

Lemma SIM_extend e s D : SIM e s D -> e_i e <> dms ->
  einv (e_vn e) D /\ e_i e < size_ D /\ e_i e <> 256 /\ (size_ D = dms -> e_i e < 256) /\
  e_i e < 2 ^ N.of_nat (w_bits (e_w e)) /\ w_bits (e_w e) = required_bits (size_ D - 1) /\ wf_writer (e_w e) /\
  (forall is X, Forall (fun b => b < 256) is ->
     bytes_bits is = wstream (e_w e) ++ bits_of (w_bits (e_w e)) (e_i e) ++ X ->
     exists n r, (forall f, dec_loop (n + f) reset_dict (reader_init is) dms [] = dec_loop f D r (e_i e) s) /\
       dst_ok D r /\ rstream r = X).
Proof.
  intros (d & i & out & HR & HS) Hk.
  destruct (SIM_read e s D d i out HR Hk) as (H1 & Hlt & Hne & Hfull & Hkb).
  destruct HR as (HE & Hw & Hb & _).
  do 7 (split; [assumption|]).
  intros is X His HX. destruct (HS is _ His HX) as (n & r & Hn & Hok & Hrs).
  destruct (H1 r X Hok Hrs) as (r' & E & Hok' & Hrs'). exists (n + 1)%nat, r'. split; [|split; assumption].
  intros f. rewrite <- Nat.add_assoc, Hn. cbn [Nat.add LzwModel.dec_loop]. now rewrite E.
Qed.

Lemma strof_single D c : dwf D -> c < 256 -> strof D (initial_code c) [c].
Proof.
  intros HD Hc. constructor; [now apply initial_code_lt|].
  destruct HD as (_ & Hi & _). rewrite Hi by (now apply initial_code_lt). now rewrite initial_byte_code.
Qed.

Lemma SIM_step e s D c : c < 256 -> SIM e s D ->
  exists e' D', enc_step dms e c = Some e' /\ SIM e' (s ++ [c]) D'.
Proof.
  intros Hc HS. destruct (N.eq_dec (e_i e) dms) as [Ei|Ei].
  - (* first character of the input *)
    destruct HS as (d & i & out & (HE & Hw & Hb & HR) & HS).
    destruct HR as [(-> & -> & -> & -> & [(_ & ->)|HR])|(t & f & Hi & Hi2 & Ht & _)].
    2:{ apply strof_lt in HR. rewrite Ei, reset_dict_size in HR. lia. }
    2:{ apply strof_lt in Ht. rewrite Ei in Ht. destruct HE as (_ & (Hsz & _) & _). lia. }
    assert (Hsz : size_ (e_vn e) = 257).
    { destruct HE as (L & _). unfold size_. rewrite L. apply reset_dict_size. }
    unfold enc_step. rewrite Hsz. destruct (N.eqb_spec 257 dms) as [|_]; [lia|].
    unfold search_and_insert. rewrite Ei, N.eqb_refl.
    pose proof (initial_code_lt c Hc). destruct (N.eqb_spec (initial_code c) dms) as [|_]; [lia|].
    eexists _, reset_dict. split; [reflexivity|].
    exists reset_dict, dms, []. split.
    + split; [exact HE|]. split; [exact Hw|]. split; [exact Hb|]. cbn [e_vn e_w e_i].
      left. repeat split; auto. right. cbn [app]. apply strof_single; [now apply dwf_reset|exact Hc].
    + cbn [e_w]. exact HS.
  - destruct (SIM_extend e s D HS Ei) as (HE & Hlt & Hne & Hfull & Hkb & Hb & Hw & HX).
    assert (HD : dwf D) by apply HE.
    assert (Hsz : size_ (e_vn e) = size_ D).
    { destruct HE as (L & _). unfold size_. now rewrite L. }
    (* the dictionary searched: possibly just reset *)
    assert (HD0 : exists vn0, vn0 = (if size_ (e_vn e) =? dms then reset_nodes else e_vn e) /\
               einv vn0 (dnorm D) /\ e_i e < size_ (dnorm D)).
    { unfold dnorm. rewrite Hsz. destruct (N.eqb_spec (size_ D) dms) as [E|E].
      - exists (reset_nodes). rewrite reset_dict_size. specialize (Hfull E).
        split; [reflexivity|]. split; [apply einv_reset|lia].
      - exists (e_vn e). auto. }
    destruct HD0 as (vn0 & Evn0 & HE0 & Hlt0).
    destruct (dnorm_dwf D HD) as (Hwf0 & Hsz0).
    unfold enc_step. rewrite <- Evn0.
    destruct (search_spec vn0 (dnorm D) (e_i e) c HE0 Hsz0 Hlt0 Hne Hc)
      as [(ci & Es & Hci & Hci2 & Hat)|(vn' & Es & HE')]; rewrite Es.
    + (* an existing extension: only possible without a reset *)
      destruct (N.eqb_spec ci dms) as [|_]; [contradiction|].
      assert (Hnf : size_ D <> dms).
      { intros E. unfold dnorm in Hat. rewrite E, N.eqb_refl in Hat.
        apply at_Some_lt in Hat. rewrite reset_dict_size in Hat. lia. }
      assert (ED : dnorm D = D).
      { unfold dnorm. destruct (N.eqb_spec (size_ D) dms); [contradiction|reflexivity]. }
      rewrite ED in *. rewrite Hsz in *. destruct (N.eqb_spec (size_ D) dms) as [|_]; [contradiction|]. subst vn0.
      eexists _, D. split; [reflexivity|].
      destruct HS as (d & i & out & (_ & _ & _ & HR) & HS).
      exists d, i, out. split; [|exact HS].
      split; [exact HE|]. split; [exact Hw|]. split; [exact Hb|]. cbn [e_vn e_w e_i].
      destruct HR as [(-> & -> & -> & -> & [(E & _)|HR])|(t & f & Hi & Hi2 & Ht & Hf & -> & ED2 & Hfull2)].
      * contradiction.
      * (* nothing written yet: D is the initial dictionary, where the search cannot succeed *)
        apply at_Some_lt in Hat. rewrite reset_dict_size in Hat. lia.
      * right. exists (t ++ [c]), f. repeat split; try assumption.
        -- now apply strof_ext with (p := e_i e).
        -- destruct t; [discriminate|exact Hf].
        -- now rewrite app_assoc.
        -- intros E. contradiction.
    + (* a new entry: the current code is written *)
      rewrite N.eqb_refl.
      destruct (write_spec (e_w e) (e_i e) Hw) as (Ww & Ws & Wb); [| exact Hkb|].
      { rewrite Hb. destruct HD as (HD1 & _). pose proof (rb_ge9 (size_ D - 1) ltac:(lia)). lia. }
      set (w := write (e_w e) (e_i e)) in *.
      set (D' := dnorm D ++ [(e_i e, c)]) in *.
      assert (Hsz' : size_ vn' = size_ D'). { destruct HE' as (L & _). unfold size_. now rewrite L. }
      set (w1 := if Nat.ltb (w_bits w) (required_bits (size_ vn' - 1)) then set_bits w (S (w_bits w)) else w).
      set (w2 := if size_ (e_vn e) =? dms then set_bits w1 9 else w1).
      eexists _, D'. split; [reflexivity|].
      assert (HD' : dwf D') by apply HE'.
      assert (Hw2 : wf_writer w2 /\ wstream w2 = wstream w).
      { subst w2 w1. destruct (size_ (e_vn e) =? dms), (Nat.ltb (w_bits w) (required_bits (size_ vn' - 1))); split; try exact Ww; reflexivity. }
      destruct Hw2 as (Hw2 & Hws2).
      assert (Hb2 : w_bits w2 = required_bits (size_ D' - 1)).
      { subst w2 w1 D'. rewrite Hsz', Hsz, size_snoc. rewrite N.add_sub. unfold dnorm.
        destruct (N.eqb_spec (size_ D) dms) as [E|E].
        - rewrite reset_dict_size. reflexivity.
        - rewrite Wb, Hb. destruct HD as (HD1 & _).
          pose proof (rb_mono (size_ D - 1) (size_ D) ltac:(lia) ltac:(lia)) as M.
          pose proof (rb_succ (size_ D - 1) ltac:(lia)) as S1. replace (size_ D - 1 + 1) with (size_ D) in S1 by lia.
          destruct (Nat.ltb_spec (required_bits (size_ D - 1)) (required_bits (size_ D))); cbn [w_bits set_bits]; lia. }
      exists D, (e_i e), s. cbn [e_w]. split.
      * split; [exact HE'|]. split; [exact Hw2|]. split; [exact Hb2|]. cbn [e_i]. right.
        exists [c], c. repeat split; try assumption.
        -- now apply strof_single.
        -- intros _. now apply initial_code_lt.
      * intros is X His HB. apply HX; [exact His|]. rewrite HB, Hws2, Ws, <- app_assoc. reflexivity.
Qed.

Lemma SIM_loop s : Forall (fun b => b < 256) s -> forall e s0 D, SIM e s0 D ->
  exists e' D', enc_loop dms e s = Some e' /\ SIM e' (s0 ++ s) D'.
Proof.
  induction 1 as [|c s Hc _ IH]; intros e s0 D HS; cbn [enc_loop].
  - exists e, D. rewrite app_nil_r. auto.
  - destruct (SIM_step e s0 D c Hc HS) as (e1 & D1 & E & HS1). rewrite E.
    destruct (IH e1 (s0 ++ [c]) D1 HS1) as (e2 & D2 & E2 & HS2). exists e2, D2. split; [exact E2|].
    now rewrite <- app_assoc in HS2.
Qed.

(** the bits of the end marker followed by zeros always read as the end marker, at any width from 9 up *)
Lemma val_zeros n : val (repeat false n) = 0.
Proof. induction n as [|n IH]; cbn [repeat val]; [reflexivity|]. rewrite IH. reflexivity. Qed.

Lemma firstn_repeat {A} (a : A) n m : firstn n (repeat a m) = repeat a (Nat.min n m).
Proof. revert m; induction n as [|n IH]; intros [|m]; cbn; auto. now rewrite IH. Qed.

Lemma eof_bits w pad w' : (9 <= w)%nat -> (9 <= w')%nat ->
  val (firstn w' (bits_of w eof_code ++ repeat false pad)) = eof_code.
Proof.
  intros Hw Hw'.
  assert (E : bits_of w eof_code = bits_of 9 eof_code ++ repeat false (w - 9)).
  { replace w with (9 + (w - 9))%nat at 1 by lia. rewrite bits_of_app. f_equal.
    apply nth_ext with (d := false) (d' := false).
    - now rewrite bits_of_length, repeat_length.
    - intros j Hj. rewrite bits_of_length in Hj. rewrite nth_repeat, bits_of_nth by exact Hj.
      cbn [eof_code N.shiftr N.of_nat]. apply N.bits_0. }
  rewrite E, <- app_assoc, <- repeat_app. rewrite firstn_app, bits_of_length.
  rewrite (firstn_all2 (bits_of 9 eof_code)) by (rewrite bits_of_length; lia).
  rewrite firstn_repeat, val_app, val_zeros, val_bits_small by reflexivity. now rewrite N.mul_0_r, N.add_0_r.
Qed.

(** reading the end marker stops the decoder successfully *)
Lemma dec_eof d r i out w pad : dst_ok d r -> (9 <= w)%nat -> rstream r = bits_of w eof_code ++ repeat false pad ->
  dec_step d r i out = Stop (DDone out).
Proof.
  intros (HD & H0) Hw HX. rewrite dec_step_unfold by assumption. cbn zeta. rewrite dec_width_norm by assumption.
  destruct H0 as (Hs & Hwr & Hb & Hg & Hf). pose proof (dec_width_range d Hs) as HW.
  destruct (read_spec (r_set_bits r (dec_width d))) as (r1 & E & Hw1 & _ & Hb1 & Hg1 & Hf1 & _).
  { exact Hwr. } { cbn [r_bits r_set_bits]; lia. }
  rewrite E. rewrite rstream_set_bits in *. cbn [r_bits r_set_bits r_good r_is r_feofmc] in *.
  rewrite HX, eof_bits in * by lia. rewrite N.eqb_refl in *. cbn [negb andb orb] in *. now rewrite Hf1.
Qed.

Lemma roundtrip_strong s : Forall (fun b => b < 256) s ->
  exists z n, compress dms s = Some z /\ Forall (fun b => b < 256) z /\
    dec_loop n reset_dict (reader_init z) dms [] = DDone s.
Proof.
  intros Hs. destruct (SIM_loop s Hs _ _ _ SIM_init) as (e & D & E & HS). cbn [app] in HS.
  unfold compress. rewrite E.
  destruct (N.eqb_spec (e_i e) dms) as [Ei|Ei].
  - destruct HS as (d & i & out & (HE & Hw & Hb & HR) & HX).
    assert (HD : dwf D) by apply HE.
    assert (H9 : (9 <= w_bits (e_w e))%nat). { rewrite Hb. apply rb_ge9. destruct HD as (HD1 & _). lia. }
    destruct (writer_finish_spec (e_w e) Hw H9) as (pad & _ & Hbits & Hbytes).
    destruct (HX _ _ Hbytes Hbits) as (n & r & Hn & Hok & Hrs).
    exists (writer_finish (e_w e)), (n + 1)%nat. repeat split; try assumption.
    rewrite Hn. cbn [LzwModel.dec_loop]. rewrite (dec_eof d r i out (w_bits (e_w e)) pad Hok H9 Hrs).
    f_equal. destruct HR as [(_ & _ & _ & -> & [(_ & ->)|HR])|(t & f & _ & _ & HR & _)]; [reflexivity| |];
      apply strof_lt in HR; rewrite Ei in HR; destruct HD as (HD1 & _); lia.
  - destruct (SIM_extend e s D HS Ei) as (HE & Hlt & Hne & Hfull & Hkb & Hb & Hw & HX).
    assert (HD : dwf D) by apply HE.
    assert (H9 : (9 <= w_bits (e_w e))%nat). { rewrite Hb. apply rb_ge9. destruct HD as (HD1 & _). lia. }
    destruct (write_spec (e_w e) (e_i e) Hw) as (Ww & Ws & Wb); [lia|exact Hkb|].
    set (w := write (e_w e) (e_i e)) in *. rewrite <- Wb in H9.
    destruct (writer_finish_spec w Ww H9) as (pad & _ & Hbits & Hbytes).
    rewrite Ws, <- app_assoc in Hbits.
    destruct (HX _ _ Hbytes Hbits) as (n & r & Hn & Hok & Hrs).
    exists (writer_finish w), (n + 1)%nat. repeat split; try assumption.
    rewrite Hn. cbn [LzwModel.dec_loop]. now rewrite (dec_eof D r (e_i e) s (w_bits w) pad Hok H9 Hrs).
Qed.

Lemma roundtrip s : Forall (fun b => b < 256) s ->
  exists z, compress dms s = Some z /\ Forall (fun b => b < 256) z /\ decompress dms z = DDone s.
Proof.
  intros Hs. destruct (roundtrip_strong s Hs) as (z & n & E & Hz & HR). exists z. repeat split; try assumption.
  now apply decompress_eq with (f := n).
Qed.

(* ------------------------------------------------------------------ truncated streams *)

(** the part of an iteration after the code was read (lzw.hpp:539-561): the new dictionary and output, or the result *)
Definition dec_code (d : list (N * N)) (i : N) (out : list N) (k : N) : list (N * N) * list N + dres :=
  if size_ d <? k then inr (DBadCode out)
  else if k =? size_ d then
    match rebuild (S (length d)) d i [] with
    | RStr (f :: _) =>
      match rebuild (S (length (d ++ [(i, f)]))) (d ++ [(i, f)]) k [] with
      | RStr s => inl (d ++ [(i, f)], out ++ s)
      | ROob => inr (DUb out)
      | RFuel => inr (DLoop out)
      end
    | RStr [] => inr (DUb out)
    | ROob => inr (DUb out)
    | RFuel => inr (DLoop out)
    end
  else
    match rebuild (S (length d)) d k [] with
    | RStr (f :: s') => inl (if i =? dms then d else d ++ [(i, f)], out ++ f :: s')
    | RStr [] => inr (DUb out)
    | ROob => inr (DUb out)
    | RFuel => inr (DLoop out)
    end.

Lemma dec_step_alt d r i out : dst0 d r ->
  let w := dec_width d in
  let k := val (firstn w (rstream r)) in
  let ok := Nat.leb w (length (rstream r)) in
  exists r1, wf_reader r1 /\ rstream r1 = skipn w (rstream r) /\ (ok = true -> (length (r_is r1) < length (r_is r))%nat) /\
  dec_step d r i out =
    if k =? eof_code then Stop (DDone out)
    else if ok then match dec_code (dnorm d) i out k with
                    | inl (d', out') => Cont d' r1 k out'
                    | inr res => Stop res
                    end
    else Stop (DCorrupted out).
Proof.
  intros H. cbn zeta. rewrite dec_step_unfold by assumption. cbn zeta. rewrite dec_width_norm.
  destruct H as (Hs & Hw & Hb & Hg & Hf). pose proof (dec_width_range d Hs) as HW.
  destruct (read_spec (r_set_bits r (dec_width d))) as (r1 & E & Hw1 & Hs1 & Hb1 & Hg1 & Hf1 & _ & Hl1).
  { exact Hw. } { cbn [r_bits r_set_bits]; lia. }
  exists r1. rewrite rstream_set_bits in *. cbn [r_bits r_set_bits r_good r_is r_feofmc] in *.
  split; [exact Hw1|]. split; [exact Hs1|]. split; [exact Hl1|].
  rewrite E. set (k := val (firstn (dec_width d) (rstream r))) in *. rewrite Hg, Hf in *. cbn [andb] in *.
  destruct (k =? eof_code); cbn [negb andb orb] in *; [now rewrite Hf1|].
  destruct (Nat.leb (dec_width d) (length (rstream r))); cbn [negb]; [|now rewrite Hf1].
  unfold dec_code. destruct (size_ (dnorm d) <? k); [reflexivity|].
  destruct (k =? size_ (dnorm d)).
  - destruct (rebuild (S (length (dnorm d))) (dnorm d) i []) as [[|f s]| |]; try reflexivity.
    destruct (rebuild _ (dnorm d ++ [(i, f)]) k []) as [s'| |]; reflexivity.
  - destruct (rebuild (S (length (dnorm d))) (dnorm d) k []) as [[|f s]| |]; reflexivity.
Qed.

Lemma dec_loop_extends f : forall d r i out O, dst0 d r -> (i = dms -> size_ d = 257) ->
  dec_loop f d r i out = DDone O -> exists q, O = out ++ q.
Proof.
  induction f as [|f IH]; intros d r i out O H Hi HO; cbn [LzwModel.dec_loop] in HO; [discriminate|].
  destruct (dec_step d r i out) as [d' r' i' out'|res] eqn:E.
  - destruct (dec_step_progress _ _ _ _ _ _ _ _ H Hi E) as (H' & Hi' & _ & (e & ->)).
    destruct (IH d' r' i' _ O H' ltac:(lia) HO) as (q & ->). exists (e ++ q). now rewrite app_assoc.
  - destruct (dec_step_alt d r i out H) as (r1 & _ & _ & _ & E2). rewrite E in E2. subst res.
    destruct (_ =? eof_code); [injection E2 as <-; exists []; now rewrite app_nil_r|].
    destruct (Nat.leb _ _).
    + destruct (dec_code _ _ _ _) as [[d' out']|res] eqn:Ec; [discriminate|]. injection E2 as <-. exfalso.
      unfold dec_code in Ec.
      repeat match type of Ec with context [match ?x with _ => _ end] => destruct x end; try discriminate.
    + injection E2. discriminate.
Qed.

Lemma dec_trunc f : forall d r i out O, dst0 d r -> (i = dms -> size_ d = 257) ->
  dec_loop f d r i out = DDone O ->
  forall r' m g, dst0 d r' -> rstream r' = firstn m (rstream r) -> (length (r_is r') < g)%nat ->
  exists o q, (dec_loop g d r' i out = DDone o \/ dec_loop g d r' i out = DCorrupted o) /\ O = o ++ q.
Proof.
  induction f as [|f IH]; intros d r i out O H Hi HO r' m g H' Hpre Hg.
  { cbn [LzwModel.dec_loop] in HO. discriminate. }
  destruct (dec_loop_extends _ _ _ _ _ _ H Hi HO) as (q0 & Eq0).
  destruct g as [|g]; [lia|]. cbn [LzwModel.dec_loop] in *.
  destruct (dec_step_alt d r i out H) as (r1 & Hw1 & Hs1 & Hl1 & E1).
  destruct (dec_step_alt d r' i out H') as (r2 & Hw2 & Hs2 & Hl2 & E2).
  rewrite E2. pose proof E1 as E1'. pose proof E2 as E2'. rewrite E1 in HO.
  set (w := dec_width d) in *.
  destruct (Nat.leb_spec w (length (rstream r'))) as [L|L].
  - assert (Lm : (w <= m)%nat /\ (w <= length (rstream r))%nat) by (rewrite Hpre, firstn_length in L; lia).
    assert (EF : firstn w (rstream r') = firstn w (rstream r)).
    { rewrite Hpre, firstn_firstn. f_equal. lia. }
    rewrite EF in *. destruct (Nat.leb_spec w (length (rstream r))); [|lia].
    destruct (val (firstn w (rstream r)) =? eof_code).
    { exists out, []. split; [now left|]. injection HO as <-. now rewrite app_nil_r. }
    destruct (dec_code (dnorm d) i out (val (firstn w (rstream r)))) as [[d1 out1]|res] eqn:Ec.
    + destruct (dec_step_progress _ _ _ _ _ _ _ _ H Hi E1') as (H1 & Hi1 & _ & _).
      destruct (dec_step_progress _ _ _ _ _ _ _ _ H' Hi E2') as (H2 & _ & Hlen & _).
      refine (IH d1 r1 _ out1 O H1 _ HO r2 (m - w)%nat g H2 _ _); [lia| |lia].
      rewrite Hs2, Hs1, Hpre. rewrite skipn_firstn_comm. reflexivity.
    + exfalso. subst res. unfold dec_code in Ec.
      repeat match type of Ec with context [match ?x with _ => _ end] => destruct x end; try discriminate.
  - exists out, q0. split; [|exact Eq0]. destruct (val (firstn w (rstream r')) =? eof_code); [now left|now right].
Qed.

Lemma bytes_bits_firstn n z : bytes_bits (firstn n z) = firstn (8 * n) (bytes_bits z).
Proof.
  revert n; induction z as [|b z IH]; intros n; [now rewrite !firstn_nil|].
  destruct n as [|n]; [reflexivity|]. cbn [firstn].
  change (bytes_bits (b :: firstn n z)) with (bits_of 8 b ++ bytes_bits (firstn n z)).
  change (bytes_bits (b :: z)) with (bits_of 8 b ++ bytes_bits z).
  rewrite IH, firstn_app, bits_of_length, (firstn_all2 (bits_of 8 b)) by (rewrite bits_of_length; lia).
  do 2 f_equal. lia.
Qed.

Lemma Forall_firstn' {A} (P : A -> Prop) n l : Forall P l -> Forall P (firstn n l).
Proof.
  intros H. revert n. induction H as [|x l Hx _ IH]; intros [|n]; cbn [firstn]; constructor; auto.
Qed.

Lemma truncation s m : Forall (fun b => b < 256) s ->
  exists z o q, compress dms s = Some z /\ s = o ++ q /\
    (decompress dms (firstn m z) = DDone o \/ decompress dms (firstn m z) = DCorrupted o).
Proof.
  intros Hs. destruct (roundtrip_strong s Hs) as (z & n & Ez & Hz & HR).
  destruct (dec_trunc n _ _ _ _ _ (reader_init_ok z Hz) (fun _ => reset_dict_size) HR
              (reader_init (firstn m z)) (8 * m)%nat (S (length (firstn m z)))) as (o & q & HO & ->).
  - apply reader_init_ok. now apply Forall_firstn'.
  - apply bytes_bits_firstn.
  - cbn [r_is reader_init]. lia.
  - exists z, o, q. auto.
Qed.

(* ------------------------------------------------------------------ arbitrary streams *)

Lemma dec_code_safe d i out k : dwf d -> (i = dms \/ (i < size_ d /\ i <> 256)) -> size_ d < dms -> k <> 256 ->
  (exists d' out', dec_code d i out k = inl (d', out') /\ dwf d' /\ k < size_ d' /\ size_ d' <= size_ d + 1) \/
  dec_code d i out k = inr (DBadCode out) \/
  (dec_code d i out k = inr (DUb out) /\ i = dms /\ k = size_ d).
Proof.
  intros HD Hi Hsz Hk. unfold dec_code. destruct (N.ltb_spec (size_ d) k) as [L|L]; [auto|].
  destruct (N.eqb_spec k (size_ d)) as [E|E].
  - destruct Hi as [->|(Hi & Hi2)].
    + right; right. split; [|split; [reflexivity|exact E]]. cbn [LzwModel.rebuild]. now rewrite N.eqb_refl.
    + left. destruct (strof_total _ HD i Hi Hi2) as [si Hsi]. rewrite (rebuild_ok _ _ _ HD Hsi).
      pose proof (strof_nonempty _ _ _ Hsi). destruct si as [|f si]; [easy|].
      assert (HD' : dwf (d ++ [(i, f)])).
      { apply dwf_snoc; try assumption. pose proof (strof_bytes _ _ _ HD Hsi) as B. now inversion B. }
      destruct (strof_total _ HD' k) as [sk Hsk]; [rewrite size_snoc; lia|exact Hk|].
      rewrite (rebuild_ok _ _ _ HD' Hsk). do 2 eexists. split; [reflexivity|]. split; [exact HD'|].
      rewrite size_snoc. lia.
  - left. destruct (strof_total _ HD k ltac:(lia) Hk) as [sk Hsk]. rewrite (rebuild_ok _ _ _ HD Hsk).
    pose proof (strof_nonempty _ _ _ Hsk). destruct sk as [|f sk]; [easy|].
    do 2 eexists. split; [reflexivity|]. destruct (N.eqb_spec i dms) as [Ei|Ei].
    + split; [exact HD|]. lia.
    + destruct Hi as [|(Hi & Hi2)]; [contradiction|]. rewrite size_snoc. split; [|lia].
      apply dwf_snoc; try assumption. pose proof (strof_bytes _ _ _ HD Hsk) as B. now inversion B.
Qed.

Definition benign (x : dres) : Prop :=
  match x with DDone _ | DBadCode _ | DCorrupted _ => True | _ => False end.

Lemma dec_loop_benign f : forall d r i out, dst_ok d r -> i < size_ d -> i <> 256 ->
  9 * size_ d + N.of_nat (length (rstream r)) < 9 * dms -> (length (r_is r) < f)%nat ->
  benign (dec_loop f d r i out).
Proof.
  induction f as [|f IH]; intros d r i out (HD & H0) Hi Hi2 Hbud Hf; [lia|].
  cbn [LzwModel.dec_loop]. destruct (dec_step_alt d r i out H0) as (r1 & Hw1 & Hs1 & Hl1 & E).
  assert (Hdn : dnorm d = d). { unfold dnorm. destruct (N.eqb_spec (size_ d) dms); [lia|reflexivity]. }
  pose proof (dec_width_range d ltac:(apply H0)) as HW.
  assert (Hidms : i = dms -> size_ d = 257) by lia.
  pose proof E as E'. rewrite E. destruct (N.eqb_spec (val (firstn (dec_width d) (rstream r))) eof_code) as [|Hk]; [exact I|].
  destruct (Nat.leb_spec (dec_width d) (length (rstream r))) as [L|L]; [|exact I].
  rewrite Hdn in *.
  destruct (dec_code_safe d i out (val (firstn (dec_width d) (rstream r))) HD (or_intror (conj Hi Hi2)) ltac:(lia) Hk)
    as [(d' & out' & Ec & HD' & Hk' & Hsz')|[Ec|(Ec & Ei & _)]]; rewrite Ec in *.
  - destruct (dec_step_progress _ _ _ _ _ _ _ _ H0 Hidms E') as (H1 & _ & Hlen & _).
    apply IH; [split; assumption|exact Hk'|exact Hk| |lia].
    rewrite Hs1, skipn_length. lia.
  - exact I.
  - lia.
Qed.

Lemma first_code_bits is : Forall (fun b => b < 256) is -> (2 <= length is)%nat ->
  exists b0 b1 rest, is = b0 :: b1 :: rest /\ b0 < 256 /\ val (firstn 9 (bytes_bits is)) = b0 + 256 * N.b2n (N.odd b1).
Proof.
  intros H L. destruct is as [|b0 [|b1 rest]]; cbn [length] in L; try lia.
  inversion H as [|? ? H0 H1]; subst. exists b0, b1, rest. split; [reflexivity|]. split; [exact H0|].
  change (bytes_bits (b0 :: b1 :: rest)) with (bits_of 8 b0 ++ bits_of 8 b1 ++ bytes_bits rest).
  rewrite firstn_app, bits_of_length, (firstn_all2 (bits_of 8 b0)) by (rewrite bits_of_length; lia).
  rewrite (bits_of_S 7 b1). cbn [Nat.sub app firstn]. rewrite val_app, bits_of_length, val_bits_small by exact H0.
  cbn [val]. change (2 ^ N.of_nat 8) with 256. lia.
Qed.

Lemma arbitrary_short is : Forall (fun b => b < 256) is ->
  9 * 257 + 8 * N.of_nat (length is) < 9 * dms ->
  benign (decompress dms is) \/
  (decompress dms is = DUb [] /\ exists b rest, is = 1 :: b :: rest /\ N.odd b = true).
Proof.
  intros His Hbud. unfold decompress. cbn [LzwModel.dec_loop].
  pose proof (reader_init_ok is His) as H0.
  destruct (dec_step_alt reset_dict (reader_init is) dms [] H0) as (r1 & Hw1 & Hs1 & Hl1 & E).
  assert (WD : dec_width reset_dict = 9%nat).
  { unfold dec_width. rewrite dnorm_reset, reset_dict_size. reflexivity. }
  rewrite WD in *. change (rstream (reader_init is)) with (bytes_bits is) in *.
  pose proof E as E'. rewrite E.
  destruct (N.eqb_spec (val (firstn 9 (bytes_bits is))) eof_code) as [|Hk]; [left; exact I|].
  destruct (Nat.leb_spec 9 (length (bytes_bits is))) as [L|L]; [|left; exact I].
  rewrite dnorm_reset in *.
  destruct (dec_code_safe reset_dict dms [] (val (firstn 9 (bytes_bits is))) dwf_reset (or_introl eq_refl)
              ltac:(rewrite reset_dict_size; lia) Hk)
    as [(d' & out' & Ec & HD' & Hk' & Hsz')|[Ec|(Ec & _ & Ek)]]; rewrite Ec in *.
  - left. destruct (dec_step_progress _ _ _ _ _ _ _ _ H0 (fun _ => reset_dict_size) E') as (H1 & _ & Hlen & _).
    apply dec_loop_benign; [split; assumption|exact Hk'|exact Hk| |cbn [r_is reader_init] in Hlen; lia].
    rewrite Hs1, skipn_length, bytes_bits_length. rewrite reset_dict_size in Hsz'.
    rewrite bytes_bits_length in L. lia.
  - left. exact I.
  - right. split; [reflexivity|]. rewrite reset_dict_size in Ek.
    rewrite bytes_bits_length in L.
    destruct (first_code_bits is His ltac:(lia)) as (b0 & b1 & rest & -> & Hb0 & Ev).
    rewrite Ev in Ek. exists b1, rest. destruct (N.odd b1); cbn [N.b2n] in Ek; [|lia].
    split; [f_equal; lia|reflexivity].
Qed.

Lemma first_code_257_ub b rest : b < 256 -> Forall (fun b => b < 256) rest -> N.odd b = true ->
  decompress dms (1 :: b :: rest) = DUb [].
Proof.
  intros Hb Hr Hodd. set (is := 1 :: b :: rest).
  assert (His : Forall (fun b => b < 256) is) by (constructor; [lia|now constructor]).
  unfold decompress. cbn [LzwModel.dec_loop].
  destruct (dec_step_alt reset_dict (reader_init is) dms [] (reader_init_ok is His)) as (r1 & _ & _ & _ & E).
  assert (WD : dec_width reset_dict = 9%nat).
  { unfold dec_width. rewrite dnorm_reset, reset_dict_size. reflexivity. }
  rewrite WD in *. change (rstream (reader_init is)) with (bytes_bits is) in *.
  destruct (first_code_bits is His ltac:(cbn; lia)) as (b0 & b1 & rest' & Eis & Hb0 & Ev).
  injection Eis as <- <- <-. rewrite Hodd in Ev. cbn [N.b2n] in Ev. change (1 + 256 * 1) with 257 in Ev.
  rewrite E, Ev. destruct (Nat.leb_spec 9 (length (bytes_bits is))) as [L|L].
  2:{ rewrite bytes_bits_length in L. cbn [length is] in L. lia. }
  change (257 =? eof_code) with false. cbn [negb]. rewrite dnorm_reset. unfold dec_code.
  rewrite reset_dict_size. change (257 <? 257) with false. change (257 =? 257) with true. cbv iota.
  cbn [LzwModel.rebuild]. now rewrite N.eqb_refl.
Qed.

(* ---- a stream that reaches undefined behaviour after a reset *)

Lemma bits_of_val l : bits_of (length l) (val l) = l.
Proof.
  induction l as [|b l IH]; [reflexivity|]. cbn [length val]. rewrite bits_of_S. f_equal.
  - destruct b; cbn [N.b2n]; rewrite N.odd_add_mul_2; reflexivity.
  - rewrite N.div2_div. replace ((N.b2n b + 2 * val l) / 2) with (val l); [exact IH|].
    destruct b; cbn [N.b2n]; [|rewrite N.add_0_l, N.mul_comm, N.div_mul; lia].
    rewrite N.mul_comm, N.div_add by lia. cbn. reflexivity.
Qed.

Lemma pack_bits : forall n l, (length l <= n)%nat ->
  exists z pad, Forall (fun b => b < 256) z /\ bytes_bits z = l ++ repeat false pad.
Proof.
  induction n as [|n IH]; intros l Hl.
  - destruct l; [|cbn in Hl; lia]. exists [], O. split; [constructor|reflexivity].
  - destruct (Nat.le_gt_cases 8 (length l)) as [L|L].
    + destruct (IH (skipn 8 l)) as (z & pad & Hz & Ez); [rewrite skipn_length; lia|].
      exists (val (firstn 8 l) :: z), pad. assert (L8 : length (firstn 8 l) = 8%nat) by (rewrite firstn_length; lia). split.
      * constructor; [|exact Hz]. pose proof (val_bound (firstn 8 l)) as B. rewrite L8 in B. exact B.
      * change (bytes_bits (val (firstn 8 l) :: z)) with (bits_of 8 (val (firstn 8 l)) ++ bytes_bits z).
        rewrite Ez. rewrite <- L8 at 1. rewrite bits_of_val, app_assoc, firstn_skipn. reflexivity.
    + exists [val (l ++ repeat false (8 - length l))], (8 - length l)%nat.
      assert (L8 : length (l ++ repeat false (8 - length l)) = 8%nat) by (rewrite app_length, repeat_length; lia). split.
      * constructor; [|constructor]. pose proof (val_bound (l ++ repeat false (8 - length l))) as B. rewrite L8 in B. exact B.
      * change (bytes_bits [val (l ++ repeat false (8 - length l))]) with (bits_of 8 (val (l ++ repeat false (8 - length l))) ++ []).
        rewrite app_nil_r. rewrite <- L8 at 1. apply bits_of_val.
Qed.

(** the bits of n codes 0 read when the dictionary holds sz entries *)
Fixpoint zero_codes (n : nat) (sz : N) : list bool :=
  match n with O => [] | S n' => bits_of (required_bits sz) 0 ++ zero_codes n' (sz + 1) end.

Lemma zeros_run n : forall d r i out X, dst_ok d r -> i < size_ d -> i <> 256 ->
  size_ d + N.of_nat n <= dms - 1 -> rstream r = zero_codes n (size_ d) ++ X ->
  exists d' r' i' out', (forall f, dec_loop (n + f) d r i out = dec_loop f d' r' i' out') /\
    dst_ok d' r' /\ rstream r' = X /\ i' < size_ d' /\ i' <> 256 /\ size_ d' = size_ d + N.of_nat n.
Proof.
  induction n as [|n IH]; intros d r i out X Hok Hi Hi2 Hsz HX.
  - exists d, r, i, out. split; [reflexivity|]. split; [assumption|]. split; [exact HX|].
    split; [assumption|]. split; [assumption|]. lia.
  - cbn [zero_codes] in HX. rewrite <- app_assoc in HX.
    assert (Hdn : dnorm d = d). { unfold dnorm. destruct (N.eqb_spec (size_ d) dms); [lia|reflexivity]. }
    assert (WD : dec_width d = required_bits (size_ d)). { unfold dec_width. now rewrite Hdn. }
    pose proof Hok as (HD & H0).
    assert (HD' : dwf (d ++ [(i, initial_byte 0)])).
    { apply dwf_snoc; try assumption; [lia|]. reflexivity. }
    destruct (dec_step_next d r i 0 (zero_codes n (size_ d + 1) ++ X) out [initial_byte 0] (initial_byte 0) Hok)
      as (r' & E & Hw & Hs & Hb & Hg & Hf).
    + assert (2 ^ N.of_nat (dec_width d) <> 0) by (apply N.pow_nonzero; lia). lia.
    + rewrite WD. exact HX.
    + now rewrite Hdn.
    + exact Hi2.
    + rewrite Hdn. constructor; [lia|]. apply HD'. lia.
    + reflexivity.
    + rewrite Hdn in E.
      destruct (IH (d ++ [(i, initial_byte 0)]) r' 0 (out ++ [initial_byte 0]) X) as (d2 & r2 & i2 & o2 & H2 & H3).
      * split; [exact HD'|]. destruct HD' as (HD1 & _). split; [exact HD1|].
        split; [exact Hw|]. split; [|now split]. rewrite size_snoc, Hb, WD. f_equal. lia.
      * rewrite size_snoc. lia.
      * lia.
      * rewrite size_snoc. lia.
      * now rewrite size_snoc.
      * exists d2, r2, i2, o2. split.
        -- intros f. cbn [Nat.add LzwModel.dec_loop]. rewrite E. apply H2.
        -- destruct H3 as (A & B & C & D0 & E0). do 4 (split; [assumption|]). rewrite E0, size_snoc. lia.
Qed.

Lemma firstn_bits n k X : firstn n (bits_of n k ++ X) = bits_of n k.
Proof.
  rewrite firstn_app, bits_of_length, Nat.sub_diag, firstn_O, app_nil_r. apply firstn_all2. rewrite bits_of_length. lia.
Qed.

Lemma unsafe_after_reset :
  exists is, Forall (fun b => b < 256) is /\ hd_error is = Some 0 /\ exists out, decompress dms is = DUb out.
Proof.
  set (n := N.to_nat (dms - 258)).
  set (B := bits_of 9 0 ++ zero_codes n 257 ++ bits_of (required_bits (dms - 1)) 257 ++ bits_of 9 257).
  destruct (pack_bits (length B) B (le_n _)) as (is & pad & His & Ebits). exists is. split; [exact His|].
  assert (Hhd : hd_error is = Some 0).
  { destruct is as [|b0 is'].
    - subst B. apply (f_equal (@length bool)) in Ebits. rewrite !app_length, bits_of_length in Ebits. cbn in Ebits. lia.
    - inversion His as [|? ? Hb0 _].
      apply (f_equal (firstn 8)) in Ebits. change (bytes_bits (b0 :: is')) with (bits_of 8 b0 ++ bytes_bits is') in Ebits.
      subst B. change (bits_of 9 0) with (bits_of 8 0 ++ [false]) in Ebits. rewrite <- !app_assoc in Ebits.
      rewrite !firstn_bits in Ebits.
      apply (f_equal val) in Ebits. rewrite !val_bits_small in Ebits by (exact Hb0 || reflexivity). cbn. now rewrite Ebits. }
  split; [exact Hhd|].
  pose proof (reader_init_ok is His) as H0.
  assert (Hok0 : dst_ok reset_dict (reader_init is)) by (split; [apply dwf_reset|exact H0]).
  assert (WD : dec_width reset_dict = 9%nat). { unfold dec_width. rewrite dnorm_reset, reset_dict_size. reflexivity. }
  subst B. rewrite <- !app_assoc in Ebits.
  destruct (dec_step_first reset_dict (reader_init is) 0
     (zero_codes n 257 ++ bits_of (required_bits (dms - 1)) 257 ++ bits_of 9 257 ++ repeat false pad) [] [initial_byte 0] Hok0)
    as (r1 & E1 & Hw1 & Hs1 & Hb1 & Hg1 & Hf1).
  { rewrite WD. reflexivity. }
  { rewrite WD. exact Ebits. }
  { rewrite dnorm_reset. constructor; [lia|]. apply reset_dict_at. lia. }
  rewrite dnorm_reset in E1.
  destruct (zeros_run n reset_dict r1 0 ([] ++ [initial_byte 0]) (bits_of (required_bits (dms - 1)) 257 ++ bits_of 9 257 ++ repeat false pad))
    as (d2 & r2 & i2 & o2 & H2 & Hok2 & Hs2 & Hi2 & Hi2' & Hsz2).
  { split; [apply dwf_reset|]. split; [rewrite reset_dict_size; lia|]. split; [exact Hw1|].
    split; [|now split]. rewrite Hb1, WD, reset_dict_size. reflexivity. }
  { rewrite reset_dict_size. lia. } { lia. } { rewrite reset_dict_size. lia. } { rewrite reset_dict_size. exact Hs1. }
  rewrite reset_dict_size in Hsz2. assert (Hsz2' : size_ d2 = dms - 1) by lia. clear Hsz2.
  assert (Hdn2 : dnorm d2 = d2). { unfold dnorm. destruct (N.eqb_spec (size_ d2) dms); [lia|reflexivity]. }
  assert (WD2 : dec_width d2 = required_bits (dms - 1)). { unfold dec_width. now rewrite Hdn2, Hsz2'. }
  pose proof Hok2 as (HD2 & H02).
  (* the code 257 fills the dictionary *)
  destruct (dec_step_alt d2 r2 i2 o2 H02) as (r3 & Hw3 & Hs3 & Hl3 & E3).
  rewrite WD2, Hs2 in *.
  assert (F : firstn (required_bits (dms - 1)) (bits_of (required_bits (dms - 1)) 257 ++ bits_of 9 257 ++ repeat false pad)
              = bits_of (required_bits (dms - 1)) 257).
  { apply firstn_bits. }
  assert (K : val (bits_of (required_bits (dms - 1)) 257) = 257).
  { apply val_bits_small. apply N.lt_le_trans with (2 ^ 9); [reflexivity|]. apply N.pow_le_mono_r; [lia|].
    pose proof (rb_ge9 (dms - 1) ltac:(lia)). lia. }
  rewrite F, K in E3. change (257 =? eof_code) with false in E3. cbv iota in E3.
  rewrite app_length, bits_of_length in E3.
  destruct (Nat.leb_spec (required_bits (dms - 1)) (required_bits (dms - 1) + length (bits_of 9 257 ++ repeat false pad))) as [_|]; [|lia].
  rewrite Hdn2 in E3.
  destruct (dec_code_safe d2 i2 o2 257 HD2 (or_intror (conj Hi2 Hi2')) ltac:(lia) ltac:(lia))
    as [(d4 & o4 & Ec & HD4 & Hk4 & Hsz4)|[Ec|(Ec & Ei & _)]].
  2:{ exfalso. unfold dec_code in Ec. rewrite Hsz2' in Ec. destruct (N.ltb_spec (dms - 1) 257); [lia|].
      repeat match type of Ec with context [match ?x with _ => _ end] => destruct x end; try discriminate. }
  2:{ lia. }
  assert (Hsz4' : size_ d4 = dms).
  { unfold dec_code in Ec. rewrite Hsz2' in Ec. destruct (N.ltb_spec (dms - 1) 257); [lia|].
    destruct (257 =? dms - 1).
    - destruct (rebuild (S (length d2)) d2 i2 []) as [[|f s]| |]; try discriminate.
      destruct (rebuild _ (d2 ++ [(i2, f)]) 257 []) as [s'| |]; try discriminate. injection Ec as <- <-. rewrite size_snoc. lia.
    - destruct (rebuild (S (length d2)) d2 257 []) as [[|f s]| |]; try discriminate.
      destruct (N.eqb_spec i2 dms); [lia|]. injection Ec as <- <-. rewrite size_snoc. lia. }
  rewrite Ec in E3.
  assert (Hid : i2 = dms -> size_ d2 = 257) by lia.
  destruct (dec_step_progress _ _ _ _ _ _ _ _ H02 Hid E3) as (H04 & _ & _ & _).
  destruct (dec_step_alt d4 r3 257 o4 H04) as (r5 & Hw5 & Hs5 & Hl5 & E5).
  assert (Hdn4 : dnorm d4 = reset_dict). { unfold dnorm. now rewrite Hsz4', N.eqb_refl. }
  assert (WD4 : dec_width d4 = 9%nat). { unfold dec_width. rewrite Hdn4, reset_dict_size. reflexivity. }
  rewrite skipn_app, bits_of_length, Nat.sub_diag, (skipn_all2 (bits_of _ _)) in Hs3 by (rewrite bits_of_length; lia).
  cbn [app skipn] in Hs3. rewrite WD4, Hs3, Hdn4 in E5.
  assert (F9 : firstn 9 (bits_of 9 257 ++ repeat false pad) = bits_of 9 257).
  { apply firstn_bits. }
  rewrite F9, val_bits_small in E5 by reflexivity. change (257 =? eof_code) with false in E5. cbv iota in E5.
  rewrite app_length, bits_of_length in E5.
  destruct (Nat.leb_spec 9 (9 + length (repeat false pad))) as [_|]; [|lia].
  assert (Ec5 : dec_code reset_dict 257 o4 257 = inr (DUb o4)).
  { unfold dec_code. rewrite reset_dict_size. change (257 <? 257) with false. change (257 =? 257) with true. cbv iota.
    cbn [LzwModel.rebuild]. destruct (N.eqb_spec 257 dms); [lia|].
    destruct (at_ reset_dict 257) eqn:E; [apply at_Some_lt in E; rewrite reset_dict_size in E; lia|reflexivity]. }
  rewrite Ec5 in E5.
  exists o4. apply decompress_eq with (f := S (n + 2)); [exact His|reflexivity|].
  cbn [LzwModel.dec_loop]. rewrite E1, H2. cbn [LzwModel.dec_loop]. rewrite E3. cbn [LzwModel.dec_loop]. now rewrite E5.
Qed.

End Codec.
