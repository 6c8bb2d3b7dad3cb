(** The LZW codec (include/utils/lzw.hpp): properties C01, C02, C03.
    Vocabulary: a byte is an [N] below 256.  [compress dms s] is [Some z] when the encoder finishes having written [z]
    ([None] would be an access outside its dictionary).  [decompress dms z] is [DDone out] when the decoder returns 0,
    [DBadCode out]/[DCorrupted out] when it reports an error and returns -1, [DUb out] when it indexes its dictionary out of
    range, [DLoop out]/[DFuel out] when it does not terminate; [out] is what it has written to the output stream. *)
From Coq Require Import List NArith Bool Lia.
From Verif Require Import LzwModel LzwBits LzwProofs.
Import ListNotations.
Local Open Scope N_scope.

Definition bytes (s : list N) : Prop := Forall (fun b => b < 256) s.

Definition returns_ok_or_error (x : dres) : Prop :=
  (exists o, x = DDone o) \/ (exists o, x = DBadCode o) \/ (exists o, x = DCorrupted o).

Lemma shipped_range : 258 <= shipped_dms /\ shipped_dms <= 2 ^ 25.
Proof. split; vm_compute; discriminate. Qed.

(** C01.  Decompressing what was compressed gives back exactly the input, whatever its bytes and length. *)
Theorem C01_lzw_roundtrip : forall s, bytes s ->
  exists z, compress shipped_dms s = Some z /\ bytes z /\ decompress shipped_dms z = DDone s.
Proof. exact (roundtrip shipped_dms (proj1 shipped_range) (proj2 shipped_range)). Qed.
Print Assumptions C01_lzw_roundtrip.

(** the same for every dictionary limit, so that the reset of a full dictionary is exercised by short inputs as well *)
Theorem C01_lzw_roundtrip_any_limit : forall dms s, 258 <= dms -> dms <= 2 ^ 25 -> bytes s ->
  exists z, compress dms s = Some z /\ bytes z /\ decompress dms z = DDone s.
Proof. exact (fun dms s lo hi => roundtrip dms lo hi s). Qed.
Print Assumptions C01_lzw_roundtrip_any_limit.

Example C01_case : bytes [97;98;97;98;97;98;97;255;0] /\
  exists z, compress shipped_dms [97;98;97;98;97;98;97;255;0] = Some z /\ (length z = 8)%nat /\
            decompress shipped_dms z = DDone [97;98;97;98;97;98;97;255;0].
Proof. split; [repeat constructor|]. eexists. split; [vm_compute; reflexivity|]. split; vm_compute; reflexivity. Qed.

(** C01, corollary: two different inputs never compress to the same bytes. *)
Theorem C01_lzw_injective : forall s t z, bytes s -> bytes t ->
  compress shipped_dms s = Some z -> compress shipped_dms t = Some z -> s = t.
Proof.
  intros s t z Hs Ht Es Et. destruct (C01_lzw_roundtrip s Hs) as (z1 & E1 & _ & D1).
  destruct (C01_lzw_roundtrip t Ht) as (z2 & E2 & _ & D2). congruence.
Qed.
Print Assumptions C01_lzw_injective.

(** C02.  A compressed file cut anywhere decodes, without any invalid access, to a prefix of the original,
    reported either as success or as corruption. *)
Theorem C02_lzw_truncated_prefix : forall s n, bytes s ->
  exists z o rest, compress shipped_dms s = Some z /\ s = o ++ rest /\
    (decompress shipped_dms (firstn n z) = DDone o \/ decompress shipped_dms (firstn n z) = DCorrupted o).
Proof. exact (truncation shipped_dms (proj1 shipped_range) (proj2 shipped_range)). Qed.
Print Assumptions C02_lzw_truncated_prefix.

Example C02_case : exists z, compress shipped_dms [1;2;3;4;5] = Some z /\
  decompress shipped_dms (firstn 4 z) = DCorrupted [1;2;3] /\ decompress shipped_dms (firstn 0 z) = DCorrupted [].
Proof. eexists. split; [vm_compute; reflexivity|]. split; vm_compute; reflexivity. Qed.

(** C02, the limit of the guarantee: a cut file is not always reported.  This 778-byte input, cut 6 bytes before the end of
    its compressed form, is decoded "successfully" to 773 bytes. *)
Definition quiet_input : list N :=
  map (fun n => let i := N.of_nat n in ((i mod 256) * (1 + 2 * (i / 256))) mod 256) (seq 0 773)
  ++ [253; 0; 10; 20; 30].

Theorem C02_lzw_truncation_reported_refuted :
  exists s z n, bytes s /\ compress shipped_dms s = Some z /\ (n < length z)%nat /\
    exists o, decompress shipped_dms (firstn n z) = DDone o /\ o <> s.
Proof.
  exists quiet_input, (match compress shipped_dms quiet_input with Some z => z | None => [] end), 936%nat.
  split. { apply Forall_forall. intros x Hx. assert (forallb (fun b => b <? 256) quiet_input = true) as F by (vm_compute; reflexivity).
           rewrite forallb_forall in F. now apply N.ltb_lt, F. }
  split; [vm_compute; reflexivity|]. split; [apply PeanoNat.Nat.ltb_lt; vm_compute; reflexivity|].
  exists (firstn 773 quiet_input). split; [vm_compute; reflexivity|].
  intros E. apply (f_equal (@length N)) in E. vm_compute in E. discriminate.
Qed.
Print Assumptions C02_lzw_truncation_reported_refuted.

(** C03.  For a stream of at most 1,179,358 bytes: the decoder returns (success or error) unless the stream begins with the
    9-bit code 257, and in that case it indexes its dictionary out of range. *)
Theorem C03_lzw_arbitrary_stream : forall is, bytes is -> (N.of_nat (length is) <= 1179358) ->
  (returns_ok_or_error (decompress shipped_dms is) /\ ~ exists b rest, is = 1 :: b :: rest /\ N.odd b = true) \/
  (decompress shipped_dms is = DUb [] /\ exists b rest, is = 1 :: b :: rest /\ N.odd b = true).
Proof.
  intros is H L.
  destruct (arbitrary_short shipped_dms (proj1 shipped_range) (proj2 shipped_range) is H) as [B|B].
  - change shipped_dms with 1048576. lia.
  - left. split.
    + destruct (decompress shipped_dms is) as [o|o|o|o|o|o]; try contradiction; unfold returns_ok_or_error; eauto.
    + intros (b & rest & E & Hb). subst is. pose proof (Forall_inv (Forall_inv_tail H)) as Hb1.
      pose proof (Forall_inv_tail (Forall_inv_tail H)) as Hr.
      pose proof (first_code_257_ub shipped_dms (proj1 shipped_range) (proj2 shipped_range) b rest Hb1 Hr Hb) as F.
      rewrite F in B. exact B.
  - right. exact B.
Qed.
Print Assumptions C03_lzw_arbitrary_stream.

Example C03_case : bytes [9;200;77] /\ decompress shipped_dms [9;200;77] = DCorrupted [137; 100] /\
  decompress shipped_dms [1;1] = DUb [].
Proof. split; [repeat constructor|]. split; vm_compute; reflexivity. Qed.

(** C03, the out-of-range access is reachable: the two-byte stream 1, 1. *)
Theorem C03_lzw_memory_safe_refuted : exists is, bytes is /\ decompress shipped_dms is = DUb [].
Proof. exists [1;1]. split; [repeat constructor|vm_compute; reflexivity]. Qed.
Print Assumptions C03_lzw_memory_safe_refuted.

(** C03, longer streams: for every dictionary limit there is a stream that does not begin with code 257 and still makes the
    decoder read out of range (after a dictionary reset the previous code is stale). *)
Theorem C03_lzw_stale_code_refuted : forall dms, 258 <= dms -> dms <= 2 ^ 25 ->
  exists is, bytes is /\ hd_error is = Some 0 /\ exists out, decompress dms is = DUb out.
Proof. exact unsafe_after_reset. Qed.
Print Assumptions C03_lzw_stale_code_refuted.

(** C03.  On streams of any length the main loop terminates ([DFuel] is the model running out of steps). *)
Theorem C03_lzw_decoder_steps_bounded : forall dms is, 258 <= dms -> dms <= 2 ^ 25 -> bytes is ->
  ~ exists o, decompress dms is = DFuel o.
Proof.
  intros dms is lo hi H (o & E). pose proof (decompress_no_fuel dms lo hi is H) as F. rewrite E in F. discriminate.
Qed.
Print Assumptions C03_lzw_decoder_steps_bounded.
