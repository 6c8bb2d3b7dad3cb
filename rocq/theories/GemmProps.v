(** C89: every build computes the same matrix product. *)
From Coq Require Import List Arith Bool PeanoNat NArith ZArith Reals Lra Lia.
From Verif Require Import ListBase TensorSpec TensorModel GemmModel GemmSpec GemmProofs GemmProofs2.
Import ListNotations.
Local Open Scope nat_scope.

(** Whether the library is compiled with or without CUDA and with or without CBLAS, whatever the threshold and the buffer are (the first
    call of a program measures the threshold and the outcome of the measurement is arbitrary), whatever the buffer holds: gemm runs, C
    receives the product, row by row, and no other element of the memory changes. *)
Theorem C89_gemm : forall mc junk rounds p M g,
  sensible (length M) p -> real_memory M -> countable g -> brief rounds ->
  exists M' g', gemm mc (size_of p) junk rounds (pA p) (tA p) (pB p) (tB p) (rows p) (common p) (cols p) (pC p) M g = Ok (M', g') /\
    multiplied p M M' /\ countable g'.
Proof. exact gemm_ok. Qed.
Print Assumptions C89_gemm.

(** Any sequence of products leaves the same memory in any two builds, from the start of the program (threshold 0, no buffer) or from any
    other state. *)
Theorem C89_builds_agree : forall mc1 mc2 junk1 junk2 rounds1 rounds2 ps M g1 g2,
  (forall i, brief (rounds1 i)) -> (forall i, brief (rounds2 i)) ->
  Forall (sensible (length M)) ps -> real_memory M -> countable g1 -> countable g2 ->
  exists M' g1' g2', gemms mc1 junk1 rounds1 ps M g1 = Ok (M', g1') /\ gemms mc2 junk2 rounds2 ps M g2 = Ok (M', g2') /\ computed ps M M'.
Proof.
  intros mc1 mc2 junk1 junk2 rounds1 rounds2 ps M g1 g2 B1 B2 F RM C1 C2.
  destruct (gemms_ok mc1 junk1 rounds1 B1 ps M g1 F RM C1) as (M1 & g1' & E1 & K1 & _).
  destruct (gemms_ok mc2 junk2 rounds2 B2 ps M g2 F RM C2) as (M2 & g2' & E2 & K2 & _).
  assert (M1 = M2) by (eapply computed_det; eassumption). subst M2. eauto 7.
Qed.
Print Assumptions C89_builds_agree.

(** Extents of zero: without CBLAS the product is stored.  With CBLAS it is stored if C's rows are not empty and neither stored factor has
    empty rows; otherwise the BLAS rejects the leading dimension and the program stops. *)
Theorem C89_empty : forall p M,
  placed (length M) p -> (N.of_nat (rows p) < 2147483648)%N -> (N.of_nat (common p) < 2147483648)%N -> (N.of_nat (cols p) < 2147483648)%N ->
  (exists M', gemm_host (pA p) (tA p) (pB p) (tB p) (rows p) (common p) (cols p) (pC p) M = Ok M' /\ multiplied p M M') /\
  ((1 <= cols p /\ 1 <= (if tB p then common p else cols p) /\ 1 <= (if tA p then rows p else common p)) ->
     exists M', cblas_gemm (pA p) (tA p) (pB p) (tB p) (rows p) (common p) (cols p) (pC p) M = Ok M' /\ multiplied p M M') /\
  (~ (1 <= cols p /\ 1 <= (if tB p then common p else cols p) /\ 1 <= (if tA p then rows p else common p)) ->
     cblas_gemm (pA p) (tA p) (pB p) (tB p) (rows p) (common p) (cols p) (pC p) M = Abort).
Proof.
  intros p M Pl S1 S2 S3. split; [now apply gemm_host_ok|]. split; intros K.
  - exact (row_major_ok p M Pl S1 S2 S3 K).
  - exact (row_major_stops p M S1 S2 S3 K).
Qed.
Print Assumptions C89_empty.

(** So builds differ on empty sums: the product of a 1 x 0 and a 0 x 2 matrix is two zeros on the CPU and an error with CBLAS. *)
Theorem C89_empty_agree_refuted : ~ forall p M, placed (length M) p ->
  cblas_gemm (pA p) (tA p) (pB p) (tB p) (rows p) (common p) (cols p) (pC p) M = gemm_host (pA p) (tA p) (pB p) (tB p) (rows p) (common p) (cols p) (pC p) M.
Proof.
  intros H. set (p := Product 0 false 0 false 1 0 2 0 false).
  assert (Pl : placed (length [7; 7]%R) p) by (unfold placed, p; cbn; lia).
  destruct (C89_empty p [7; 7]%R Pl) as ((M' & E & _) & _ & K); try reflexivity.
  specialize (H p _ Pl). rewrite K, E in H; [discriminate|]. unfold p; cbn. lia.
Qed.
Print Assumptions C89_empty_agree_refuted.

(** ** A case: a transposed 3 x 2 matrix times a 3 x 2 matrix, in a CUDA build at the start of the program *)
Module Case.
Definition p : product := Product 1 true 7 false 2 3 2 13 false.
Definition M : memory := [9; 1; 4; 2; 5; 3; 6; 1; 2; 3; 4; 5; 6; 0; 0; 0; 0; 8]%R.
Definition cuda : machine := Machine true true.

Lemma C89_case : exists M' g', gemm cuda 4 (fun _ => 77%R) 3 1 true 7 false 2 3 2 13 M (Globals 0 0) = Ok (M', g') /\
  M' = [9; 1; 4; 2; 5; 3; 6; 1; 2; 3; 4; 5; 6; 22; 28; 49; 64; 8]%R.
Proof.
  assert (Se : sensible (length M) p) by (unfold sensible, placed, fits_int, p, M; cbn; lia).
  destruct (C89_gemm cuda (fun _ => 77%R) 3 p M (Globals 0 0)) as (M' & g' & E & Mu & _); try reflexivity; [exact Se|].
  exists M', g'. split; [exact E|].
  eapply multiplied_det; [exact Mu|]. split; [reflexivity|]. split.
  - intros r c Hr Hc. cbn [rows cols p] in Hr, Hc.
    destruct r as [|[|]]; [| |lia]; (destruct c as [|[|]]; [| |lia]);
    unfold dot, op_entry, entry, region, p, M; cbn; f_equal; lra.
  - intros q Q. unfold p, M in *. cbn in Q. do 18 (destruct q as [|q]; [try reflexivity; lia|]). now destruct q.
Qed.

(** the threshold after the first call: 48 x 48 x 48 operations; the buffer holds a megabyte *)
Example C89_threshold : update_threshold cuda 3 (Globals 0 0) = Globals 110592 1048576.
Proof. reflexivity. Qed.
End Case.
