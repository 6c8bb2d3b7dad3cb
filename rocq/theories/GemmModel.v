(** Model of the matrix product in all builds of the library: tensor.tcc:428-554 gemm_cpu, update_cuda_gemm_threshold and gemm,
    backend/cblas.hpp:36-74 cblas_gemm, backend/cuda.hpp:292-328 cuda_memory_cache and 388-440 cuda_gemm.

    Memory is a list of numbers and a pointer an index into it: host memory with A, B and C anywhere in it, and the device's buffer.
    Elements are real numbers.  Unsigned numbers wrap at 2^64 and are converted to int modulo 2^32, as in C++20.

    Simplifications: the library routines cblas_sgemm, cblas_dgemm, cublasSgemm and cublasDgemm are given by the reference BLAS: they check
    their parameters (a wrong one stops the program, as xerbla and cublas_assert do) and otherwise store
    alpha * op(A) * op(B) + beta * C, column by column.  cudaMalloc always succeeds; what the buffer holds before a call is arbitrary (it
    may have been used with another element type).  How long a product takes is arbitrary, too. *)
From Coq Require Import List Arith Bool PeanoNat NArith ZArith Reals.
From Verif Require Import ListBase TensorModel.
Import ListNotations.
Local Open Scope nat_scope.

Notation memory := (list R).

(** ** The BLAS *)

(** std::size_t to int *)
Definition to_int (x : nat) : Z := let r := (Z.of_nat x mod 4294967296)%Z in if (r <? 2147483648)%Z then r else (r - 4294967296)%Z.

(** position of element (i, j) of op(X), X being stored column by column with leading dimension ld *)
Definition at_col (transposed : bool) (ld i j : nat) : nat := if transposed then i * ld + j else j * ld + i.

(** the sum over l < K of op(A)(i,l) * op(B)(l,j) *)
Definition inner (M : memory) (pa pb : nat -> nat) (K : nat) : option R :=
  fold_left (fun acc l => match acc, nth_error M (pa l), nth_error M (pb l) with Some s, Some x, Some y => Some (s + x * y)%R | _, _, _ => None end) (seq 0 K) (Some 0%R).

(** element (i, j) of C; C is not read if beta is 0 *)
Definition blas_element (ta tb : bool) (K : nat) (alpha : R) (a lda b ldb : nat) (beta : R) (c ldc : nat) (i j : nat) (M : memory) : outcome memory :=
  match inner M (fun l => a + at_col ta lda i l) (fun l => b + at_col tb ldb l j) K, nth_error M (c + (j * ldc + i)) with
  | Some v, Some z => Ok (upd M (c + (j * ldc + i)) (if Req_EM_T beta 0 then alpha * v else alpha * v + beta * z)%R)
  | _, _ => UB
  end.

(** xGEMM of the reference BLAS, column major: op(A) is M x N0, op(B) N0 x N *)
Definition blas_gemm (ta tb : bool) (rows cols common : Z) (alpha : R) (a : nat) (lda : Z) (b : nat) (ldb : Z) (beta : R) (c : nat) (ldc : Z) (M : memory) : outcome memory :=
  let nrowa := if ta then common else rows in
  let nrowb := if tb then cols else common in
  if ((rows <? 0) || (cols <? 0) || (common <? 0) || (lda <? Z.max 1 nrowa) || (ldb <? Z.max 1 nrowb) || (ldc <? Z.max 1 rows))%Z then Abort
  else fold_left (fun acc ji => obind acc (blas_element ta tb (Z.to_nat common) alpha a (Z.to_nat lda) b (Z.to_nat ldb) beta c (Z.to_nat ldc) (snd ji) (fst ji)))
                 (list_prod (seq 0 (Z.to_nat cols)) (seq 0 (Z.to_nat rows))) (Ok M).

(** ** cblas.hpp:36-74 *)
Definition cblas_gemm (A : nat) (a_transposed : bool) (B : nat) (b_transposed : bool) (m n k C : nat) (M : memory) : outcome memory :=
  let first := B in
  let second := A in
  let row_of_c := to_int m in
  let col_of_c := to_int k in
  let common := to_int n in
  let ld_first := to_int (if b_transposed then n else k) in
  let ld_second := to_int (if a_transposed then m else n) in
  let ld_result := to_int k in
  blas_gemm b_transposed a_transposed col_of_c row_of_c common 1%R first ld_first second ld_second 0%R C ld_result M.

(** ** cuda.hpp *)
Definition w64 (x : N) : N := (x mod 18446744073709551616)%N.

(** std::memcpy between host and device: len elements *)
Definition copy_to (src : memory) (ps len : nat) (dst : memory) (pd : nat) : outcome memory :=
  if (ps + len <=? length src) && (pd + len <=? length dst) then Ok (firstn pd dst ++ firstn len (skipn ps src) ++ skipn (pd + len) dst) else UB.

(** lines 299-316 reserve: the size of the buffer in bytes *)
Definition reserve (size : N) (sz length : N) : N :=
  let new_size := w64 (length * sz) in
  if (new_size <=? size)%N then size
  else w64 (N.shiftl (w64 (1 + N.shiftr (w64 (new_size + size)) 20)) 20).

(** lines 388-440; sz is sizeof( T ), junk what the buffer holds; the result and the new size of the buffer *)
Definition cuda_gemm (sz : N) (junk : nat -> R) (A : nat) (a_transposed : bool) (B : nat) (b_transposed : bool) (m n k C : nat) (M : memory) (size : N) : outcome (memory * N) :=
  let size' := reserve size sz (w64 (N.of_nat (m * n) + N.of_nat (n * k) + N.of_nat (m * k))) in
  let device := tab (N.to_nat (size' / sz)) junk in
  let a := 0 in
  let b := a + m * n in
  let c := b + n * k in
  obind (copy_to M A (m * n) device a) (fun d1 =>
  obind (copy_to M B (n * k) d1 b) (fun d2 =>
  obind (blas_gemm b_transposed a_transposed (to_int k) (to_int m) (to_int n) 1%R b (to_int (if b_transposed then n else k)) a (to_int (if a_transposed then m else n)) 0%R c (to_int k) d2) (fun d3 =>
  obind (copy_to d3 c (m * k) M C) (fun M' => Ok (M', size'))))).

(** ** tensor.tcc:428-457 on pointers: the pointer C is __restrict__ *)
Definition apart (p lp q lq : nat) : bool := (p + lp <=? q) || (q + lq <=? p).
Definition gemm_host (A : nat) (a_transposed : bool) (B : nat) (b_transposed : bool) (m n k C : nat) (M : memory) : outcome memory :=
  if (A + m * n <=? length M) && (B + n * k <=? length M) && (C + m * k <=? length M) && apart C (m * k) A (m * n) && apart C (m * k) B (n * k) then
    match gemm_cpu 0%R Rplus Rmult (firstn (m * n) (skipn A M)) a_transposed (firstn (n * k) (skipn B M)) b_transposed m n k (firstn (m * k) (skipn C M)) with
    | Some c => Ok (firstn C M ++ c ++ skipn (C + m * k) M)
    | None => UB
    end
  else UB.

(** ** tensor.tcc:460-554 *)
Record machine := Machine { cuda_mode : bool; cblas_mode : bool }.           (* config.hpp: how the library was compiled *)
Record globals := Globals { cuda_gemm_threshold : N; buffer : N }.          (* config.hpp; the size of the buffer *)

(** update_cuda_gemm_threshold: rounds is the number of times the loop runs until the GPU is faster *)
Definition update_threshold (mc : machine) (rounds : nat) (g : globals) : globals :=
  if cuda_mode mc then
    let warm := reserve (buffer g) 4 (3 * 128 * 128) in
    let tried := fold_left (fun size i => reserve size 4 (let dim := 16 * N.of_nat i in 3 * (dim * dim))%N) (seq 1 rounds) warm in
    Globals (let dim := (16 * N.of_nat rounds)%N in w64 (dim * dim * dim)) tried
  else Globals 18446744073709551615 (buffer g).

(** gemm; sz, junk and rounds as above *)
Definition gemm (mc : machine) (sz : N) (junk : nat -> R) (rounds : nat) (A : nat) (a_transposed : bool) (B : nat) (b_transposed : bool) (m n k C : nat) (M : memory) (g : globals) : outcome (memory * globals) :=
  let g := if (cuda_gemm_threshold g =? 0)%N then update_threshold mc rounds g else g in
  let on_cpu := obind (if cblas_mode mc then cblas_gemm A a_transposed B b_transposed m n k C M else gemm_host A a_transposed B b_transposed m n k C M) (fun M' => Ok (M', g)) in
  if cuda_mode mc then
    if (cuda_gemm_threshold g <=? w64 (N.of_nat m * N.of_nat n * N.of_nat k))%N then
      obind (cuda_gemm sz junk A a_transposed B b_transposed m n k C M (buffer g)) (fun Ms => Ok (fst Ms, Globals (cuda_gemm_threshold g) (snd Ms)))
    else on_cpu
  else on_cpu.

(** ** Programs: one product after the other *)
Record product := Product { pA : nat; tA : bool; pB : nat; tB : bool; rows : nat; common : nat; cols : nat; pC : nat; double : bool }.
Definition size_of (p : product) : N := if double p then 8%N else 4%N.

Fixpoint gemms (mc : machine) (junk : nat -> nat -> R) (rounds : nat -> nat) (ps : list product) (M : memory) (g : globals) : outcome (memory * globals) :=
  match ps with
  | [] => Ok (M, g)
  | p :: ps =>
      obind (gemm mc (size_of p) (junk (length ps)) (rounds (length ps)) (pA p) (tA p) (pB p) (tB p) (rows p) (common p) (cols p) (pC p) M g) (fun Mg =>
      gemms mc junk rounds ps (fst Mg) (snd Mg))
  end.
