(** The caching allocator (include/utils/cached_allocator.hpp): properties C06, C07.
    A history is a list of allocate / free / write / gc operations; handle k is the block returned by the k-th allocate. *)
From Coq Require Import List NArith Bool Lia.
From Verif Require Import AllocModel AllocSpec AllocProofs.
Import ListNotations.
Local Open Scope N_scope.

(** C06.  As long as gc() has not released anything: two live handles never share a byte, and every live handle holds exactly
    what the client wrote to it since it was allocated, zero elsewhere, whatever was freed, reused or written in between. *)
Theorem C06_alloc_blocks_independent : forall debug h w,
  run debug init h = Ok w -> gc_true w = false ->
  (forall j k bj bk, j <> k ->
     nth_error (handles w) j = Some (Some bj) -> nth_error (handles w) k = Some (Some bk) -> disj bj bk) /\
  length (handles w) = length (spec h) /\
  (forall k hk ck, nth_error (handles w) k = Some hk -> nth_error (spec h) k = Some ck -> agrees (mem w) hk ck).
Proof.
  intros debug h w HR G. pose proof (run_inv debug h init [] w inv_init HR) as HI. unfold inv in HI. rewrite G in HI.
  exact (conj (good_live_disjoint w _ HI) (proj2 (proj2 (proj2 (proj2 (proj2 HI)))))).
Qed.
Print Assumptions C06_alloc_blocks_independent.

(** C06.  Histories in which the system allocator does not fail and gc() is not called never touch memory that is not live,
    never abort and never throw, in either build mode ([BadEnv] marks histories that break the client's or system's contract). *)
Theorem C06_alloc_safe : forall debug h, plentiful h ->
  run debug init h = BadEnv \/ exists w, run debug init h = Ok w /\ gc_true w = false /\ exit_clean w = true.
Proof.
  intros debug h HP. destruct (run_plentiful debug h HP init [] inv_init eq_refl) as [H|(w & H & G)]; [now left|right].
  exists w. split; [exact H|]. split; [exact G|]. pose proof (run_inv debug h init [] w inv_init H) as HI. unfold inv in HI.
  rewrite G in HI. exact (good_exit w _ HI).
Qed.
Print Assumptions C06_alloc_safe.

(** two blocks of 8 bytes; the first is dirtied, freed and handed out again: the new handle is zero, the old bytes are gone *)
Example C06_case :
  let h := [OAlloc 8 0 (Some 100) None; OAlloc 8 0 (Some 200) None; OWrite 0 3 77; OWrite 1 3 55; OFree 0;
            OAlloc 8 0 (Some 300) None; OWrite 2 0 9] in
  plentiful h /\ exists w, run true init h = Ok w /\
    handles w = [None; Some (mkB 200 8); Some (mkB 100 8)] /\
    spec h = [None; Some [0;0;0;55;0;0;0;0]; Some [9;0;0;0;0;0;0;0]] /\ mem w 103 = 0 /\ mem w 203 = 55.
Proof. cbv zeta. split; [repeat constructor|]. eexists. split; [vm_compute; reflexivity|]. repeat split. Qed.

(** C07.  A finished history is sound (no allocate ever returned a block overlapping a live one, and the releases at program
    exit are valid) exactly when no call of gc() ever returned true. *)
Theorem C07_alloc_sound_iff_no_gc : forall debug h w, run debug init h = Ok w ->
  ((overlap w = false /\ exit_clean w = true) <-> gc_true w = false).
Proof.
  intros debug h w HR. pose proof (run_inv debug h init [] w inv_init HR) as HI. unfold inv in HI.
  destruct (gc_true w) eqn:G.
  - split; [|discriminate]. intros (O & E). destruct (bad_exit w HI); congruence.
  - split; [reflexivity|]. intros _. split; [apply HI|exact (good_exit w _ HI)].
Qed.
Print Assumptions C07_alloc_sound_iff_no_gc.

Example C07_case :
  let h := [OAlloc 8 0 (Some 100) None; OAlloc 16 0 (Some 200) None; OFree 0; OGc] in
  exists w, run true init h = Ok w /\ gc_true w = true /\ exit_clean w = false.
Proof. cbv zeta. eexists. split; [vm_compute; reflexivity|]. split; reflexivity. Qed.

(** C07, the promise is broken: allocate, free, gc, allocate the same size: released memory is written to. *)
Theorem C07_alloc_gc_safe_refuted :
  run true init [OAlloc 8 0 (Some 100) None; OFree 0; OGc; OAlloc 8 0 (Some 300) None] = Ub /\
  run true init [OAlloc 8 0 (Some 100) None; OFree 0; OGc; OGc] = Ub.
Proof. split; vm_compute; reflexivity. Qed.
Print Assumptions C07_alloc_gc_safe_refuted.

(** C07, the automatic collection in allocate() when memory runs out has the same effect: the retry succeeds, and afterwards
    the system may hand the released address to one client while the cache hands it to another. *)
Theorem C07_alloc_two_owners_refuted :
  exists h w b2 b3, run true init h = Ok w /\
    nth_error (handles w) 2 = Some (Some b2) /\ nth_error (handles w) 3 = Some (Some b3) /\ ~ disj b2 b3.
Proof.
  exists [OAlloc 8 0 (Some 100) None; OFree 0; OAlloc 16 0 None (Some 200); OAlloc 16 0 (Some 96) None; OAlloc 8 0 (Some 300) None].
  do 3 eexists. split; [vm_compute; reflexivity|]. split; [reflexivity|]. split; [reflexivity|].
  unfold disj. cbn [b_addr b_size]. lia.
Qed.
Print Assumptions C07_alloc_two_owners_refuted.
