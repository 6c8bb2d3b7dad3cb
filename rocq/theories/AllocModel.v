(** Model of include/utils/cached_allocator.hpp (memory_cache, cached_allocator) together with the contract of the system
    allocator it sits on (std::allocator<std::byte>).

    A history is a list of client operations.  Blocks are named by handles: the k-th allocate call of the history is handle k.
    What the system allocator answers, and which of several equal-sized entries unordered_multimap::find picks, is part of
    the history, so that a theorem over all histories covers all of them. *)
From Coq Require Import List NArith Bool Arith.
Import ListNotations.
Local Open Scope N_scope.

(** a block: address and size in bytes *)
Record block := mkB { b_addr : N; b_size : N }.

Definition block_eqb (a b : block) : bool := (b_addr a =? b_addr b) && (b_size a =? b_size b).

(** cached_allocator.hpp:38-41 memory_cache: allocated_memory (a set keyed by size and address), reserved_memory (a multimap
    from size to address; entries as blocks) *)
Record cache := mkC { allocated : list block; reserved : list block }.

Record world := mkW {
  os_live : list block;             (* blocks obtained from the system allocator and not yet given back *)
  mem : N -> N;                     (* memory contents, one byte per address *)
  mc : cache;                       (* the singleton memory_cache *)
  handles : list (option block);    (* ghost: what each allocate call returned; None once freed by the client *)
  gc_true : bool;                   (* ghost: some call of gc() returned true *)
  overlap : bool                    (* ghost: some allocate returned a block overlapping a live block of the client *)
}.

Definition init : world := mkW [] (fun _ => 0) (mkC [] []) [] false false.

Inductive outcome (A : Type) :=
| Ok (a : A)
| Ub          (* undefined behaviour: touching or releasing memory that is not live *)
| Abort       (* better_assert in a debug build *)
| Throw       (* std::bad_alloc propagates to the caller *)
| BadEnv.     (* the history breaks a contract: the system returned an occupied block, or the client used a dead handle *)
Arguments Ok {A}. Arguments Ub {A}. Arguments Abort {A}. Arguments Throw {A}. Arguments BadEnv {A}.

Definition disjoint_b (a b : block) : bool :=
  (b_addr a + b_size a <=? b_addr b) || (b_addr b + b_size b <=? b_addr a).

(** contract of std::allocator::allocate: a non-null block disjoint from all live blocks *)
Definition fresh_reply (live : list block) (b : block) : bool :=
  (0 <? b_addr b) && forallb (disjoint_b b) live.

(** remove one occurrence *)
Fixpoint remove1 (b : block) (l : list block) : list block :=
  match l with
  | [] => []
  | x :: t => if block_eqb b x then t else x :: remove1 b t
  end.

(** std::allocator::deallocate: the block must be live *)
Definition os_dealloc (live : list block) (b : block) : option (list block) :=
  if existsb (block_eqb b) live then Some (remove1 b live) else None.

Fixpoint os_dealloc_all (live : list block) (bs : list block) : option (list block) :=
  match bs with
  | [] => Some live
  | b :: t => match os_dealloc live b with Some l => os_dealloc_all l t | None => None end
  end.

(** std::unordered_set::emplace *)
Definition set_emplace (b : block) (l : list block) : list block := if existsb (block_eqb b) l then l else b :: l.

(** cached_allocator.hpp:99-109 gc: releases every reserved block; reserved_memory itself is not cleared *)
Definition gc (w : world) : outcome (world * bool) :=
  match reserved (mc w) with
  | [] => Ok (w, false)
  | rs => match os_dealloc_all (os_live w) rs with
          | Some l => Ok (mkW l (mem w) (mc w) (handles w) true (overlap w), true)
          | None => Ub
          end
  end.

(** entries of reserved_memory with the given size; find returns one of them *)
Definition candidates (size : N) (rs : list block) : list block := filter (fun b => b_size b =? size) rs.

(** cached_allocator.hpp:43-74 memory_cache::allocate.  [r1], [r2]: replies of the system allocator (None: bad_alloc);
    [pick] selects among equal keys.  The returned address is None for nullptr. *)
Definition raw_allocate (debug : bool) (size : N) (pick : nat) (r1 r2 : option N) (w : world) : outcome (world * option block) :=
  match candidates size (reserved (mc w)) with
  | c :: cs =>
    let b := nth (Nat.modulo pick (length (c :: cs))) (c :: cs) c in
    Ok (mkW (os_live w) (mem w) (mkC (set_emplace b (allocated (mc w))) (remove1 b (reserved (mc w)))) (handles w) (gc_true w) (overlap w),
        Some b)                                                                       (* 46-53 *)
  | [] =>
    let take (w : world) (a : N) :=
      let b := mkB a size in
      if fresh_reply (os_live w) b
      then Ok (mkW (b :: os_live w) (mem w) (mkC (set_emplace b (allocated (mc w))) (reserved (mc w))) (handles w) (gc_true w) (overlap w), Some b)
      else BadEnv in
    match r1 with
    | Some a => take w a                                                              (* 60-63, 72-73 *)
    | None =>
      match gc w with                                                                 (* 66 *)
      | Ok (w', true) => match r2 with Some a => take w' a | None => Throw end        (* 67 *)
      | Ok (w', false) => if debug then Abort else Ok (w', None)                      (* 69 *)
      | Ub => Ub | Abort => Abort | Throw => Throw | BadEnv => BadEnv
      end
    end
  end.

(** a byte range may be accessed when it lies in one live block of the system *)
Definition accessible (live : list block) (b : block) : bool :=
  existsb (fun o => (b_addr o <=? b_addr b) && (b_addr b + b_size b <=? b_addr o + b_size o)) live.

(** std::memset( ans, 0, size ) *)
Definition memset0 (m : N -> N) (b : block) : N -> N :=
  fun x => if (b_addr b <=? x) && (x <? b_addr b + b_size b) then 0 else m x.

Definition live_blocks (hs : list (option block)) : list block := flat_map (fun h => match h with Some b => [b] | None => [] end) hs.

(** cached_allocator.hpp:141-147 cached_allocator::allocate of [size] = n*sizeof(T) bytes *)
Definition allocate (debug : bool) (size : N) (pick : nat) (r1 r2 : option N) (w : world) : outcome world :=
  match raw_allocate debug size pick r1 r2 w with
  | Ok (w', Some b) =>
    if accessible (os_live w') b
    then Ok (mkW (os_live w') (memset0 (mem w') b) (mc w') (handles w' ++ [Some b]) (gc_true w')
                 (overlap w' || negb (forallb (disjoint_b b) (live_blocks (handles w')))))
    else Ub
  | Ok (_, None) => Ub                                                                (* memset on nullptr *)
  | Ub => Ub | Abort => Abort | Throw => Throw | BadEnv => BadEnv
  end.

Fixpoint set_nth {A} (l : list A) (k : nat) (a : A) : list A :=
  match l, k with
  | [], _ => []
  | _ :: t, O => a :: t
  | x :: t, S j => x :: set_nth t j a
  end.

(** cached_allocator.hpp:76-80, 149-152 deallocate *)
Definition deallocate (k : nat) (w : world) : outcome world :=
  match nth_error (handles w) k with
  | Some (Some b) => Ok (mkW (os_live w) (mem w) (mkC (remove1 b (allocated (mc w))) (b :: reserved (mc w)))
                             (set_nth (handles w) k None) (gc_true w) (overlap w))
  | _ => BadEnv
  end.

(** the client writes one byte of its block *)
Definition write (k : nat) (off v : N) (w : world) : outcome world :=
  match nth_error (handles w) k with
  | Some (Some b) =>
    if off <? b_size b then
      if accessible (os_live w) (mkB (b_addr b + off) 1)
      then Ok (mkW (os_live w) (fun x => if x =? b_addr b + off then v else mem w x) (mc w) (handles w) (gc_true w) (overlap w))
      else Ub
    else BadEnv
  | _ => BadEnv
  end.

Inductive op :=
| OAlloc (size : N) (pick : nat) (r1 r2 : option N)
| OFree (k : nat)
| OWrite (k : nat) (off v : N)
| OGc.

(** allocate is only ever asked for at least one byte (vector.hpp:96-101) *)
Definition step (debug : bool) (w : world) (o : op) : outcome world :=
  match o with
  | OAlloc size pick r1 r2 => if 0 <? size then allocate debug size pick r1 r2 w else BadEnv
  | OFree k => deallocate k w
  | OWrite k off v => write k off v w
  | OGc => match gc w with Ok (w', _) => Ok w' | Ub => Ub | Abort => Abort | Throw => Throw | BadEnv => BadEnv end
  end.

Fixpoint run (debug : bool) (w : world) (h : list op) : outcome world :=
  match h with
  | [] => Ok w
  | o :: t => match step debug w o with
              | Ok w' => run debug w' t
              | Ub => Ub | Abort => Abort | Throw => Throw | BadEnv => BadEnv
              end
  end.

(** cached_allocator.hpp:82-96 ~memory_cache, at program exit: true when every release is valid *)
Definition exit_clean (w : world) : bool :=
  match os_dealloc_all (os_live w) (allocated (mc w)) with
  | Some l => match os_dealloc_all l (reserved (mc w)) with Some _ => true | None => false end
  | None => false
  end.
