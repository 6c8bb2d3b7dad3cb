(** Model of include/utils/parallel.hpp, include/utils/range.hpp and include/utils/for_each.hpp.

    Integer_Type is unsigned long (the only instantiation in the library is [parallel( func, 0UL, n )], for_each.hpp:52);
    unsigned arithmetic wraps modulo 2^64 and the wrap is written out ([w64]). *)
From Coq Require Import List NArith Bool.
Import ListNotations.
Local Open Scope N_scope.

(** unsigned long arithmetic *)
Definition w64 (x : N) : N := x mod 2 ^ 64.

(** a - b on unsigned long, for a, b below 2^64 *)
Definition sub64 (a b : N) : N := w64 (a + 2 ^ 64 - b).

(** range.hpp:45,95-99,127-135,152-155: the values visited by [for ( auto a : range( first, last ) )]: from first,
    incrementing (with wrap-around), until equal to last *)
Definition range (first last : N) : list N :=
  map (fun k => w64 (first + N.of_nat k)) (seq 0 (N.to_nat (sub64 last first))).

(** parallel.hpp:46-51 job_slice: the indices passed to func *)
Definition job_slice (a b : N) : list N := if b <=? a then [] else range a b.

(** parallel.hpp:13-70.  The result lists, thread by thread, the indices that thread passes to [func], in order; the calling
    thread comes last.  [mode] is config.hpp's parallel_mode, [cores] is std::thread::hardware_concurrency(). *)
Definition parallel (mode cores threshold dim_first dim_last : N) : list (list N) :=
  if mode =? 0 then [range dim_first dim_last]                                              (* 16-21 *)
  else if (cores <=? 1) || (sub64 dim_last dim_first <=? threshold) then [range dim_first dim_last]  (* 27-32 *)
  else if sub64 dim_last dim_first <=? cores then map (fun i => [i]) (range dim_first dim_last) ++ [[]]  (* 36-43 *)
  else
    let tpt := w64 (sub64 dim_last dim_first + cores - 1) / cores in                        (* 54 *)
    map (fun k => let index := N.of_nat k in
                  let first := N.min (w64 (tpt * index + dim_first)) dim_last in            (* 58-59 *)
                  let last := N.min (w64 (first + tpt)) dim_last in                         (* 60-61 *)
                  job_slice first last) (seq 0 (N.to_nat (cores - 1)))                      (* 56, 62 *)
    ++ [job_slice (w64 (tpt * (cores - 1))) dim_last].                                      (* 65 *)

(* ------------------------------------------------------------------ threads *)

(** One primitive step of a loop body: load a memory cell into the body's locals, or store to a cell a value computed from
    what the body has loaded so far.  Loads and stores of different threads may interleave arbitrarily. *)
Inductive prim (V : Type) :=
| Load (x : N)
| Store (x : N) (f : list V -> option V).   (* None: the body has not loaded what it needs; never reached *)
Arguments Load {V}. Arguments Store {V}.

(** a schedule of several threads: repeatedly take the next step of one of them *)
Inductive interleave {A} : list (list A) -> list A -> Prop :=
| il_done : forall ts, Forall (fun t => t = []) ts -> interleave ts []
| il_step : forall ts1 a t ts2 s, interleave (ts1 ++ t :: ts2) s -> interleave (ts1 ++ (a :: t) :: ts2) (a :: s).

Section Run.
Variable V : Type.

(** memory, and the values loaded so far by the body of each index (latest first) *)
Definition mstate : Type := (N -> V) * (N -> list V).

Definition setf {B} (m : N -> B) (x : N) (v : B) : N -> B := fun y => if y =? x then v else m y.

(** one step of the body for index i *)
Definition mstep (st : mstate) (op : N * prim V) : mstate :=
  let '(i, p) := op in
  match p with
  | Load x => (fst st, setf (snd st) i (fst st x :: snd st i))
  | Store x f => match f (snd st i) with Some v => (setf (fst st) x v, snd st) | None => st end
  end.

Definition mrun (st : mstate) (s : list (N * prim V)) : mstate := fold_left mstep s st.

(** for_each.hpp:48-53: the body for index i of [for_each( begin_1, end_1, ..., begin_k, f )] loads [*(b+i)] for every
    sequence b it reads and stores [f] of these to [*(w+i)], where w is the sequence its reference parameter walks over
    (tensor's +=, -=, map, clip, ...).  Simplified: one stored element per index. *)
Definition for_each_body (bs : list N) (w : N) (f : list V -> V) (i : N) : list (N * prim V) :=
  map (fun b => (i, Load (b + i))) bs ++
  [(i, Store (w + i) (fun l => if Nat.eqb (length l) (length bs) then Some (f (rev l)) else None))].

(** the step lists of the threads that execute the loop over n elements *)
Definition for_each_threads (mode cores : N) (bs : list N) (w : N) (f : list V -> V) (n : N) : list (list (N * prim V)) :=
  map (flat_map (for_each_body bs w f)) (parallel mode cores 8 0 n).
End Run.
