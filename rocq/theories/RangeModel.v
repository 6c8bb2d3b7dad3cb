(** Model of loops over range (include/utils/range.hpp), enumerate (include/utils/enumerate.hpp) and reverse (include/utils/reverse.hpp).

    for ( auto x : r ) body is: begin, compare with end, body, ++.  A body is a function of what it is given and of the state of the rest of
    the program.

    Simplifications: a body that is given a reference writes at most the element it is given (enumerate's body may also change the
    container that was enumerated, in any way); bodies do not leave the loop early. *)
From Coq Require Import List Arith Lia Bool PeanoNat ZArith.
From Verif Require Import ListBase TensorModel.
Import ListNotations.

Section Range.
Context {V S : Type}.
Variable (step : V -> outcome V).            (* range.hpp:33 step_function *)
Variable (equal : V -> V -> bool).           (* range.hpp:34 equality_check_function *)

(** range.hpp:95-99 operator ++, and 108-113 operator += n (115-125 it + n and n + it copy the iterator and use it) *)
Definition next (value : V) : outcome V := step value.
Fixpoint advance (n : nat) (value : V) : outcome V :=
  match n with
  | O => Ok value
  | Datatypes.S n => obind (next value) (advance n)
  end.

(** for ( auto x : range( first, last, step, equal ) ) body: range.hpp:49-57 begin and end, 90-93 *, 95-99 ++, 127-135 !=.
    The loop need not end: None is a loop that still runs after [fuel] bodies. *)
Fixpoint run (fuel : nat) (body : V -> S -> S) (value last : V) (s : S) : option (outcome S) :=
  if equal value last then Some (Ok s)
  else match fuel with
       | O => None
       | Datatypes.S fuel =>
           let s := body value s in
           match next value with
           | Ok v => run fuel body v last s
           | Abort => Some Abort
           | UB => Some UB
           end
       end.
End Range.

(** steps of d for int: signed overflow is undefined.  ++x of range.hpp:45, 47 is d = 1. *)
Definition int_max : Z := 2147483647.
Definition int_min : Z := -2147483648.
Definition int_step (d x : Z) : outcome Z := if ((x + d <=? int_max) && (int_min <=? x + d))%Z%bool then Ok (x + d)%Z else UB.

(** ++x for unsigned long *)
Definition word_step (x : Z) : outcome Z := Ok ((x + 1) mod 2 ^ 64)%Z.

(** ** enumerate *)
Section Containers.
Context {A S : Type}.

(** the loop over the container [held] of the wrapper: enumerate.hpp:10-20 (iterator: a counter and an iterator), 27-28 (begin, end).
    The body gets the counter and a reference to the element, std::tie( i, *iter ), here: returns what the element becomes. *)
Fixpoint enumerate_loop (todo : nat) (body : nat -> A -> S -> A * S) (held : list A) (i : nat) (s : S) : outcome (list A * S) :=
  match todo with
  | O => Ok (held, s)
  | Datatypes.S todo =>
      match nth_error held i with
      | None => UB
      | Some e => let (e', s') := body i e s in enumerate_loop todo body (upd held i e') (1 + i) s'
      end
  end.

(** ** reverse *)

(** for ( auto& e : reverse( c ) ) body: reverse.hpp:36-58.  The wrapper holds a reference to c, and the loop goes from rbegin to rend. *)
Fixpoint reverse_loop (todo : nat) (body : A -> S -> A * S) (c : list A) (s : S) : outcome (list A * S) :=
  match todo with
  | O => Ok (c, s)
  | Datatypes.S i =>
      match nth_error c i with
      | None => UB
      | Some e => let (e', s') := body e s in reverse_loop i body (upd c i e') s'
      end
  end.

(** if c is a temporary, the reference (reverse.hpp:39, 54-58) outlives it: the loop reads a destroyed object, even for its bounds (up to C++20; C++23
    keeps temporaries of the range alive) *)
Definition reverse (temporary : bool) (body : A -> S -> A * S) (c : list A) (s : S) : outcome (list A * S) :=
  if temporary then UB else reverse_loop (length c) body c s.
End Containers.

(** for ( auto [i, e] : enumerate( c ) ) body: enumerate.hpp:34-38.  iterable_wrapper{ std::forward<T>( iterable ) } deduces the type of its
    member (22-25) without the reference, so the wrapper holds a copy of c (moved from if c is a temporary).  The state the body
    may change consists of c and the rest; the copy dies with the loop. *)
Definition enumerate {A S} (body : nat -> A -> list A * S -> A * (list A * S)) (c : list A) (s : S) : outcome (list A * S) :=
  obind (enumerate_loop (length c) body c 0 (c, s)) (fun r => Ok (snd r)).
