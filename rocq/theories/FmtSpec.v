(** What a format string means. *)
From Coq Require Import String.
From Coq Require Import List Arith NArith Bool PeanoNat.
From Verif Require Import TextModel PrintModel.
Import ListNotations.
Local Open Scope nat_scope.

(** [what] is written somewhere in [s] *)
Definition occurs (what s : list N) : Prop := exists a b, s = a ++ what ++ b.

(** pieces with a place "{}" between any two *)
Fixpoint with_places (pieces : list (list N)) : list N :=
  match pieces with [] => [] | [p] => p | p :: ps => p ++ str "{}" ++ with_places ps end.
(** the same with the first places filled; places without a text stay, texts without a place are ignored *)
Fixpoint filled (pieces texts : list (list N)) : list N :=
  match pieces, texts with
  | [], _ => []
  | [p], _ => p
  | p :: ps, [] => p ++ str "{}" ++ with_places ps
  | p :: ps, t :: ts => p ++ t ++ filled ps ts
  end.

(** format strings that name the arguments *)
Inductive item := Lit (t : list N) | Ref (i : nat).
Definition item_text (i : item) : list N := match i with Lit t => t | Ref i => str "{" ++ put_nat i ++ str "}" end.
Definition item_filled (texts : list (list N)) (i : item) : list N :=
  match i with Lit t => t | Ref n => match nth_error texts n with Some t => t | None => item_text i end end.
Definition no_open_brace (t : list N) : Prop := ~ In 123%N t.

(** texts of numbers and the like: not empty, without comma, space and closing brace *)
Definition simple (t : list N) : Prop := t <> [] /\ Forall (fun c => ~ In c [44; 32; 125]%N) t.

Fixpoint separated (sep : list N) (l : list (list N)) : list N :=
  match l with [] => [] | [t] => t | t :: l => t ++ sep ++ separated sep l end.
