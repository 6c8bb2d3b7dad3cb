(** Specification vocabulary for loops over range, enumerate and reverse. *)
From Coq Require Import List Arith Lia Bool PeanoNat.
Import ListNotations.

(** body is run for each element, from the first to the last; the elements it leaves behind, and the state *)
Fixpoint visit {A S} (body : A -> S -> A * S) (l : list A) (s : S) : list A * S :=
  match l with
  | [] => ([], s)
  | e :: l => let (e', s1) := body e s in let (l', s2) := visit body l s1 in (e' :: l', s2)
  end.

(** body is run for the values g 0, g 1, ..., g (k - 1) *)
Definition for_values {V S} (k : nat) (g : nat -> V) (body : V -> S -> S) (s : S) : S := fold_left (fun s i => body (g i) s) (seq 0 k) s.

(** the elements with their positions *)
Definition numbered {A} (l : list A) : list (nat * A) := combine (seq 0 (length l)) l.
