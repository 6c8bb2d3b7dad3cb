(** Vocabulary of the properties of saving and loading. *)
From Coq Require Import List Arith NArith Bool PeanoNat.
From Verif Require Import ListBase TensorModel LzwModel TextModel.
Import ListNotations.
Local Open Scope nat_scope.

(** a word: something, with no white space in it *)
Definition word (w : list N) : Prop := w <> [] /\ Forall (fun c => ~ In c [32; 9; 10; 11; 12; 13]%N) w.

(** as many elements as the shape says *)
Definition full {E} (x : list nat * list E) : Prop := length (snd x) = fold_right Nat.mul 1 (fst x).

(** every element is written as a word *)
Definition wordy {E} (put : E -> list N) (x : list nat * list E) : Prop := Forall (fun e => word (put e)) (snd x).

(** [y] is what [x] becomes when every element is written and read: the same shape, element for element what reading gives *)
Definition reread {E} (put : E -> list N) (take : list N -> option E) (x y : list nat * list E) : Prop :=
  fst x = fst y /\ Forall2 (fun a b => take (put a) = Some b) (snd x) (snd y).

(** the value under an identifier *)
Fixpoint value_of {A} (m : list (nat * A)) (id : nat) : option A :=
  match m with [] => None | (i, a) :: m => if Nat.eqb i id then Some a else value_of m id end.
