(** What a progress bar is to show, without reference to how it is printed. *)
From Coq Require Import List Arith Bool PeanoNat ZArith String Ascii.
From Verif Require Import TqdmModel.
Import ListNotations.
Local Open Scope nat_scope.

(** what is visible of a frame *)
Fixpoint visible (f : list token) : list string :=
  match f with [] => [] | Glyph g :: f => g :: visible f | _ :: f => visible f end.
(** the characters of a text *)
Fixpoint characters (s : string) : list string := match s with EmptyString => [] | String c s => String c "" :: characters s end.

(** the k-th frame of a bar of b cells, m of them full *)
Definition frame_of (e : env) (prefix : string) (b m k : nat) : list string :=
  characters prefix ++ characters "{" ++ characters (percent_text e k) ++ characters "%} [" ++ repeat full_block m ++ repeat " "%string (b - m)
  ++ characters "] (" ++ characters (time_text e k) ++ characters "s < " ++ characters (left_text e k) ++ characters "s) " ++ characters (suffix_text e k).
(** how many cells are full at the k-th of n elements *)
Definition full_cells (b n k : nat) : nat := if k <? n then k * b / n else b.

(** frames k, k + 1, ... before the elements of a list and after the last one *)
Fixpoint weave {A} (fr : nat -> list (list token)) (k : nat) (l : list A) : list (event A) :=
  map Frame (fr k) ++ match l with [] => [] | x :: l => Body x :: weave fr (S k) l end.
Fixpoint bodies {A} (ev : list (event A)) : list A := match ev with [] => [] | Body x :: ev => x :: bodies ev | Frame _ :: ev => bodies ev end.

(** a line of a terminal, and the cursor: a glyph replaces what is under the cursor.  The line is as wide as need be *)
Definition put (s : list string * nat) (t : token) : list string * nat :=
  match t with
  | Return => (fst s, 0)
  | Control _ => s
  | Glyph g => (firstn (snd s) (fst s) ++ g :: skipn (S (snd s)) (fst s), S (snd s))
  end.
Definition send (f : list token) (s : list string * nat) : list string * nat := fold_left put f s.
Fixpoint watch {A} (ev : list (event A)) (s : list string * nat) : list string * nat :=
  match ev with [] => s | Frame f :: ev => watch ev (send f s) | Body _ :: ev => watch ev s end.

(** how many characters of the k-th frame vary *)
Definition varying (e : env) (k : nat) : nat :=
  String.length (percent_text e k) + String.length (time_text e k) + String.length (left_text e k) + String.length (suffix_text e k).
