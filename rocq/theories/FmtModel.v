(** Model of utils/fmt.hpp: fmt::format (the bundled one), with which names, programs, drawings and messages are written.

    Simplifications: texts are lists of character codes; an argument that is written with operator << of a stream (numbers, C strings) is
    given by the text the stream makes of it; std::any, references to functions and user types are left out (an aggregate is the tuple of
    its members, utils/fmt.hpp:50-818). *)
From Coq Require Import String.
From Coq Require Import List Arith NArith Bool PeanoNat.
From Verif Require Import TextModel PrintModel.
Import ListNotations.
Local Open Scope nat_scope.

Notation text := (list N).

(** ** Searching and replacing *)

(** does s start with what, and what follows? *)
Fixpoint starts (what s : text) : option text :=
  match what, s with
  | [], _ => Some s
  | a :: w, b :: s => if (a =? b)%N then starts w s else None
  | _ :: _, [] => None
  end.
(** std::string::find: what is before and what is after the first occurrence *)
Fixpoint find (what s : text) : option (text * text) :=
  match starts what s with
  | Some r => Some ([], r)
  | None => match s with [] => None | c :: s => match find what s with Some (b, r) => Some (c :: b, r) | None => None end end
  end.

(** utils/fmt.hpp:1010-1019 replace_once *)
Definition replace_once (orig what with_ : text) : text := match find what orig with Some (b, r) => b ++ with_ ++ r | None => orig end.
(** utils/fmt.hpp:1002-1008 replace_all: the search goes on behind what was inserted.  [fuel] bounds the rounds of the loop *)
Fixpoint replace_from (fuel : nat) (what with_ s : text) : text :=
  match fuel with
  | 0 => s
  | S fuel => match find what s with Some (b, r) => b ++ with_ ++ replace_from fuel what with_ r | None => s end
  end.
Definition replace_all (orig what with_ : text) : text := replace_from (S (length orig)) what with_ orig.

(** ** Arguments *)

Inductive arg :=
| ABool (b : bool)
| AStr (s : text)                 (* std::string *)
| AChar (c : N)
| AStream (t : text)              (* anything with operator <<: the text *)
| APair (a b : arg)
| ATuple (l : list arg)           (* std::tuple and aggregates *)
| ASeq (l : list arg)             (* containers *)
| AOpt (o : option arg)           (* std::optional *)
| AShared (o : option arg)        (* std::shared_ptr, std::unique_ptr *)
| APtr (o : option arg).          (* plain pointers *)

(** ss.seekp( -k, ss.cur ); ss << t; on a stream that holds s: what is written replaces, the rest stays *)
Definition overwrite (k : nat) (s t : text) : text := firstn (length s - k) s ++ t ++ skipn (length s - k + length t) s.

(** utils/fmt.hpp:822 max_element_to_format *)
Definition max_shown : nat := 8.

(** utils/fmt.hpp:978-1000 iterator_to_string, of the elements' texts *)
Definition sequence (l : list text) : text :=
  if length l <=? max_shown
  then overwrite 1 (str "{ " ++ concat (map (fun e => e ++ str ", ") l)) (str " }")
  else str "{ " ++ concat (map (fun e => e ++ str ", ") (firstn max_shown l)) ++ str " ..." ++ str " }".
(** utils/fmt.hpp:852-861 to_string of a tuple *)
Definition tuple (l : list text) : text := overwrite 2 (str "( " ++ concat (map (fun e => e ++ str ", ") l)) (str " )").

(** utils/fmt.hpp:831-976 to_string; std::string{1, ch} is the initialiser list of the characters 1 and ch *)
Fixpoint to_string (a : arg) : text :=
  match a with
  | ABool b => if b then str "true" else str "false"
  | AStr s => s
  | AChar c => [1%N; c]
  | AStream t => t
  | APair a b => str "(" ++ to_string a ++ str ", " ++ to_string b ++ str ")"
  | ATuple l => tuple (map to_string l)
  | ASeq l => sequence (map to_string l)
  | AOpt None => str "[EMPTY]"
  | AOpt (Some a) => to_string a
  | AShared None => str "<NULL>"
  | AShared (Some a) => to_string a
  | APtr None => str "<Null>"
  | APtr (Some a) => str "<" ++ to_string a ++ str ">"
  end.

(** ** format *)

(** utils/fmt.hpp:1036-1049 plain_format *)
Fixpoint plain_format (s : text) (args : list arg) : text :=
  match args with [] => s | a :: args => plain_format (replace_once s (str "{}") (to_string a)) args end.
(** utils/fmt.hpp:1021-1034 indexed_format *)
Fixpoint indexed_format (index : nat) (s : text) (args : list arg) : text :=
  match args with [] => s | a :: args => indexed_format (S index) (replace_all s (str "{" ++ put_nat index ++ str "}") (to_string a)) args end.
(** utils/fmt.hpp:1053-1060 format *)
Definition format (s : text) (args : list arg) : text :=
  match find (str "{}") s with Some _ => plain_format s args | None => indexed_format 0 s args end.
