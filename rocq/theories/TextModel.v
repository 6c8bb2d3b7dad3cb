(** Model of saving and loading as text: tensor.tcc:1214-1304 (read_tensor, write_tensor, save_tensor, load_tensor) and
    session.hpp:81-190 (save, restore, save_original, restore_original).

    Characters are bytes ([N], as in LzwModel.v).  Natural numbers (shapes, identifiers) are written in decimal.  Elements
    are of any type E, written by [put] (operator << with the precision of the stream) and read by [take] (operator >> applied to one
    word): the properties hold for every such pair, and PrintModel.v gives the decimal formatting of floating point
    numbers.

    Simplifications: a word is a maximal run of characters that are not white space, and it is either a number or not (the
    library would read the leading number of a word such as 12abc, which write_tensor never writes); signs and numbers too big for
    unsigned long are not numbers; the files can be opened and written. *)
From Coq Require Import List Arith NArith Bool PeanoNat.
From Coq Require DecimalNat.
From Verif Require Import ListBase TensorModel LzwModel.
Import ListNotations.
Local Open Scope nat_scope.

Notation char := N (only parsing).
Definition space : char := 32%N.
Definition newline : char := 10%N.

(** std::isspace: blank, \t \n \v \f \r *)
Definition is_space (c : char) : bool := (c =? 32)%N || ((9 <=? c) && (c <=? 13))%N.

(** ** Numbers *)

Fixpoint chars_of_uint (u : Decimal.uint) : list char :=
  match u with
  | Decimal.Nil => []
  | Decimal.D0 u => 48%N :: chars_of_uint u
  | Decimal.D1 u => 49%N :: chars_of_uint u
  | Decimal.D2 u => 50%N :: chars_of_uint u
  | Decimal.D3 u => 51%N :: chars_of_uint u
  | Decimal.D4 u => 52%N :: chars_of_uint u
  | Decimal.D5 u => 53%N :: chars_of_uint u
  | Decimal.D6 u => 54%N :: chars_of_uint u
  | Decimal.D7 u => 55%N :: chars_of_uint u
  | Decimal.D8 u => 56%N :: chars_of_uint u
  | Decimal.D9 u => 57%N :: chars_of_uint u
  end.

Fixpoint uint_of_chars (l : list char) : option Decimal.uint :=
  match l with
  | [] => Some Decimal.Nil
  | c :: l =>
      match uint_of_chars l with
      | None => None
      | Some u =>
          match c with
          | 48%N => Some (Decimal.D0 u) | 49%N => Some (Decimal.D1 u) | 50%N => Some (Decimal.D2 u) | 51%N => Some (Decimal.D3 u) | 52%N => Some (Decimal.D4 u)
          | 53%N => Some (Decimal.D5 u) | 54%N => Some (Decimal.D6 u) | 55%N => Some (Decimal.D7 u) | 56%N => Some (Decimal.D8 u) | 57%N => Some (Decimal.D9 u)
          | _ => None
          end
      end
  end.

(** os << n;  is >> n *)
Definition put_nat (n : nat) : list char := chars_of_uint (Nat.to_uint n).
Definition take_nat (l : list char) : option nat :=
  match l with [] => None | _ => match uint_of_chars l with Some u => Some (Nat.of_uint u) | None => None end end.

(** ** Lines and words *)

(** an input stream: the characters left, good() *)
Record stream := Stream { left : list char; good : bool }.
Definition opened (l : list char) : stream := Stream l true.

(** the characters up to the first newline, the characters after it; None if there is no newline *)
Fixpoint cut (l : list char) : list char * option (list char) :=
  match l with
  | [] => ([], None)
  | c :: l => if (c =? newline)%N then ([], Some l) else let (a, b) := cut l in (c :: a, b)
  end.

(** std::getline into an empty string: a stream that is not good gives nothing; meeting the end of the stream makes it
    not good *)
Definition getline (s : stream) : list char * stream :=
  if good s then match cut (left s) with
                 | (a, Some b) => (a, Stream b true)
                 | (a, None) => (a, Stream [] false)
                 end
  else ([], s).

(** the words of a line; acc is the current word, reversed *)
Fixpoint words_from (acc : list char) (l : list char) : list (list char) :=
  match l with
  | [] => match acc with [] => [] | _ => [rev acc] end
  | c :: l => if is_space c then match acc with [] => words_from [] l | _ => rev acc :: words_from [] l end
              else words_from (c :: acc) l
  end.
Definition words (l : list char) : list (list char) := words_from [] l.

(** std::copy( istream_iterator, istream_iterator, back_inserter ): stops at the first word that is not a number *)
Fixpoint numbers {T} (take : list char -> option T) (ws : list (list char)) : list T :=
  match ws with
  | [] => []
  | w :: ws => match take w with Some x => x :: numbers take ws | None => [] end
  end.

(** std::copy( begin, end, ostream_iterator{ os, " " } ) *)
Fixpoint spaced {T} (put : T -> list char) (l : list T) : list char :=
  match l with [] => [] | x :: l => put x ++ space :: spaced put l end.

Section Text.
Context {E : Type} (zero : E) (put : E -> list char) (take : list char -> option E).
Variable dbg : bool.   (* better_assert is active *)

(** a tensor's shape and elements *)
Local Notation content := (list nat * list E)%type.

(** tensor.tcc:1248-1267 *)
Definition write_tensor (x : content) : list char := spaced put_nat (fst x) ++ newline :: spaced put (snd x) ++ [newline].

(** tensor.tcc:1214-1246, into a tensor whose content is x.  std::copy writes past the end if there are too many numbers. *)
Definition read_tensor (s : stream) (x : content) : outcome (content * stream) :=
  if dbg && negb (good s) then Abort
  else
    let (l1, s1) := getline s in
    let (l2, s2) := getline s1 in
    let shape := numbers take_nat (words l1) in
    let buff := numbers take (words l2) in
    let d := if length (snd x) =? prod shape then snd x else repeat zero (prod shape) in
    if dbg && negb (length d =? length buff) then Abort
    else if length buff <=? length d then Ok ((shape, buff ++ skipn (length buff) d), s2)
    else UB.

(** tensor.tcc:1281-1289 load_tensor: into a default-constructed tensor; 1291-1304 save_tensor *)
Definition load_tensor (file : list char) : outcome content :=
  match read_tensor (opened file) ([], []) with Ok (x, _) => Ok x | Abort => Abort | UB => UB end.
Definition save_tensor (x : content) : list char := write_tensor x.

(** session.hpp:36 variables_, in the order in which the map is walked: identifiers and the contents of their data *)
Definition vars := list (nat * content).

Fixpoint lookup (vs : vars) (id : nat) : option content :=
  match vs with [] => None | (i, x) :: vs => if i =? id then Some x else lookup vs id end.
Fixpoint assign (vs : vars) (id : nat) (x : content) : vars :=
  match vs with [] => [] | (i, y) :: vs => if i =? id then (i, x) :: vs else (i, y) :: assign vs id x end.

(** session.hpp:125-145 save_original: the file's content *)
Definition save_original (vs : vars) : list char :=
  spaced put_nat (map fst vs) ++ newline :: flat_map (fun v => write_tensor (snd v)) vs.

(** session.hpp:161-170: the loop over the identifiers; an unknown identifier aborts, or dereferences end() *)
Fixpoint restore_each (ids : list nat) (s : stream) (vs : vars) : outcome vars :=
  match ids with
  | [] => Ok vs
  | id :: ids =>
      match lookup vs id with
      | None => if dbg then Abort else UB
      | Some x =>
          match read_tensor s x with
          | Ok (x', s') => restore_each ids s' (assign vs id x')
          | Abort => Abort
          | UB => UB
          end
      end
  end.

(** session.hpp:147-173 restore_original *)
Definition restore_original (file : list char) (vs : vars) : outcome vars :=
  let (l1, s1) := getline (opened file) in
  restore_each (numbers take_nat (words l1)) s1 vs.

(** ** Files *)

Notation path := (list N) (only parsing).
Definition files := path -> option (list char).
Definition path_eqb (p q : path) : bool := if list_eq_dec N.eq_dec p q then true else false.
Definition put_file (f : files) (p : path) (c : option (list char)) : files := fun q => if path_eqb p q then c else f q.

(** what a process does to the files: opening for writing truncates, buffered output arrives in pieces *)
Inductive event :=
| Open (p : path)
| Append (p : path) (l : list char)
| Remove (p : path).

Definition act (f : files) (e : event) : files :=
  match e with
  | Open p => put_file f p (Some [])
  | Append p l => put_file f p (match f p with Some c => Some (c ++ l) | None => Some l end)
  | Remove p => put_file f p None
  end.
Definition acts (f : files) (es : list event) : files := fold_left act es f.

(** ".tmp" *)
Definition tmp (p : path) : path := p ++ [46; 116; 109; 112]%N.

(** session.hpp:81-100 save: the events, the text and the compressed text arriving in the pieces given *)
Definition save_events (p : path) (pieces zpieces : list (list char)) : list event :=
  Open (tmp p) :: map (Append (tmp p)) pieces ++ Open p :: map (Append p) zpieces ++ [Remove (tmp p)].

(** session.hpp:102-123 restore: the files afterwards, and the variables.  The value returned by decompress is ignored; in a debug build the
    assertions in decompress abort first, when some of the output, [flushed] bytes of it, has reached the file. *)
Definition restore (flushed : nat) (f : files) (p : path) (vs : vars) : files * outcome vars :=
  let go o :=
    match restore_original o vs with
    | Ok vs' => (put_file f (tmp p) None, Ok vs')
    | r => (put_file f (tmp p) (Some o), r)
    end in
  let fail o := if dbg then (put_file f (tmp p) (Some (firstn flushed o)), Abort) else go o in
  match f p with
  | None => (put_file f (tmp p) (Some []), UB)
  | Some z =>
      match decompress shipped_dms z with
      | DDone o => go o
      | DCorrupted o | DBadCode o => fail o
      | _ => (f, UB)
      end
  end.

End Text.
