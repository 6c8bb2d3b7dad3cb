(** What a text says: spaces, signs, digits, a fraction, an exponent, and a rest that is not looked at. *)
From Coq Require Import List ZArith Bool Reals.
Import ListNotations.
Local Open Scope Z_scope.

(** a numeral; digits are numbers from 0 to 9; the exponent's mark is e or E, its sign +, - or none *)
Inductive esign := Plain | Plus | Minus.
Record numeral := Numeral { blanks : nat; plus : bool; minus : bool; ints : list Z; frac : option (list Z); expo : option (bool * esign * list Z) }.

(** how it is written *)
Definition figures (ds : list Z) : list Z := map (fun d => d + 48) ds.
Definition w_blanks (l : numeral) : list Z := repeat 32 (blanks l).
Definition w_plus (l : numeral) : list Z := if plus l then [43] else [].
Definition w_minus (l : numeral) : list Z := if minus l then [45] else [].
Definition w_ints (l : numeral) : list Z := figures (ints l).
Definition w_frac (l : numeral) : list Z := match frac l with Some ds => 46 :: figures ds | None => [] end.
Definition w_sign (s : esign) : list Z := match s with Plain => [] | Plus => [43] | Minus => [45] end.
Definition w_expo (l : numeral) : list Z :=
  match expo l with Some (small, s, ds) => (if small : bool then 101 else 69) :: w_sign s ++ figures ds | None => [] end.
Definition written (l : numeral) : list Z := w_blanks l ++ w_plus l ++ w_minus l ++ w_ints l ++ w_frac l ++ w_expo l.

(** the text does not begin with one of these characters *)
Definition avoids (cs : list Z) (text : list Z) : Prop := match text with [] => True | c :: _ => ~ In c cs end.
Definition digit_codes : list Z := [48; 49; 50; 51; 52; 53; 54; 55; 56; 57].

(** the numeral is the longest one: none of its parts could take more of the text *)
Definition longest (l : numeral) (rest : list Z) : Prop :=
  let a5 := w_expo l ++ rest in let a4 := w_frac l ++ a5 in let a3 := w_ints l ++ a4 in let a2 := w_minus l ++ a3 in let a1 := w_plus l ++ a2 in
  avoids [32] a1 /\
  (plus l = false -> avoids [43] a2) /\
  (minus l = false -> avoids [45] a3) /\
  avoids digit_codes a4 /\
  match frac l with Some _ => avoids digit_codes a5 | None => avoids [46] a5 end /\
  match expo l with Some (_, s, ds) => avoids digit_codes rest /\ (s = Plain -> avoids [43; 45] (figures ds ++ rest)) | None => avoids [101; 69] rest end.

Definition digits_ok (ds : list Z) : Prop := Forall (fun d => 0 <= d <= 9) ds.
Definition proper (l : numeral) : Prop :=
  digits_ok (ints l) /\ (forall ds, frac l = Some ds -> digits_ok ds) /\ (forall b s ds, expo l = Some (b, s, ds) -> digits_ok ds).

(** what it means *)
Definition decimal (ds : list Z) : Z := fold_left (fun n d => n * 10 + d) ds 0.
Definition fractional (l : numeral) : list Z := match frac l with Some ds => ds | None => [] end.
Definition power (l : numeral) : Z :=
  match expo l with Some (_, Minus, ds) => - decimal ds | Some (_, _, ds) => decimal ds | None => 0 end.
Definition shift (l : numeral) : Z := power l - Z.of_nat (length (fractional l)).

(** the numbers that arise fit into an int *)
Definition small (l : numeral) : Prop :=
  Z.of_nat (length (fractional l)) <= 2147483648 /\ (forall b s ds, expo l = Some (b, s, ds) -> decimal ds <= 2147483647) /\ -2147483648 <= shift l.

(** the number *)
Definition meaning (l : numeral) : R :=
  let n := (IZR (decimal (ints l ++ fractional l)) * powerRZ 10 (shift l))%R in if minus l then (- n)%R else n.
