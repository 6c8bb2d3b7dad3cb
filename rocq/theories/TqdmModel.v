(** Model of the progress bars, include/utils/tqdm.hpp:33-555, with include/utils/color.hpp:41-153.

    What the terminal is sent is a list of tokens: the return to the start of the line, glyphs and control sequences, each with its
    bytes.  The clock and the texts of the elapsed and the remaining time are arbitrary: for the k-th comparison with the end of a loop,
    [tick k] says whether more than min_time_per_update_ seconds have passed since the last display, and [time_text], [left_text] and
    [percent_text] are the numbers as printed; [suffix_text k] is what the loop's body has inserted since the comparison before.

    Simplifications: progress is an exact fraction (a double in the code); bytes of the texts given by the program are glyphs of one
    column; dm_timer, manually_set_progress and a second loop over the same object are left out; an int has 32 bits. *)
From Coq Require Import List Arith Bool PeanoNat ZArith QArith Qround String Ascii.
From Verif Require Import TensorModel.
Import ListNotations.
Local Open Scope nat_scope.

Inductive token := Return | Glyph (s : string) | Control (s : string).
Definition bytes (t : token) : nat := match t with Return => 1 | Glyph s => String.length s | Control s => String.length s end.
Fixpoint size (l : list token) : nat := match l with [] => 0 | t :: l => bytes t + size l end.
(** a text, byte by byte *)
Fixpoint text (s : string) : list token := match s with EmptyString => [] | String c s => Glyph (String c "") :: text s end.

(** color.hpp:41-105: the tables *)
Definition table := list (string * string).
Definition color_foreground : table :=
  [("Default","39");("Black","30");("Red","31");("Green","32");("Yellow","33");("Blue","34");("Magenta","35");("Cyan","36");("Light Gray","37");
   ("Dark Gray","90");("Light Red","91");("Light Green","92");("Light Yellow","93");("Light Blue","94");("Light Magenta","95");("Light Cyan","96");("White","97")]%string.
Definition color_background : table :=
  [("Default","49");("Black","40");("Red","41");("Green","42");("Yellow","43");("Blue","44");("Megenta","45");("Cyan","46");("Light Gray","47");
   ("Dark Gray","100");("Light Red","101");("Light Green","102");("Light Yellow","103");("Light Blue","104");("Light Magenta","105");("Light Cyan","106");("White","107")]%string.
Fixpoint find (name : string) (m : table) : option string :=
  match m with [] => None | (k, v) :: m => if String.eqb k name then Some v else find name m end.
(** std::map::find, and at on the name that is left: the name itself if it is there, else the default's *)
Definition code (m : table) (name default : string) : string :=
  match find name m with Some v => v | None => match find default m with Some v => v | None => "" end end.
Definition ESC : string := String (ascii_of_nat 27) "".

(** color.hpp:111-142 with the default formatting *)
Definition rize (source : list token) (foreground background : string) : list token :=
  Control (ESC ++ "[0;" ++ code color_background background "Default" ++ ";" ++ code color_foreground foreground "Default" ++ "m")
  :: source ++ [Control (ESC ++ "[0m")].

(** 92-97, 110, 343-350: clamp( iters_done_ / denominator, 0, 1 ) *)
Definition clamp (x : Q) : Q := if Qle_bool x 0 then 0%Q else if Qle_bool 1 x then 1%Q else x.
Definition calc_progress (iters_done num_iters : Z) : Q :=
  if Z.eqb num_iters 0 then (inject_Z iters_done * 1000000000)%Q else (inject_Z iters_done / inject_Z num_iters)%Q.

(** 172-179: print_bar; the int idx runs to a negative num_filled only by overflowing, and a std::string of a negative length throws *)
Definition full_block : string := String (ascii_of_nat 226) (String (ascii_of_nat 150) (String (ascii_of_nat 136) "")).
Fixpoint copies (n : nat) (l : list token) : list token := match n with 0 => [] | S n => l ++ copies n l end.
Definition print_bar (bar_size : Z) (filled : Q) : outcome (list token) :=
  let num_filled := Qfloor (filled * inject_Z bar_size) in
  if (num_filled <? 0)%Z then UB
  else if (2147483647 <? num_filled)%Z then UB
  else if (bar_size - num_filled <? 0)%Z then Abort
  else Ok (Glyph "[" :: copies (Z.to_nat num_filled) (rize [Glyph full_block] "Green" "Default")
           ++ rize (repeat (Glyph " ") (Z.to_nat (bar_size - num_filled))) "Default" "Light Green" ++ [Glyph "]"]).

Record env := Env { tick : nat -> bool; percent_text : nat -> string; time_text : nat -> string; left_text : nat -> string; suffix_text : nat -> string }.

(** 152-170: display; the second result is term_cols_ *)
Definition display (e : env) (bar_size : Z) (prefix : string) (k : nat) (p : Q) (term_cols : nat) : outcome (list token * nat) :=
  obind (print_bar bar_size p) (fun b =>
  let bar := Return :: text prefix ++ Glyph "{" :: text (percent_text e k) ++ text "%} " ++ b
             ++ text " (" ++ rize (text (time_text e k)) "Magenta" "Default" ++ text "s < " ++ rize (text (left_text e k)) "Blue" "Default" ++ text "s) " in
  let out := bar ++ text (suffix_text e k) in
  let term_cols := Nat.max term_cols (size out) in
  Ok (out ++ repeat (Glyph " ") (term_cols - size out), term_cols)).

(** 108-120, 306-310: update, called by the k-th comparison, which makes iters_done_ k *)
Definition update (e : env) (bar_size : Z) (prefix : string) (num_iters : Z) (k : nat) (term_cols : nat) : outcome (list (list token) * nat) :=
  let p := clamp (calc_progress (Z.of_nat k) num_iters) in
  if tick e k || Qeq_bool p 0 || Qeq_bool p 1 then
    obind (display e bar_size prefix k p term_cols) (fun r => Ok ([fst r], snd r))
  else Ok ([], term_cols).

(** what happens in a loop: something is sent to the terminal, or the body is run for an element *)
Inductive event (A : Type) := Frame (f : list token) | Body (x : A).
Arguments Frame {A}. Arguments Body {A}.

(** 207-244, 294-310: for ( auto x : dm( container ) ) body; *)
Fixpoint loop {A} (e : env) (bar_size : Z) (prefix : string) (num_iters : Z) (k : nat) (term_cols : nat) (l : list A) : outcome (list (event A)) :=
  obind (update e bar_size prefix num_iters k term_cols) (fun r =>
  match l with
  | [] => Ok (map Frame (fst r))
  | x :: l => obind (loop e bar_size prefix num_iters (S k) (snd r) l) (fun rest => Ok (map Frame (fst r) ++ Body x :: rest))
  end).

(** 38-50, 197: bar_size_{ get_terminal_width() - 40 }; ioctl leaves w as it is if standard input is not a terminal *)
Definition get_terminal_width (terminal : option nat) : outcome nat := match terminal with Some w => Ok w | None => UB end.
(** 258-310, 434-462: a loop over dm( l ) *)
Definition dm {A} (e : env) (terminal : option nat) (prefix : string) (l : list A) : outcome (list (event A)) :=
  obind (get_terminal_width terminal) (fun w => loop e (Z.of_nat w - 40) prefix (Z.of_nat (List.length l)) 1 1 l).

(** 466-532: the ints of range( first, last ), one after another until the iterator equals the end's; ++ of the largest int overflows.
    fuel bounds the number of steps: there are at most 2^32 *)
Definition INT_MAX : Z := 2147483647.
Definition INT_MIN : Z := (-2147483648)%Z.
Fixpoint ints (fuel : nat) (value last : Z) : outcome (list Z) :=
  match fuel with
  | 0 => UB
  | S fuel => if Z.eqb value last then Ok [] else if Z.eqb value INT_MAX then UB else obind (ints fuel (value + 1)%Z last) (fun l => Ok (value :: l))
  end.
(** 534-537, 544-554: trange( first, last ); size() is an int *)
Definition trange (e : env) (terminal : option nat) (prefix : string) (first last : Z) : outcome (list (event Z)) :=
  if (last - first <? INT_MIN)%Z || (INT_MAX <? last - first)%Z then UB
  else obind (ints (S (Z.to_nat (INT_MAX - first))) first last) (dm e terminal prefix).
