(** What a drawing is. *)
From Coq Require Import String.
From Coq Require Import List Arith NArith ZArith Bool PeanoNat.
From Verif Require Import TextModel PrintModel DotModel.
Import ListNotations.
Local Open Scope nat_scope.

(** ** The language: a drawing is a sequence of statements, one on a line *)
Inductive style := Plain | Box | Filled.
Inductive line := NodeL (i : nat) (s : style) (label : list N) | ArrowL (from to : nat).
Definition style_text (s : style) : list N :=
  match s with Plain => [] | Box => str "shape=box," | Filled => str "peripheries=3,style=filled,color="".7 .3 1.0"",shape=box," end.
Definition line_text (l : line) : list N :=
  match l with
  | NodeL i s t => str "n" ++ put_nat i ++ str " [" ++ style_text s ++ str "label=""" ++ t ++ str """] ;"
  | ArrowL a b => str "n" ++ put_nat a ++ str " -> n" ++ put_nat b ++ str " ;"
  end.
(** every statement is on a line of its own *)
Definition one_line (l : line) : Prop := ~ In 10%N (line_text l).
Definition draws (t : list N) (ls : list line) : Prop :=
  Forall one_line ls /\ t = [10; 10]%N ++ str "digraph g {" ++ [10%N] ++ concat (map (fun l => line_text l ++ [10%N]) ls) ++ str "}" ++ [10; 10]%N.

(** ** Expressions *)
Definition id (e : ex) : nat := ident (info_of e).
Definition operands (e : ex) : list ex := match e with Unary _ o => [o] | Binary _ l r => [l; r] | _ => [] end.
(** the expression itself, its operands, their operands, one entry for each occurrence *)
Fixpoint occurrences (e : ex) : list ex :=
  e :: match e with Unary _ o => occurrences o | Binary _ l r => occurrences l ++ occurrences r | _ => [] end.
(** the same identifier is the same object *)
Definition identified (e : ex) : Prop := forall s t, In s (occurrences e) -> In t (occurrences e) -> id s = id t -> s = t.

(** the label: name, shape (an unknown first length as -1) and identifier; of variables also the lengths and whether it is trainable *)
Definition number (d : N) : list N := if (d <? 2 ^ 63)%N then digits d else str "-" ++ digits (2 ^ 64 - d)%N.
Definition shape_text (s : list N) : list N :=
  str "{ " ++ concat (map (fun d => number d ++ str ", ") (firstn 8 s)) ++ if 8 <? length s then str " ... }" else str "}".
Definition look (e : ex) : style * list N :=
  let i := info_of e in
  let l := name i ++ str " <shape:" ++ shape_text (shape i) ++ str "> [id:" ++ put_nat (ident i) ++ str "]" in
  match e with
  | Var _ tr => (if tr then Filled else Box, l ++ str "[(" ++ concat (map (fun d => digits d ++ str " ") (shape i)) ++ (if tr then str "), trainable]" else str "), non-trainable]"))
  | _ => (Plain, l)
  end.

(** names without braces, line ends and angle brackets (all names of the library), lengths that are unsigned longs *)
Definition well_named (e : ex) : Prop := forall s, In s (occurrences e) ->
  name (info_of s) <> [] /\ Forall (fun c => ~ In c [123; 125; 10; 60]%N) (name (info_of s)) /\ Forall (fun d => (d < 2 ^ 64)%N) (shape (info_of s)).

(** x, x + x, (x + x) + (x + x), ... *)
Fixpoint doubled (k : nat) : ex := match k with 0 => Leaf (Info 0 (str "x") []) | S k' => Binary (Info k (str "plus") []) (doubled k') (doubled k') end.
