(** Model of the drawing of an expression (operation.hpp:372-453 computation_graph), which model::summary prints (model.hpp:436-450).

    Simplifications: an expression is given by what the drawing reads of it: identifier, name, shape, whether a variable is trainable, and
    the operands.  Identifiers are not negative.  Texts are lists of character codes. *)
From Coq Require Import String.
From Coq Require Import List Arith NArith ZArith Bool PeanoNat.
From Verif Require Import TextModel PrintModel FmtModel.
Import ListNotations.
Local Open Scope nat_scope.

(** expr.id(), expr.name(), expr.shape(): lengths are unsigned longs *)
Record info := Info { ident : nat; name : text; shape : list N }.
(** is_unary_operator_v, is_binary_operator_v, is_variable_v, and everything else *)
Inductive ex :=
| Leaf (i : info)
| Var (i : info) (trainable : bool)
| Unary (i : info) (op : ex)
| Binary (i : info) (lhs rhs : ex).
Definition info_of (e : ex) : info := match e with Leaf i | Var i _ | Unary i _ | Binary i _ _ => i end.

(** an unsigned long as a long long *)
Definition long_long (d : N) : Z := if (d <? 2 ^ 63)%N then Z.of_N d else (Z.of_N d - 2 ^ 64)%Z.
(** operation.hpp:386-393: the shape as long longs; the first length is replaced by -1 if it is -1UL *)
Definition signed_shape (s : list N) : list Z :=
  let c := map long_long s in
  match s, c with d :: _, _ :: t => if (d =? 2 ^ 64 - 1)%N then (-1)%Z :: t else c | _, _ => c end.
(** a long long in a stream *)
Definition put_Z (z : Z) : text := match z with Z0 => str "0" | Zpos p => digits (Npos p) | Zneg p => str "-" ++ digits (Npos p) end.

(** operation.hpp:380-397 generate_node_and_label *)
Definition node (i : info) : text := str "n" ++ put_nat (ident i).
Definition label (i : info) : text :=
  format (str "{} <shape:{}> [id:{}]") [AStr (name i); ASeq (map (fun z => AStream (put_Z z)) (signed_shape (shape i))); AStr (put_nat (ident i))].

(** operation.hpp:399-448 generate_dot *)
Fixpoint dot (e : ex) : text :=
  let i := info_of e in
  let expr_dot := node i ++ str " [label=""" ++ label i ++ str """] ;" ++ [10%N] in
  let arrow o := node (info_of o) ++ str " -> " ++ node i ++ str " ;" ++ [10%N] in
  match e with
  | Leaf _ => expr_dot
  | Unary _ op => expr_dot ++ arrow op ++ dot op
  | Binary _ lhs rhs => expr_dot ++ arrow lhs ++ arrow rhs ++ dot lhs ++ dot rhs
  | Var _ trainable =>
      let str_shape := concat (map (fun d => digits d ++ str " ") (shape i)) ++ (if trainable then str "), trainable" else str "), non-trainable") in
      let new_label := label i ++ str "[(" ++ str_shape ++ str "]" in
      if trainable then node i ++ str " [peripheries=3,style=filled,color="".7 .3 1.0"",shape=box,label=""" ++ new_label ++ str """] ;" ++ [10%N]
      else node i ++ str " [shape=box,label=""" ++ new_label ++ str """] ;" ++ [10%N]
  end.
(** operation.hpp:450-452 *)
Definition computation_graph (e : ex) : text := [10; 10]%N ++ str "digraph g {" ++ [10%N] ++ dot e ++ str "}" ++ [10; 10]%N.
