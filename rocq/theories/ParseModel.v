(** Model of utils/float32.hpp: string2float32, which reads a number from a text at compile time, and float32. *)
From Coq Require Import List Arith ZArith Bool.
From Verif Require Import ListBase TensorModel.
Import ListNotations.
Local Open Scope Z_scope.

(** A char pointer is the list of the characters from there to the end of the memory it points into; reading at the end is undefined
    behaviour.  Characters are their codes. *)
Definition int_ok (z : Z) : bool := (-2147483648 <=? z) && (z <=? 2147483647).
Definition int (z : Z) : outcome Z := if int_ok z then Ok z else UB.

(** float32.hpp:14-15 *)
Definition isdigit (c : Z) : bool := (48 <=? c) && (c <=? 57).
Definition isspace (c : Z) : bool := c =? 32.

Section Parse.
Context {F : Type}.
Variables (zero : F) (push : F -> Z -> F) (times10 times01 opposite : F -> F).
(* 0.0; a * 10.0 + d; a *= 10.0; a *= 0.1; -a: their rounding is a parameter *)

(** *s *)
Definition deref (s : list Z) : outcome Z := match s with [] => UB | c :: _ => Ok c end.
(** c = *s++ *)
Definition next (s : list Z) : outcome (Z * list Z) := match s with [] => UB | c :: s' => Ok (c, s') end.

(** float32.hpp:22-23 *)
Fixpoint skip (s : list Z) : outcome (list Z) :=
  match s with [] => UB | c :: s' => if negb (c =? 0) && isspace c then skip s' else Ok s end.

(** float32.hpp:34-37: the character that ended the loop, the number, and the pointer *)
Fixpoint integer (a : F) (s : list Z) : outcome (Z * F * list Z) :=
  match s with [] => UB | c :: s' => if negb (c =? 0) && isdigit c then integer (push a (c - 48)) s' else Ok (c, a, s') end.

(** float32.hpp:41-45 *)
Fixpoint fraction (a : F) (e : Z) (s : list Z) : outcome (Z * F * Z * list Z) :=
  match s with
  | [] => UB
  | c :: s' => if negb (c =? 0) && isdigit c then obind (int (e - 1)) (fun e' => fraction (push a (c - 48)) e' s') else Ok (c, a, e, s')
  end.

(** float32.hpp:62-66; i is not negative, so i * 10 overflows only if i * 10 + d does *)
Fixpoint exponent (i c : Z) (s : list Z) : outcome Z :=
  if isdigit c then obind (int (i * 10 + (c - 48))) (fun i' => match s with [] => UB | c' :: s' => exponent i' c' s' end) else Ok i.

(** float32.hpp:71-81 *)
Definition scaled (a : F) (e : Z) : F :=
  if 0 <? e then Nat.iter (Z.to_nat e) times10 a else Nat.iter (Z.to_nat (- e)) times01 a.

(** float32.hpp:12-84 *)
Definition string2float32 (s : list Z) : outcome F :=
  obind (skip s) (fun s =>
  obind (deref s) (fun c => let s := if c =? 43 then tl s else s in
  obind (deref s) (fun c => let positive := negb (c =? 45) in let s := if c =? 45 then tl s else s in
  obind (integer zero s) (fun '(c, a, s) =>
  obind (if c =? 46 then fraction a 0 s else Ok (c, a, 0, s)) (fun '(c, a, e, s) =>
  obind (if (c =? 101) || (c =? 69) then
           obind (next s) (fun '(c, s) =>
           obind (if c =? 43 then obind (next s) (fun '(c, s) => Ok (c, 1, s))
                  else if c =? 45 then obind (next s) (fun '(c, s) => Ok (c, -1, s)) else Ok (c, 1, s)) (fun '(c, sign, s) =>
           obind (exponent 0 c s) (fun i => obind (int (i * sign)) (fun k => int (e + k)))))
         else Ok e) (fun e =>
  let a := scaled a e in Ok (if positive then a else opposite a))))))).

(** float32.hpp:106-125: the buffer of float32< N >, made from a literal of N characters and its NUL; the buffer was zero *)
Definition float32 (literal : list Z) : outcome F := string2float32 (literal ++ [0]).

End Parse.
