(** How a stream writes a floating point number: operator << with the default format and precision p, which is printf's %.pg
    (C++ [facet.num.put.virtuals]): the number rounded to p significant digits, half to even, trailing zeros removed.  Used by
    write_tensor, tensor.tcc:1248-1267 with the precision of the stream: 6 in session.hpp:125-145, which does not set it, and in save_tensor,
    tensor.tcc:1291-1304, 8 for float and 15 for double. *)
From Coq Require Import String Ascii List NArith ZArith Bool.
From Verif Require Import ListBase TextModel.
Import ListNotations.
Local Open Scope N_scope.

(** a finite floating point number: sign, m * 2^e *)
Record flt := Flt { negative : bool; mantissa : N; exponent : Z }.

(** a value of type float: at most 24 bits, exponents from -149 to 104; of type double: at most 53 bits, from -1074 to 971 *)
Definition single (x : flt) : Prop := mantissa x < 2 ^ 24 /\ (-149 <= exponent x <= 104)%Z.
Definition double (x : flt) : Prop := mantissa x < 2 ^ 53 /\ (-1074 <= exponent x <= 971)%Z.

(** the same number *)
Definition same_value (x y : flt) : Prop :=
  (mantissa x = 0 /\ mantissa y = 0) \/
  negative x = negative y /\ exists k j, Z.add (exponent x) (Z.of_N k) = Z.add (exponent y) (Z.of_N j) /\ mantissa x * 2 ^ j = mantissa y * 2 ^ k.

(** |x| as a fraction *)
Definition numer (x : flt) : N := mantissa x * 2 ^ Z.to_N (exponent x).
Definition denom (x : flt) : N := 2 ^ Z.to_N (- exponent x).

(** a / b rounded to an integer, half to even *)
Definition round_div (a b : N) : N :=
  let q := a / b in
  let r := a mod b in
  match 2 * r ?= b with
  | Lt => q
  | Gt => q + 1
  | Eq => if N.even q then q else q + 1
  end.

(** the first X, counting from [x], with a / b < 10^(X+1), if that is so within [fuel] steps *)
Fixpoint scale_up (fuel : nat) (x : N) (a b : N) : N :=
  match fuel with
  | O => x
  | S fuel => if a <? b * 10 then x else scale_up fuel (x + 1) a (b * 10)
  end.
(** the first k >= 1 with 1 <= a / b * 10^k *)
Fixpoint scale_down (fuel : nat) (k : N) (a b : N) : N :=
  match fuel with
  | O => k
  | S fuel => if b <=? a * 10 then k else scale_down fuel (k + 1) (a * 10) b
  end.

(** the decimal exponent: 10^X <= a / b < 10^(X+1) *)
Definition decimal_exponent (a b : N) : Z :=
  if b <=? a then Z.of_N (scale_up (N.to_nat (N.size a)) 0 a b)
  else (- Z.of_N (scale_down (N.to_nat (N.size b)) 1 a b))%Z.

(** the p significant digits, and the decimal exponent, of the rounded number *)
Definition significant (p : N) (a b : N) : N * Z :=
  let x := decimal_exponent a b in
  let s := (Z.of_N p - 1 - x)%Z in
  let q := round_div (a * 10 ^ Z.to_N s) (b * 10 ^ Z.to_N (- s)) in
  if q =? 10 ^ p then (10 ^ (p - 1), (x + 1)%Z) else (q, x).

Definition digits (n : N) : list char := chars_of_uint (N.to_uint n).

(** remove the zeros at the end *)
Fixpoint trim (l : list char) : list char :=
  match l with
  | [] => []
  | c :: l => match trim l with [] => if c =? 48 then [] else [c] | t => c :: t end
  end.
(** '.' and the digits, or nothing *)
Definition fraction (l : list char) : list char := match trim l with [] => [] | t => 46 :: t end.

(** at least two digits *)
Definition exponent_digits (n : N) : list char := if n <? 10 then 48 :: digits n else digits n.

Definition put_flt (p : N) (x : flt) : list char :=
  (if negative x then [45] else []) ++
  if mantissa x =? 0 then [48]
  else
    let (q, e) := significant p (numer x) (denom x) in
    let ds := digits q in
    if ((-4 <=? e) && (e <? Z.of_N p))%Z then
      if (0 <=? e)%Z then firstn (S (Z.to_nat e)) ds ++ fraction (skipn (S (Z.to_nat e)) ds)
      else 48 :: 46 :: repeat 48 (Z.to_nat (- e - 1)) ++ trim ds
    else firstn 1 ds ++ fraction (skipn 1 ds) ++ 101 :: (if (e <? 0)%Z then 45 else 43) :: exponent_digits (Z.abs_N e).

(** A few values, as printf writes them. *)
Fixpoint str (s : String.string) : list char :=
  match s with String.EmptyString => [] | String.String a s => Ascii.N_of_ascii a :: str s end.
Example half : put_flt 6 (Flt false 1 (-1)) = str "0.5"%string. Proof. vm_compute. reflexivity. Qed.
Example large : put_flt 6 (Flt true 1 70) = str "-1.18059e+21"%string. Proof. vm_compute. reflexivity. Qed.
Example cent : put_flt 6 (Flt false 10737418 (-30)) = str "0.01"%string. Proof. vm_compute. reflexivity. Qed.
Example next_to_one : put_flt 8 (Flt false 8388609 (-23)) = str "1.0000001"%string. Proof. vm_compute. reflexivity. Qed.
Example small : put_flt 6 (Flt false 1 (-20)) = str "9.53674e-07"%string. Proof. vm_compute. reflexivity. Qed.
Example carry : put_flt 6 (Flt false 999999500 0) = str "1e+09"%string. Proof. vm_compute. reflexivity. Qed.
