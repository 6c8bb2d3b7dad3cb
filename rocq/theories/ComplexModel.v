(** Model of complex expressions (include/complex_operator.hpp): pairs of expressions over GraphModel.v, combined by the operators of
    OpModel.v.  Every operator object gets an id of its own when it is built; the functions below number the operators they build from
    n upwards (id.hpp; C40 shows that such ids are distinct).

    Simplifications: operands are expressions, not values (value.hpp), for which operator - is built differently (operation.hpp:1007). *)
From Coq Require Import Reals List Arith Bool.
From Verif Require Import ListBase TensorModel GraphModel OpModel.
Import ListNotations.

(** complex_operator.hpp:9-14; real and imag (38-52) are the projections *)
Record complex := Complex { real : expr R; imag : expr R }.

Section Complex.
Variable dbg : bool.   (* debug build *)

(** operation.hpp:1005-1021: l - r is l + negative(r); ids n and n+1 *)
Definition e_minus (n : nat) (l r : expr R) : expr R := EBin (1 + n) BPlus l (EUn n op_negative r).

(** operation.hpp:1073-1077: hypot; ids n to n+3 *)
Definition e_hypot (n : nat) (x y : expr R) : expr R := EUn (3 + n) op_sqrt (EBin (2 + n) BPlus (EUn n op_square x) (EUn (1 + n) op_square y)).

(** 66-70 *)
Definition c_abs (n : nat) (c : complex) : expr R := e_hypot n (real c) (imag c).
(** 84-90 *)
Definition c_norm (n : nat) (c : complex) : expr R :=
  EBin (2 + n) BPlus (EBin n (op_product dbg) (real c) (real c)) (EBin (1 + n) (op_product dbg) (imag c) (imag c)).
(** 104-108 *)
Definition c_conj (n : nat) (c : complex) : complex := Complex (real c) (EUn n op_negative (imag c)).
(** 122-126 *)
Definition c_polar (n : nat) (em ep : expr R) : complex :=
  Complex (EBin (1 + n) (op_product dbg) em (EUn n op_cos ep)) (EBin (3 + n) (op_product dbg) em (EUn (2 + n) op_sin ep)).
(** 143-147 *)
Definition c_arg (n : nat) (c : complex) : expr R := EBin n op_atan2 (imag c) (real c).
(** 162-166 *)
Definition c_neg (n : nat) (c : complex) : complex := Complex (EUn n op_negative (real c)) (EUn (1 + n) op_negative (imag c)).
(** 172-176 *)
Definition c_plus (n : nat) (cl cr : complex) : complex := Complex (EBin n BPlus (real cl) (real cr)) (EBin (1 + n) BPlus (imag cl) (imag cr)).
(** 182-186 *)
Definition c_minus (n : nat) (cl cr : complex) : complex := Complex (e_minus n (real cl) (real cr)) (e_minus (2 + n) (imag cl) (imag cr)).
(** 199-213 *)
Definition c_times (n : nat) (cl cr : complex) : complex :=
  let a := real cl in let b := imag cl in let c := real cr in let d := imag cr in
  let ac := EBin n op_matmul a c in
  let bd := EBin (1 + n) op_matmul b d in
  let a_b := EBin (2 + n) BPlus a b in
  let c_d := EBin (3 + n) BPlus c d in
  let abcd := EBin (4 + n) op_matmul a_b c_d in
  Complex (e_minus (5 + n) ac bd) (e_minus (9 + n) (e_minus (7 + n) abcd ac) bd).
(** 220-233: complex + expression and expression + complex *)
Definition c_plus_e (n : nat) (c : complex) (e : expr R) : complex := Complex (EBin n BPlus (real c) e) (imag c).
Definition e_plus_c (n : nat) (e : expr R) (c : complex) : complex := c_plus_e n c e.
(** 239-252: complex - expression and expression - complex *)
Definition c_minus_e (n : nat) (c : complex) (e : expr R) : complex := Complex (e_minus n (real c) e) (imag c).
Definition e_minus_c (n : nat) (e : expr R) (c : complex) : complex := c_plus_e n c e.
(** 257-270: complex * expression and expression * complex *)
Definition c_times_e (n : nat) (c : complex) (e : expr R) : complex := Complex (EBin n op_matmul (real c) e) (EBin (1 + n) op_matmul (imag c) e).
Definition e_times_c (n : nat) (e : expr R) (c : complex) : complex := c_times_e n c e.

End Complex.
