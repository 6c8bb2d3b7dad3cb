(** Model of the activations and quotients that are built from other operators: activation.hpp:612-694 and operation.hpp:885-912.  As in
    ComplexModel.v the operators a function builds are numbered from n upwards. *)
From Coq Require Import Reals List Arith Bool.
From Verif Require Import ListBase TensorModel ArrayModel GraphModel OpModel ConcatModel ComplexModel.
Import ListNotations.

Section Act.
Variable dbg : bool.   (* debug build *)

(** activation.hpp:619-632: swish and its alias silu, hadamard_product( ex, sigmoid( ex ) ); hadamard_product is elementwise_product *)
Definition e_swish (n : nat) (x : expr R) : expr R := EBin (1 + n) (op_product dbg) x (EUn n op_sigmoid x).
(** activation.hpp:644-648: crelu, concatenate(-1)( relu(ex), relu(-ex) ) *)
Definition e_crelu (n : nat) (x : expr R) : expr R := EBin (3 + n) (op_concat dbg None) (EUn n op_relu x) (EUn (2 + n) op_relu (EUn (1 + n) op_negative x)).
(** activation.hpp:658-662: tank_shrink, ex - tanh( ex ) *)
Definition e_tank_shrink (n : nat) (x : expr R) : expr R := e_minus (1 + n) x (EUn n op_tanh x).
(** activation.hpp:673-677: mish, ex * tanh( softplus( ex ) ); the * of two expressions is the matrix product (operation.hpp:630-650) *)
Definition e_mish (n : nat) (x : expr R) : expr R := EBin (2 + n) op_matmul x (EUn (1 + n) op_tanh (EUn n op_softplus x)).
(** activation.hpp:688-692: lisht, ex * tanh( ex ) *)
Definition e_lisht (n : nat) (x : expr R) : expr R := EBin (1 + n) op_matmul x (EUn n op_tanh x).
(** operation.hpp:894-912: divide and operator /; eps is the macro of config.hpp *)
Definition e_divide (eps : R) (n : nat) (x y : expr R) : expr R := EBin (1 + n) (op_product dbg) x (EUn n (op_inverse eps) y).
End Act.
