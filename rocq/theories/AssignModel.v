(** Model of the assign operator (include/operation.hpp:4834-4862) and of the expressions it occurs in, over the shared storages of
    TensorModel.

    Simplifications: every operator object occurs once in an expression, so the forward cache of the session
    (operation.hpp:170-174) is empty when an operator is reached (C25 is about operators that occur more than once); a binary operator
    other than assign is an arbitrary element-wise function of two operands of one shape whose result is a tensor with a storage of its
    own (operands of different shapes are outside this model: the outcome is UB); gradients, which a variable resets when it is
    read while learning (variable.hpp:76-81), and the backward pass are left out. *)
From Coq Require Import List Arith Lia Bool PeanoNat.
From Verif Require Import ListBase TensorModel.
Import ListNotations.

Section Assign.
Context {A : Type} (zero : A).
Notation "'do' x <- m ; f" := (bind m (fun x => f)) (at level 200, x name, m at level 100, f at level 200).

(** an expression over variables, which are named by numbers *)
Inductive expr :=
| EVar (x : nat)                            (* variable *)
| EAssign (e : expr) (x : nat)              (* assign( e, x ), operation.hpp:4848; x is a variable by its concept *)
| EOp (f : A -> A -> A) (a b : expr).       (* a binary operator, operation.hpp:144-240 *)

(** operation.hpp:4850-4855: the forward action.  rhs is the operator's own tensor object rhs_input_data_ (operation.hpp:162, 191),
    which shares its storage with the variable's data; reshape (tensor.hpp:354-368) changes the shape of that object, and the
    storage if the number of elements differs.  The result is the left operand, not a copy. *)
Definition assign_action (lhs rhs : tensor) : M (A:=A) tensor :=
  do rhs' <- reshape zero rhs (shape lhs);
  do d <- data lhs;
  do e <- data rhs';
  do e' <- copy_front d e;
  do _ <- store rhs' e';
  ret lhs.

(** the forward action of an element-wise operator on operands of one shape *)
Definition apply_action (f : A -> A -> A) (lhs rhs : tensor) : M (A:=A) tensor :=
  do d <- data lhs;
  do e <- data rhs;
  if list_eqb (shape lhs) (shape rhs) then alloc (shape lhs) (map2 f d e) else fail_ub.

(** variable.hpp:72-83 forward(): the tensor object state.data_ is copied, its storage shared *)
Definition read_variable (vars : list tensor) (x : nat) : M (A:=A) tensor :=
  match nth_error vars x with Some t => ret t | None => fail_ub end.

(** session.hpp:59-63 run and operation.hpp:168-197 forward(): the left operand, the right operand, the action.  vars are the tensor
    objects state.data_ of the variables; no forward pass changes these objects, only the storages behind them. *)
Fixpoint forward (vars : list tensor) (e : expr) : M (A:=A) tensor :=
  match e with
  | EVar x => read_variable vars x
  | EAssign a x => do l <- forward vars a; do r <- read_variable vars x; assign_action l r
  | EOp f a b => do l <- forward vars a; do r <- forward vars b; apply_action f l r
  end.

End Assign.
Arguments EVar {A}. Arguments EAssign {A}. Arguments EOp {A}.
