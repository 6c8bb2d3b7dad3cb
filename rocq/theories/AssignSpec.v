(** Specification vocabulary for the assign operator: what expressions with assignments mean, in terms of the lists of elements
    variables hold.  Nothing here mentions storages or tensor objects. *)
From Coq Require Import List Arith Lia Bool PeanoNat.
From Verif Require Import ListBase AssignModel.
Import ListNotations.

Section Spec.
Context {A : Type}.

(** what each variable holds *)
Definition holdings := nat -> list A.
Definition put (s : holdings) (x : nat) (d : list A) : holdings := fun y => if y =? x then d else s y.

(** an expression fits variables of the given shapes and has the given shape: operators get operands of one shape, assignments get as many
    elements as the variable has *)
Inductive fits (shapes : list (list nat)) : expr (A:=A) -> list nat -> Prop :=
| fits_var x s : nth_error shapes x = Some s -> fits shapes (EVar x) s
| fits_assign e x s sx : fits shapes e s -> s <> [] -> nth_error shapes x = Some sx -> prod s = prod sx -> fits shapes (EAssign e x) s
| fits_op f a b s : fits shapes a s -> fits shapes b s -> fits shapes (EOp f a b) s.

(** what an operand is until its consumer runs: a variable, whatever it will hold then, or elements *)
Inductive operand := Name (x : nat) | Elements (d : list A).
Definition worth (s : holdings) (o : operand) : list A := match o with Name x => s x | Elements d => d end.

(** operands from left to right, then the operator; a variable used as an operand is looked at when the operator runs *)
Fixpoint late (e : expr) (s : holdings) : operand * holdings :=
  match e with
  | EVar x => (Name x, s)
  | EAssign e x => let (o, s1) := late e s in (o, put s1 x (worth s1 o))
  | EOp f a b => let (o1, s1) := late a s in let (o2, s2) := late b s1 in (Elements (map2 f (worth s2 o1) (worth s2 o2)), s2)
  end.

(** the mathematical reading: assignments stand for what they assign *)
Fixpoint value (e : expr) (s : holdings) : list A :=
  match e with
  | EVar x => s x
  | EAssign e x => value e s
  | EOp f a b => map2 f (value a s) (value b s)
  end.

(** variables that are operands, and variables that are assigned to *)
Fixpoint used (e : expr (A:=A)) : list nat :=
  match e with EVar x => [x] | EAssign e _ => used e | EOp _ a b => used a ++ used b end.
Fixpoint assigned (e : expr (A:=A)) : list nat :=
  match e with EVar _ => [] | EAssign e x => x :: assigned e | EOp _ a b => assigned a ++ assigned b end.

(** the expression that is assigned to x last *)
Fixpoint final (e : expr (A:=A)) (x : nat) : option (expr (A:=A)) :=
  match e with
  | EVar _ => None
  | EAssign e y => if x =? y then Some e else final e x
  | EOp _ a b => match final b x with Some e => Some e | None => final a x end
  end.

End Spec.
