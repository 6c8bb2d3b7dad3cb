(** Complex numbers and complex matrices. *)
From Coq Require Import Reals List Arith.
From Verif Require Import ListBase TensorModel GraphModel GraphSpec CalcSpec ComplexModel.
Import ListNotations.
Open Scope R_scope.

Definition cadd (z w : R * R) : R * R := (fst z + fst w, snd z + snd w).
Definition csub (z w : R * R) : R * R := (fst z - fst w, snd z - snd w).
Definition copp (z : R * R) : R * R := (- fst z, - snd z).
Definition cmul (z w : R * R) : R * R := (fst z * fst w - snd z * snd w, fst z * snd w + snd z * fst w).
Definition cconj (z : R * R) : R * R := (fst z, - snd z).
Definition cnorm (z : R * R) : R := fst z * fst z + snd z * snd z.
Definition cofr (x : R) : R * R := (x, 0).
Fixpoint csum (l : list (R * R)) : R * R := match l with [] => (0, 0) | z :: l' => cadd z (csum l') end.

(** matrices as functions of row and column *)
Definition cmatmul (n : nat) (f g : nat -> nat -> R * R) (i j : nat) : R * R := csum (tab n (fun l => cmul (f i l) (g l j))).

(** the m x n matrix with elements f i j, as shape and elements *)
Definition mat (m n : nat) (f : nat -> nat -> R) : val R := ([m; n], tab2 m n f).

(** the expression e has the value of the m x n matrix f *)
Definition has (q : env R) (e : expr R) (m n : nat) (f : nat -> nat -> R) : Prop := evalR q e = Some (mat m n f).

(** the complex expression z has the value of the m x n complex matrix f *)
Definition shows (q : env R) (z : complex) (m n : nat) (f : nat -> nat -> R * R) : Prop :=
  has q (real z) m n (fun i j => fst (f i j)) /\ has q (imag z) m n (fun i j => snd (f i j)).

(** a leaf expression and the tensor it stands for in a state: a variable, a bound place holder or a constant *)
Definition stands_for (s : st R) (e : expr R) (t : tensor) : Prop :=
  match e with
  | EVar v => vdata (vars s v) = t
  | EHold p => holders s p = Some t
  | EConst u => u = t
  | _ => False
  end.

(** what tensor t shows in state s is the m x n matrix f *)
Definition holds (s : st R) (t : tensor) (m n : nat) (f : nat -> nat -> R) : Prop := (ref t < length (hp s))%nat /\ val_of (hp s) t = mat m n f.
