(** Where the tensor a run returns keeps its elements, and what a program does after a run. *)
From Coq Require Import List Arith Bool.
From Verif Require Import ListBase TensorModel TensorSpec GraphModel GraphSpec GraphProofs.
Import ListNotations.

Section Spec.
Context {A : Type} (zero one : A) (add mul : A -> A -> A).

(** The sub-expression whose storage the result of x is in: views and sums computed inside their left operand are passed
    through. *)
Fixpoint maker (q : env A) (x : expr A) : expr A :=
  match x with
  | EUn _ (UView _) y => maker q y
  | EBin _ BPlus l r => if negb (is_value l) && inplace zero one add mul q l r then maker q l else x
  | _ => x
  end.

(** operators that write their result into a buffer of their own, the same one in every run *)
Definition owns (x : expr A) : bool :=
  match x with
  | EUn _ (UNew true _ _ _) _ => true
  | EBin _ (BNew true _ _ _) _ _ => true
  | _ => false
  end.

(** a result in a storage allocated for it *)
Definition fresh (q : env A) (x : expr A) : bool := negb (is_leaf (maker q x)) && negb (owns (maker q x)).

(** the tensor a leaf stands for *)
Definition leaf_tensor (s : st A) (x : expr A) : option tensor :=
  match x with
  | EVar v => Some (vdata (vars s v))
  | EHold p => holders s p
  | EConst t => Some t
  | _ => None
  end.

End Spec.
