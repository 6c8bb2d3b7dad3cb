(** Vocabulary of the properties of composed models. *)
From Coq Require Import List Arith Lia Bool PeanoNat.
From Verif Require Import ListBase TensorModel GraphModel GraphSpec.
Import ListNotations.

Section Spec.
Context {A : Type}.

(** [e'] is [e] with [y] in the place of every placeholder: the same operators on the same variables, constants and values *)
Fixpoint grafted (y e e' : expr A) : Prop :=
  match e with
  | EHold _ => e' = y
  | EUn _ o x => match e' with EUn _ o' x' => o' = o /\ grafted y x x' | _ => False end
  | EBin _ o l r => match e' with EBin _ o' l' r' => o' = o /\ grafted y l l' /\ grafted y r r' | _ => False end
  | _ => e' = e
  end.

(** the identifiers that [e'] has at the places of [e]'s operators *)
Fixpoint new_ids (e e' : expr A) : list nat :=
  match e, e' with
  | EUn _ _ x, EUn n _ x' => n :: new_ids x x'
  | EBin _ _ l r, EBin n _ l' r' => n :: new_ids l l' ++ new_ids r r'
  | _, _ => []
  end.

(** the placeholders, variables in an expression, from left to right *)
Fixpoint places (e : expr A) : list nat :=
  match e with EHold p => [p] | EUn _ _ x => places x | EBin _ _ l r => places l ++ places r | _ => [] end.
Fixpoint weights (e : expr A) : list nat :=
  match e with EVar v => [v] | EUn _ _ x => weights x | EBin _ _ l r => weights l ++ weights r | _ => [] end.

(** every placeholder holds [v] *)
Definition feed (q : env A) (v : val A) : env A := Env (e_var q) (fun _ => Some v) (e_const q).

(** the state as it looks when each of the operators [L] calls its buffers by its own identifier *)
Definition named (buf : nat -> nat) (L : list nat) (s : st A) : st A :=
  set_ownb (set_own s (fun n => if existsb (Nat.eqb n) L then own s (buf n) else None))
           (fun n b => if existsb (Nat.eqb n) L then ownb s (buf n) b else None).

(** the same state, except that each of the operators [L] calls its buffers by its own identifier *)
Inductive alike (buf : nat -> nat) (L : list nat) : st A -> st A -> Prop :=
| Alike s o ob : (forall n, In n L -> o n = own s (buf n)) -> (forall n b, In n L -> ob n b = ownb s (buf n) b) ->
    alike buf L s (set_ownb (set_own s o) ob).

(** no two of the operators use the same buffers *)
Definition apart (buf : nat -> nat) (L : list nat) : Prop := forall i j, In i L -> In j L -> buf i = buf j -> i = j.

End Spec.
