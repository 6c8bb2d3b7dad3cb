(** Specification of the caching allocator, written without looking at the cache: each handle is an array of its own. *)
From Coq Require Import List NArith Bool Arith.
From Verif Require Import AllocModel.
Import ListNotations.
Local Open Scope N_scope.

(** two blocks share no byte *)
Definition disj (a b : block) : Prop := b_addr a + b_size a <= b_addr b \/ b_addr b + b_size b <= b_addr a.

(** what the client should observe: every handle is an array of its own, zero when allocated *)
Definition store : Type := list (option (list N)).

Definition spec_step (s : store) (o : op) : store :=
  match o with
  | OAlloc size _ _ _ => s ++ [Some (repeat 0 (N.to_nat size))]
  | OFree k => set_nth s k None
  | OWrite k off v => match nth_error s k with
                      | Some (Some bytes) => set_nth s k (Some (set_nth bytes (N.to_nat off) v))
                      | _ => s
                      end
  | OGc => s
  end.

Definition spec (h : list op) : store := fold_left spec_step h [].

(** handle and abstract array agree *)
Definition agrees (m : N -> N) (h : option block) (c : option (list N)) : Prop :=
  match h, c with
  | None, None => True
  | Some b, Some bytes => N.of_nat (length bytes) = b_size b /\
      forall off, off < b_size b -> nth_error bytes (N.to_nat off) = Some (m (b_addr b + off))
  | _, _ => False
  end.

(** no system failure and no gc in the history *)
Definition plentiful (h : list op) : Prop :=
  Forall (fun o => match o with OAlloc _ _ None _ => False | OGc => False | _ => True end) h.

