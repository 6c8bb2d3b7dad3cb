(** Vocabulary of the properties of training. *)
From Coq Require Import List Arith ZArith Bool PeanoNat Reals.
Import ListNotations.
Local Open Scope nat_scope.

(** the [l]-th group of [n] elements *)
Definition group {E} (n l : nat) (data : list E) : list E := firstn n (skipn (l * n) data).

(** the elements of one sample, from the shape of the data set *)
Definition per_sample (s : list nat) : nat := fold_right Nat.mul 1 (tl s).

(** the batches of an epoch, in order, and whether each is trained on: the first [trained] of them *)
Definition lessons {E} (x y : list nat * list E) (b loops trained : nat) : list ((list E * list E) * bool) :=
  map (fun l => (group (b * per_sample (fst x)) l (snd x), group (b * per_sample (fst y)) l (snd y), Nat.ltb l trained)) (seq 0 loops).

Section Course.
Context {E W : Type} (loss : W -> Z -> (list E * list E) -> R * (W * (list E * list E)))
        (optimise : W -> Z -> (list E * list E) -> W * (list E * list E)).

(** running the loss on each batch in turn, and the optimiser after it where [true]; the errors of the trained and of the other
    batches *)
Fixpoint course (ph : Z) (bs : list ((list E * list E) * bool)) (w : W) : list R * list R * W :=
  match bs with
  | [] => ([], [], w)
  | (b, t) :: bs =>
      let (e, wb) := loss w ph b in
      if t : bool then
        let '(te, ve, w) := course ph bs (fst (optimise (fst wb) ph (snd wb))) in (e :: te, ve, w)
      else
        let '(te, ve, w) := course ph bs (fst wb) in (te, e :: ve, w)
  end.

(** [n] times the same batches *)
Fixpoint courses (ph : Z) (bs : list ((list E * list E) * bool)) (n : nat) (w : W) : list (list R * list R) * W :=
  match n with
  | O => ([], w)
  | S n => let '(te, ve, w) := course ph bs w in
           let '(es, w) := courses ph bs n w in ((te, ve) :: es, w)
  end.

(** the buffers keep their sizes *)
Definition keeps_sizes : Prop :=
  (forall w z b, let b' := snd (snd (loss w z b)) in length (fst b') = length (fst b) /\ length (snd b') = length (snd b)) /\
  (forall w z b, let b' := snd (optimise w z b) in length (fst b') = length (fst b) /\ length (snd b') = length (snd b)).
End Course.

Definition total (l : list R) : R := fold_right Rplus 0%R l.

(** dividing by a number that may be zero *)
Definition over (e : R) (n : nat) : option R := match n with O => None | _ => Some (e / INR n)%R end.
