(** What a compiled model promises over its life: an abstract machine that knows nothing of graphs, storages and bindings.  Its state is
    what the model has learnt; batches are presented to it, to be learnt or only to be measured. *)
From Coq Require Import List Arith Bool PeanoNat NArith Reals.
From Coquelicot Require Import Hierarchy Derive.
From Verif Require Import FitModel FitSpec.
From Verif Require Import ListBase TensorModel GraphModel GraphSpec CalcSpec GradProps LossSpec NetModel ValueSpec LearnSpec OptModel OptSpec TrainSpec FittingSpec LifeModel.
Import ListNotations.
Local Open Scope nat_scope.

(** the weights of every variable, the optimiser's moments of every element, and how many batches were learnt *)
Record mind := Mind { weight : nat -> list R; moment : nat -> nat -> list R; taught : nat }.

Section Life.
Variables (eps : R) (m : nat) (L : comparison) (ls : list layer1) (s t : list nat) (n : nat).   (* n parameters; samples of shape s, targets of shape t *)
Variables (sess : list (nat * bool)) (size : nat -> nat).                                       (* the variables, trainable or not, and their sizes *)
Variables (e : expr R) (vo : slot -> vobj (A:=R)) (o : opt).                                    (* the loss, the regularisers of its variables, the optimiser *)

Definition guess (a : mind) (B : batch) : list R := predictions eps ls s (map (weight a) (seq 0 n)) B.
Definition guess_with (a : mind) (v i : nat) (z : R) (B : batch) : list R := predictions eps ls s (with_element (map (weight a) (seq 0 n)) v i z) B.
Definition failing (a : mind) (B : batch) : R := value L (number B :: t) (targets B) (guess a B).

(** moments that are missing are created as zeros *)
Definition moment_or_new (a : mind) (v i : nat) : list R := match moment a v i with [] => repeat 0%R (created (alg o)) | l => l end.

(** every element of every trainable variable makes the optimiser's step with the derivative of the batch's objective and the regularisers'
    cost; the other variables keep their weights *)
Definition learns (a : mind) (B : batch) (b : mind) : Prop :=
  taught b = S (taught a) /\
  (forall v i, In (v, true) sess -> i < size v -> let x := nth i (weight a v) 0%R in exists g,
     ((forall k, At e k (EVar v) -> trainable (vo k) = true) -> (x <> 0%R \/ forall k, At e k (EVar v) -> (l1 (vo k) < eps)%R) ->
      exists l, is_derive (fun z => objective L (number B :: t) (targets B) (guess_with a v i z B) + cost eps vo v (uses None e) z)%R x l /\
                near L (number B :: t) (fun z => guess_with a v i z B) x g l) /\
     (moment b v i, nth i (weight b v) 0%R) = move (alg o) eps (next_rate (after o (taught a))) (steps o + taught a) (moment_or_new a v i) x g) /\
  (forall v, In (v, true) sess -> length (weight b v) = size v) /\
  (forall v, In (v, false) sess -> weight b v = weight a v).

(** nothing was learnt and nothing forgotten *)
Definition alike (a b : mind) : Prop :=
  taught b = taught a /\ forall v f, In (v, f) sess -> weight b v = weight a v /\ forall i, moment b v i = moment a v i.

(** batches are presented one after the other, to be learnt (true) or to be measured; the losses *)
Inductive course : mind -> list (bool * batch) -> list R -> mind -> Prop :=
| course_none a b : alike a b -> course a [] [] b
| course_learn a B b h r c : learns a B b -> course b h r c -> course a ((true, B) :: h) (failing a B :: r) c
| course_measure a B b h r c : alike a b -> course b h r c -> course a ((false, B) :: h) (failing a B :: r) c.

(** full batches of a data set *)
Definition rows (x y : val R) (b l : nat) : batch := Batch b (group (b * prod s) l (snd x)) (group (b * prod t) l (snd y)).
Definition full (x : val R) (b : nat) : nat := hd 0 (fst x) / b.

(** the batches a call presents *)
Definition presented (c : call) : list (bool * batch) :=
  match c with
  | Fit x y b n training => flat_map (fun _ => map (fun l => (l <=? training, rows x y b l)) (seq 0 (full x b))) (seq 0 n)
  | Evaluate x y b => map (fun l => (false, rows x y b l)) (seq 0 (full x b))
  | TrainOnBatch x y => [(true, Batch (hd 0 (fst x)) (snd x) (snd y))]
  | Predict _ | AssignPhase _ => []
  end.

(** a sum divided by a number of loops *)
Definition ratio (r : list R) (k : nat) : option R := over (total r) k.

(** what a call returns to a model in state a, r being the losses of the batches presented *)
Definition answer (c : call) (a : mind) (r : list R) : reply :=
  match c with
  | Fit x y b n training =>
      let epoch j := firstn (full x b) (skipn (j * full x b) r) in
      Errors (map (fun j => ratio (firstn (S training) (epoch j)) training) (seq 0 n)) (map (fun j => ratio (skipn (S training) (epoch j)) (full x b - training)) (seq 0 n))
  | Evaluate x y b => MeanError (ratio r (full x b))
  | TrainOnBatch _ _ => Error (hd 0%R r)
  | Predict x => Result (hd 0 (fst x) :: t, guess a (Batch (hd 0 (fst x)) (snd x) []))
  | AssignPhase _ => Nothing
  end.

(** the learning phase a call leaves; l is the phase it finds *)
Definition phase_after (l : bool) (c : call) : bool := match c with AssignPhase l' => l' | _ => true end.

(** a life: call after call *)
Inductive life : mind -> list call -> list reply -> mind -> Prop :=
| life_end a : life a [] [] a
| life_call a c r b cs rs d : course a (presented c) r b -> life b cs rs d -> life a (c :: cs) (answer c a r :: rs) d.

(** arguments that fit the network, with targets in the loss's domain *)
Definition proper (x y : val R) : Prop :=
  (exists k, fst x = k :: s /\ fst y = k :: t) /\ length (snd x) = prod (fst x) /\ length (snd y) = prod (fst y).
Definition small (b : nat) : Prop := 1 <= b /\ (N.of_nat (b * m) < 4294967296)%N.
Definition suits (c : call) : Prop :=
  match c with
  | Fit x y b _ _ | Evaluate x y b => proper x y /\ small b
  | TrainOnBatch x y => proper x y /\ small (hd 0 (fst x))
  | Predict x => (exists k, fst x = k :: s) /\ length (snd x) = prod (fst x) /\ small (hd 0 (fst x))
  | AssignPhase _ => True
  end /\
  forall f B pred, In (f, B) (presented c) -> domain L (number B :: t) (targets B) pred.
End Life.
