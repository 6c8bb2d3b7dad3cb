(** What fitting a chain of layers to batches of samples is: the predictions as a function of the parameters, and the errors' objective. *)
From Coq Require Import List Arith Bool PeanoNat Reals.
From Coquelicot Require Import Hierarchy Derive.
From Verif Require Import ListBase TensorModel GraphModel CalcSpec LossSpec OptModel OptSpec NetModel ValueSpec LearnSpec.
Import ListNotations.
Local Open Scope nat_scope.

(** a batch: the number of samples, the samples, and their targets *)
Record batch := Batch { number : nat; inputs : list R; targets : list R }.

(** what the first k layers make of the samples, the parameters being vs *)
Definition made_of (eps : R) (ls : list layer1) (s : list nat) (vs : list (list R)) (b : batch) (k : nat) : val R :=
  let z i := nth k (means eps (chain ls) vs [(s, part (prod s) i (inputs b))]) ([], []) in
  (number b :: fst (z 0), flat_map (fun i => snd (z i)) (seq 0 (number b))).
Definition predictions (eps : R) (ls : list layer1) (s : list nat) (vs : list (list R)) (b : batch) : list R := snd (made_of eps ls s vs b (length ls)).

(** element i of parameter v becomes z *)
Definition with_element (vs : list (list R)) (v i : nat) (z : R) : list (list R) := upd vs v (upd (nth v vs []) i z).

(** the batch fits the network: samples of shape s, targets of shape t *)
Definition fits (m : nat) (s t : list nat) (b : batch) : Prop :=
  1 <= number b /\ (N.of_nat (number b * m) < 4294967296)%N /\ length (inputs b) = number b * prod s /\ length (targets b) = number b * prod t.

(** every layer can be taught (LearnSpec.v), and the error function h is differentiable where it is evaluated *)
Definition learnable (act : (R -> R) -> uop R) (eps : R) (h : R -> R) (ls : list layer1) (s : list nat) (vs : list (list R)) (b : batch) : Prop :=
  (forall k l, nth_error ls k = Some l -> teachable act l (made_of eps ls s vs b k)) /\
  forall i, i < length (targets b) -> ex_derive h (nth i (targets b) 0 - nth i (predictions eps ls s vs b) 0)%R.

(** the parameters in world w *)
Definition parameters (n : nat) (w : world) : list (list R) := map (weights w) (seq 0 n).

(** the tensors bound for a batch: samples to place holder 0, targets to p *)
Definition feed (s t : list nat) (p : nat) (b : batch) : list (nat * val R) := [(0, (number b :: s, inputs b)); (p, (number b :: t, targets b))].

(** the world after k batches *)
Definition world_after (dbg : bool) (eps : R) (sess : list (nat * bool)) (e : expr R) (feeds : list (list (nat * val R))) (o : opt) (w : world) (k : nat) : world :=
  match train dbg eps sess e (firstn k feeds) o w with Ok (_, w') => w' | _ => w end.

(** layer l, applied to values of shape t, can be taught whatever the value *)
Definition docile (act : (R -> R) -> uop R) (l : layer1) (t : list nat) : Prop :=
  match l with
  | Activation f => applies act f /\ forall v, length (snd v) = prod (fst v) -> right1 (act f) v
  | AveragePooling2D n => exists r c k, t = [r * n; c * n; k]
  | SoftmaxLayer | MaxPooling2D _ => False
  | _ => True
  end.
