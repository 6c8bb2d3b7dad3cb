(** Which chains of layers learn, and what they denote as functions of their variables. *)
From Coq Require Import List Arith Bool PeanoNat Reals.
From Verif Require Import ListBase ArrayModel GraphModel GraphSpec CalcSpec OpModel NetModel ValueSpec.
Import ListNotations.
Local Open Scope nat_scope.

(** layers one after the other *)
Definition chain (ls : list layer1) : list instr := map (fun p => Apply1 (snd p) (fst p)) (combine (seq 0 (length ls)) ls).

(** the input of a network and its variables *)
Definition leaf_of (q : env R) (n : nat) : arr R :=
  match n with
  | 0 => match e_hold q 0 with Some v => Arr (fst v) (snd v) | None => Arr [] [] end
  | S k => Arr (fst (e_var q k)) (snd (e_var q k))
  end.

(** what the first k layers denote of a batch: of sample after sample *)
Definition denoted (eps : R) (ls : list layer1) (s : list nat) (bs nvars : nat) (q : env R) (k : nat) : val R :=
  let z i := nth k (means eps (chain ls) (map (fun v => snd (e_var q v)) (seq 0 nvars)) [(s, part (prod s) i (match e_hold q 0 with Some v => snd v | None => [] end))]) ([], []) in
  (bs :: fst (z 0), flat_map (fun i => snd (z i)) (seq 0 bs)).

(** act gives an operator that applies f to every element *)
Definition applies (act : (R -> R) -> uop R) (f : R -> R) : Prop :=
  exists own m b, act f = UNew own (fun i => Some (fst i, map f (snd i))) m b.

(** layer l, applied to the value v, has a backward action that is right: activations have to be (C30); the extents have to be
    multiples of the size of average pooling.  Softmax is not right (C30), max pooling is right in its first run only (C37). *)
Definition teachable (act : (R -> R) -> uop R) (l : layer1) (v : val R) : Prop :=
  match l with
  | Dense _ | Conv2D _ _ _ _ _ _ _ _ | Conv1D _ _ _ _ _ | Conv2DTranspose _ _ _ _ _ _ _ _ | ReshapeLayer _ _ | FlattenLayer | UpSampling2D _ => True
  | Activation f => applies act f /\ right1 (act f) v
  | AveragePooling2D n => exists r c k, tl (fst v) = [r * n; c * n; k]
  | SoftmaxLayer | MaxPooling2D _ => False
  end.
