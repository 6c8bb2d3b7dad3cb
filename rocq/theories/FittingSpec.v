(** The losses with which a network is fitted: what each compares, and when its gradient is right. *)
From Coq Require Import List Arith Bool Reals.
From Coquelicot Require Import Hierarchy Derive.
From Verif Require Import ListBase TensorModel GraphModel LayerSpec LossModel LossSpec PairSpec XentSpec NetModel LearnSpec TrainSpec.
Import ListNotations.
Local Open Scope nat_scope.

(** A loss: the expression made of target and prediction (its operators numbered from n); the value run returns for tensors of a shape,
    with these targets and predictions; the objective whose derivative is the gradient; how near to that derivative l the gradient g is,
    f being the predictions as a function of the element and x its value; and for which targets and predictions this is so. *)
Record comparison := Comparison {
  term : nat -> expr R -> expr R -> expr R;
  value : list nat -> list R -> list R -> R;
  objective : list nat -> list R -> list R -> R;
  near : list nat -> (R -> list R) -> R -> R -> R -> Prop;
  domain : list nat -> list R -> list R -> Prop
}.

(** the gradient is the derivative *)
Definition same (_ : list nat) (_ : R -> list R) (_ g l : R) : Prop := g = l.

(** the gradient is the derivative up to eps times the sum of the derivatives of the predictions *)
Definition nearly (eps : R) (sh : list nat) (f : R -> list R) (x g l : R) : Prop :=
  exists dy, (forall j, j < prod sh -> is_derive (fun z => nth j (f z) 0%R) x (dy j)) /\ (Rabs (g - l) <= eps * rsum (tab (prod sh) (fun j => Rabs (dy j))))%R.

(** every pair of a target and its prediction is in dom *)
Definition pairs (dom : R -> R -> Prop) (_ : list nat) (target pred : list R) : Prop := forall i, i < length target -> dom (nth i target 0%R) (nth i pred 0%R).

(** sums over differences, and over pairs *)
Definition of_differences (loss : nat -> expr R -> expr R -> expr R) (h : R -> R) (wgt c : list nat -> R) : comparison :=
  Comparison loss (fun sh t y => wgt sh * spread h t y)%R (fun sh t y => c sh * spread h t y)%R same (pairs (fun t y => ex_derive h (t - y)%R)).
Definition of_pairs (loss : nat -> expr R -> expr R -> expr R) (h : R -> R -> R) (wgt c : list nat -> R) (dom : R -> R -> Prop) : comparison :=
  Comparison loss (fun sh t y => wgt sh * summed h t y)%R (fun sh t y => c sh * summed h t y)%R same (pairs dom).

(** cross_entropy_loss: rows of at least two scores, exactly one label in each row *)
Definition classes (sh : list nat) : nat := last sh 0.
Definition rows_of (sh : list nat) : nat := prod (removelast sh).
Definition labels (eps smooth : R) (sh : list nat) (target : list R) : nat -> R := fun i => given eps smooth (classes sh) (nth i target 0%R).
Definition of_scores (dbg : bool) (eps smooth : R) : comparison :=
  Comparison (cross_entropy_loss dbg eps smooth)
    (fun sh t y => reported eps (hd 0 sh) (rows_of sh) (classes sh) (labels eps smooth sh t) (fun i => nth i y 0%R))
    (fun sh t y => entropy (rows_of sh) (classes sh) (labels eps smooth sh t) (fun i => nth i y 0%R))
    (nearly eps)
    (fun sh t _ => 2 <= classes sh /\ one_hot eps (rows_of sh) (classes sh) (fun i => nth i t 0%R)).

(** the losses of loss.hpp but binary_cross_entropy_loss, whose value is not what it says (C62); lo and up: the limits of clip *)
Definition comparisons (dbg : bool) (eps smooth lo up : R) : list comparison :=
  [of_differences squared_loss (fun d => d * d) (fun _ => 1) (fun _ => 1);
   of_differences mean_squared_error (fun d => d * d) (fun s => / elements s) (fun s => / samples s);
   of_differences abs_loss Rabs (fun _ => 1) (fun _ => 1);
   of_differences mean_absolute_error Rabs (fun s => / elements s) (fun s => / samples s);
   of_pairs (cross_entropy dbg) log_score (fun _ => 1) (fun _ => 1) (fun _ y => 0 < y);
   of_pairs (hinge_loss dbg) hinge (fun s => / elements s) (fun s => / samples s) (fun t y => t * y <> 1);
   of_pairs (mean_squared_logarithmic_error lo up) (log_distance lo up) (fun _ => 1) (fun _ => 1) (fun t y => (t <> lo /\ t <> up) /\ (y <> lo /\ y <> up));
   of_scores dbg eps smooth]%R.

(** the layers can be taught at these parameters, and the loss is in its domain *)
Definition fittable (act : (R -> R) -> uop R) (eps : R) (L : comparison) (ls : list layer1) (s t : list nat) (vs : list (list R)) (b : batch) : Prop :=
  (forall k l, nth_error ls k = Some l -> teachable act l (made_of eps ls s vs b k)) /\ domain L (number b :: t) (targets b) (predictions eps ls s vs b).
