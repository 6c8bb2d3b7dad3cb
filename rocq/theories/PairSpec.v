(** What the losses cross_entropy, hinge_loss and mean_squared_logarithmic_error sum up. *)
From Coq Require Import List Arith Bool Reals.
From Verif Require Import ListBase TensorModel GraphModel LayerSpec.
Import ListNotations.
Local Open Scope R_scope.

(** the sum over all elements of h target prediction *)
Definition summed (h : R -> R -> R) (target pred : list R) : R := rsum (map2 h target pred).
Definition summed_of (h : R -> R -> R) (target : list R) (pred : option (val R)) : R := match pred with Some w => summed h target (snd w) | None => 0 end.

(** x, kept between lo and up *)
Definition kept (lo up x : R) : R := Rmax lo (Rmin up x).

Definition log_score (t y : R) : R := - (t * ln y).
Definition hinge (t y : R) : R := Rmax 0 (1 - t * y).
Definition log_distance (lo up t y : R) : R := (ln (1 + kept lo up t) - ln (1 + kept lo up y)) * (ln (1 + kept lo up t) - ln (1 + kept lo up y)).
