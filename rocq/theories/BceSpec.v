(** What binary_cross_entropy_loss is meant to sum up, and what it does. *)
From Coq Require Import Reals.
Local Open Scope R_scope.

(** the cross entropy of a label t and a predicted probability y *)
Definition binary_score (t y : R) : R := - (t * ln y + (1 - t) * ln (1 - y)).
(** the same with 1 - t - y in place of 1 - t and of 1 - y *)
Definition merged_score (t y : R) : R := - (t * ln y + (1 - t - y) * ln (1 - t - y)).
