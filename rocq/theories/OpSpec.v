(** Specification vocabulary for the operators' local rules: calculus on single elements. *)
From Coq Require Import List Arith Bool PeanoNat Reals.
From Coquelicot Require Import Rcomplements Hierarchy Derive.
From Verif Require Import ListBase TensorModel TensorSpec GraphModel LayerSpec CalcSpec.
Import ListNotations.
Local Open Scope R_scope.

(** At x the function f has a derivative, and h turns every incoming gradient g into g times that derivative. *)
Definition sound_at (f : R -> R) (h : R -> R) (x : R) : Prop :=
  exists d, is_derive f x d /\ forall g, h g = g * d.

(** The same for two variables: f moves with the velocities of its arguments. *)
Definition sound2_at (f : R -> R -> R) (hl hr : R -> R) (x y : R) : Prop :=
  exists dl dr,
    (forall (u v : R -> R) (t0 du dv : R), u t0 = x -> v t0 = y -> is_derive u t0 du -> is_derive v t0 dv ->
       is_derive (fun t => f (u t) (v t)) t0 (dl * du + dr * dv)) /\
    forall g, hl g = g * dl /\ hr g = g * dr.
