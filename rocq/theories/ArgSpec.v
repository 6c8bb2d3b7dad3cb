(** What argmax and argmin should give. *)
From Coq Require Import List Arith Bool.
From Verif Require Import ListBase TensorModel ArrayModel.
Import ListNotations.
Local Open Scope nat_scope.

(** m is the position of the first of the largest elements of l *)
Definition first_largest {A} (ltb : A -> A -> bool) (l : list A) (m : nat) : Prop :=
  exists v, nth_error l m = Some v /\ (forall k u, nth_error l k = Some u -> ltb v u = false) /\
    (forall k u, nth_error l k = Some u -> k < m -> ltb u v = true).

(** m is the position of the first of the smallest elements of l *)
Definition first_smallest {A} (ltb : A -> A -> bool) (l : list A) (m : nat) : Prop :=
  exists v, nth_error l m = Some v /\ (forall k u, nth_error l k = Some u -> ltb u v = false) /\
    (forall k u, nth_error l k = Some u -> k < m -> ltb v u = true).

(** no two positions of l hold a largest element *)
Definition unique_largest {A} (ltb : A -> A -> bool) (l : list A) : Prop :=
  exists m v, nth_error l m = Some v /\ forall k u, nth_error l k = Some u -> k <> m -> ltb u v = true.
