(** Row-major order. *)
From Coq Require Import List NArith.
Import ListNotations.
Local Open Scope N_scope.

(** the number of elements of a tensor of this shape *)
Fixpoint elems (shape : list N) : N := match shape with [] => 1 | n :: rest => n * elems rest end.

(** one index per dimension, each below its extent *)
Definition valid (shape idx : list N) : Prop := Forall2 (fun n i => i < n) shape idx.

(** the position of an element in row-major order *)
Fixpoint position (shape idx : list N) : N :=
  match shape, idx with
  | _ :: rest, i :: idx' => i * elems rest + position rest idx'
  | _, _ => 0
  end.
