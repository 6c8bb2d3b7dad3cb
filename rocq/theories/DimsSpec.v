(** What programs of tensors do to shapes: every tensor has a list of numbers of its own. *)
From Coq Require Import List Arith Bool.
From Verif Require Import ListBase TensorModel DimsModel.
Import ListNotations.

Notation shapes := (list (option (list nat))).
Definition value (s : shapes) (i : nat) : option (list nat) := nth i s None.
Definition unused (s : shapes) (i : nat) : bool := (i <? length s) && match value s i with None => true | Some _ => false end.

(** names: a new tensor needs an unused one *)
Definition change (o : op) (s : shapes) : shapes :=
  match o with
  | Create i d => if unused s i then upd s i (Some d) else s
  | Copy i j | Deep i j => match value s j with Some d => if unused s i then upd s i (Some d) else s | None => s end
  | Assign i j | DeepInto i j => match value s i, value s j with Some _, Some d => upd s i (Some d) | _, _ => s end
  | Reshape i d => match value s i with Some _ => upd s i (Some d) | None => s end
  | Destroy i => upd s i None
  end.
Definition changes (os : list op) (s : shapes) : shapes := fold_left (fun s o => change o s) os s.

(** what shape() of tensor i returns *)
Definition seen (w : world) (i : nat) : option (outcome (list cell)) :=
  match object w i with Some v => Some (shape w v) | None => None end.
Definition shows (w : world) (s : shapes) : Prop :=
  forall i, seen w i = match value s i with Some d => Some (Ok (map Some d)) | None => None end.

(** no shape in the program has more than n dimensions *)
Definition dims (o : op) : list nat := match o with Create _ d | Reshape _ d => d | _ => [] end.
Definition at_most (n : nat) (os : list op) : Prop := Forall (fun o => length (dims o) <= n) os.
