(** Straight-line programs over named tensors: copies, deep copies, assignments and in-place operations of
    include/tensor.hpp, over the heap model of TensorModel.v. *)
From Coq Require Import List Arith Lia Bool PeanoNat.
From Verif Require Import ListBase TensorModel.
Import ListNotations.

Section Alias.
Context {A : Type} (zero : A) (dbg : bool).

(** names are positions in the environment; a declaration appends a new name *)
Inductive op :=
| Copy (x : nat)                              (* auto y = x;               tensor.hpp:111-127 *)
| DeepCopy (x : nat)                          (* auto y = x.deep_copy();   tensor.hpp:308-313 *)
| Assign (d x : nat)                          (* d = x;                    tensor.hpp:129-146 *)
| SetElem (x i : nat) (v : A)                 (* x[i] = v;                 tensor.hpp:321-330 *)
| MapIn (f : A -> A) (x : nat)                (* x.map(f), x += v, x.reset(v), ...  tensor.hpp:275-279, 400-458 *)
| ZipIn (f : A -> A -> A) (x y : nat)         (* x += y, x -= y, x *= y, x /= y      tensor.hpp:407-458 *)
| Resize (x : nat) (s : list nat).            (* x.resize(s)               tensor.hpp:335-343 *)

Record state := mkS { env : list tensor; hp : list (list A) }.

Definition lookup (s : state) (x : nat) : outcome tensor :=
  match nth_error (env s) x with Some t => Ok t | None => UB end.

Definition run_m {T} (s : state) (m : M (A:=A) T) : outcome (T * state) :=
  match m (hp s) with Ok (v, h) => Ok (v, mkS (env s) h) | Abort => Abort | UB => UB end.

Definition step (s : state) (o : op) : outcome state :=
  match o with
  | Copy x => obind (lookup s x) (fun t => Ok (mkS (env s ++ [t]) (hp s)))
  | DeepCopy x => obind (lookup s x) (fun t => obind (run_m s (deep_copy zero t)) (fun '(t', s') => Ok (mkS (env s' ++ [t']) (hp s'))))
  | Assign d x => obind (lookup s d) (fun _ => obind (lookup s x) (fun t => Ok (mkS (upd (env s) d t) (hp s))))
  | SetElem x i v => obind (lookup s x) (fun t => obind (run_m s (set_elem t i v)) (fun '(_, s') => Ok s'))
  | MapIn f x => obind (lookup s x) (fun t => obind (run_m s (map_inplace f t)) (fun '(_, s') => Ok s'))
  | ZipIn f x y => obind (lookup s x) (fun t => obind (lookup s y) (fun u =>
                     obind (run_m s (zip_inplace dbg f t u)) (fun '(_, s') => Ok s')))
  | Resize x sh => obind (lookup s x) (fun t => obind (run_m s (resize zero t sh)) (fun '(t', s') =>
                     Ok (mkS (upd (env s') x t') (hp s'))))
  end.

Fixpoint exec (s : state) (p : list op) : outcome state :=
  match p with
  | [] => Ok s
  | o :: p' => obind (step s o) (fun s' => exec s' p')
  end.

(** the name whose elements or binding the operation changes *)
Definition written (o : op) : option nat :=
  match o with
  | Copy _ | DeepCopy _ => None
  | Assign d _ => Some d
  | SetElem x _ _ | MapIn _ x | ZipIn _ x _ | Resize x _ => Some x
  end.

(** the name the operation makes a new alias of *)
Definition aliased (o : op) : option nat :=
  match o with Copy x => Some x | Assign _ x => Some x | _ => None end.

(** the name the operation re-binds to another storage *)
Definition rebound (o : op) : option nat :=
  match o with Assign d _ => Some d | _ => None end.

(** what a name shows: shape and elements *)
Definition seen (s : state) (x : nat) : option (list nat * list A) :=
  match nth_error (env s) x with
  | Some t => match nth_error (hp s) (ref t) with Some d => Some (shape t, d) | None => None end
  | None => None
  end.

(** every name refers to a live storage *)
Definition live (s : state) : Prop := Forall (fun t => ref t < length (hp s)) (env s).

End Alias.
Arguments op : clear implicits.
Arguments state : clear implicits.
