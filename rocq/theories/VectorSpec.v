(** Vectors as values: every name stands for nothing or for a list of its own. *)
From Coq Require Import List Arith Bool PeanoNat.
From Verif Require Import ListBase VectorModel.
Import ListNotations.

Section Spec.
Context {A : Type}.
Definition values := list (option (list (option A))).
Definition value (s : values) (i : nat) : option (list (option A)) := nth i s None.
Definition is_free (i : nat) (s : values) : bool := (i <? length s) && match value s i with None => true | Some _ => false end.

Definition vstep (o : op A) (s : values) : values :=
  match o with
  | Make i n x => if is_free i s then upd s i (Some (repeat (Some x) n)) else s
  | MakeList i xs => if is_free i s then upd s i (Some (map Some xs)) else s
  | Copy i j => match value s j with Some l => if is_free i s then upd s i (Some l) else s | None => s end
  | Move i j => match value s j with Some l => if is_free i s then upd (upd s i (Some l)) j (Some []) else s | None => s end
  | CopyAssign i j => match value s i, value s j with Some _, Some l => upd s i (Some l) | _, _ => s end
  | MoveAssign i j => match value s i, value s j with Some _, Some l => upd (upd s i (Some l)) j (Some []) | _, _ => s end
  | Resize i n => match value s i with Some l => if n =? length l then s else upd s i (Some (repeat None n)) | None => s end
  | Clear i => match value s i with Some _ => upd s i (Some []) | None => s end
  | Write i k x => match value s i with Some l => if k <? length l then upd s i (Some (upd l k (Some x))) else s | None => s end
  | Destroy i => match value s i with Some _ => upd s i None | None => s end
  end.
Definition vrun (os : list (op A)) (s : values) : values := fold_left (fun s o => vstep o s) os s.

(** a block is lost by a move assignment onto a vector with elements *)
Definition loses (o : op A) (s : values) : nat :=
  match o with
  | MoveAssign i j => match value s i, value s j with Some (_ :: _), Some _ => 1 | _, _ => 0 end
  | _ => 0
  end.
Fixpoint lost (os : list (op A)) (s : values) : nat := match os with [] => 0 | o :: os => loses o s + lost os (vstep o s) end.

(** the allocator's view of its calls: sizes of the blocks handed out, and whether they are still out; None when a call is not allowed *)
Definition account1 (c : call) (bs : list (nat * bool)) : option (list (nat * bool)) :=
  match c with
  | Allocate n => Some (bs ++ [(n, true)])
  | Deallocate p n => match nth_error bs p with Some (m, true) => if m =? n then Some (upd bs p (m, false)) else None | _ => None end
  end.
Definition account (cs : list call) : option (list (nat * bool)) := fold_left (fun bs c => match bs with Some bs => account1 c bs | None => None end) cs (Some []).

(** blocks that are out *)
Definition out (bs : list (nat * bool)) : nat := length (filter snd bs).
Definition with_elements (s : values) : nat := length (filter (fun v => match v with Some (_ :: _) => true | _ => false end) s).
End Spec.
