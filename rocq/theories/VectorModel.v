(** Model of ceras::vector (include/utils/vector.hpp:10-127), the storage of every tensor: its objects, the blocks they get from their
    allocator, and the calls of the allocator.

    The allocator's contract: allocate( n ) gives a new block of n elements without values (a cached allocator meets it: C06), and
    deallocate( p, n ) must name a block that allocate( n ) gave and that has not been given back.  Block number k is the one of the k-th
    call of allocate.

    Simplifications: elements are of a type without constructors and destructors of its own, as in all tensors of the library; an element
    without a value is [None], and copying it is not undefined; copying a block onto itself (self-assignment) changes nothing; the
    allocator does not fail.  A program is a list of operations on named objects; an operation that constructs an object that exists, or
    uses one that does not, or writes an element that does not exist, is no operation of a program and is skipped. *)
From Coq Require Import List Arith Bool PeanoNat.
From Verif Require Import ListBase TensorModel.
Import ListNotations.

Section Vector.
Context {A : Type}.

Inductive call := Allocate (n : nat) | Deallocate (p n : nat).

Record block := Block { words : list (option A); live : bool }.

(** 23-24 *)
Record vec := Vec { vsize : nat; vdata : option nat }.

Record world := World { heap : list block; objects : list (option vec); calls : list call }.

Definition object (w : world) (i : nat) : option vec := nth i (objects w) None.
Definition set_object (i : nat) (v : option vec) (w : world) : world := World (heap w) (upd (objects w) i v) (calls w).

Definition allocate (n : nat) (w : world) : nat * world :=
  (length (heap w), World (heap w ++ [Block (repeat None n) true]) (objects w) (calls w ++ [Allocate n])).

Definition deallocate (p : option nat) (n : nat) (w : world) : outcome world :=
  match p with
  | None => UB
  | Some k =>
      match nth_error (heap w) k with
      | Some b => if live b && (length (words b) =? n) then Ok (World (upd (heap w) k (Block (words b) false)) (objects w) (calls w ++ [Deallocate k n])) else UB
      | None => UB
      end
  end.

(** reading and writing n elements from a pointer on *)
Definition read_n (p : option nat) (n : nat) (w : world) : outcome (list (option A)) :=
  match p with
  | None => UB
  | Some k => match nth_error (heap w) k with
              | Some b => if live b && (n <=? length (words b)) then Ok (firstn n (words b)) else UB
              | None => UB
              end
  end.
Definition write_n (p : option nat) (xs : list (option A)) (w : world) : outcome world :=
  match p with
  | None => UB
  | Some k => match nth_error (heap w) k with
              | Some b => if live b && (length xs <=? length (words b)) then Ok (World (upd (heap w) k (Block (xs ++ skipn (length xs) (words b)) true)) (objects w) (calls w)) else UB
              | None => UB
              end
  end.

(** 76-85 *)
Definition clear (i : nat) (v : vec) (w : world) : outcome world :=
  if vsize v =? 0 then Ok (set_object i (Some (Vec 0 None)) w)
  else obind (deallocate (vdata v) (vsize v) w) (fun w => Ok (set_object i (Some (Vec 0 None)) w)).

(** 87-99 *)
Definition resize (i n : nat) (v : vec) (w : world) : outcome world :=
  if n =? vsize v then Ok w
  else obind (clear i v w) (fun w =>
    if n =? 0 then Ok w
    else let (p, w) := allocate n w in Ok (set_object i (Some (Vec n (Some p))) w)).

(** resize, then the elements xs, if there are any *)
Definition resize_and_store (i : nat) (xs : list (option A)) (v : vec) (w : world) : outcome world :=
  obind (resize i (length xs) v w) (fun w =>
    match object w i with
    | None => Ok w
    | Some v => if vsize v =? 0 then Ok w else write_n (vdata v) xs w
    end).

Inductive op :=
| Make (i n : nat) (x : A)            (* 44-50 vector( size, init ) *)
| MakeList (i : nat) (xs : list A)    (* 67-72 vector( initializer_list ) *)
| Copy (i j : nat)                    (* 52-57 vector i( vector j ) *)
| Move (i j : nat)                    (* 26-32 vector i( move( vector j ) ) *)
| CopyAssign (i j : nat)              (* 59-65 i = j *)
| MoveAssign (i j : nat)              (* 34-41 i = move( j ) *)
| Resize (i n : nat)
| Clear (i : nat)
| Write (i k : nat) (x : A)           (* i.data()[k] = x *)
| Destroy (i : nat).                  (* 74-77 *)

(** is i a name without an object? *)
Definition free_name (i : nat) (w : world) : bool := (i <? length (objects w)) && match object w i with None => true | Some _ => false end.

Definition step (o : op) (w : world) : outcome world :=
  match o with
  | Make i n x => if free_name i w then resize_and_store i (repeat (Some x) n) (Vec 0 None) (set_object i (Some (Vec 0 None)) w) else Ok w
  | MakeList i xs => if free_name i w then resize_and_store i (map Some xs) (Vec 0 None) (set_object i (Some (Vec 0 None)) w) else Ok w
  | Copy i j =>
      match object w j with
      | Some v => if free_name i w then
          let w := set_object i (Some (Vec 0 None)) w in
          obind (resize i (vsize v) (Vec 0 None) w) (fun w =>
            match object w i with
            | None => Ok w
            | Some u => if vsize u =? 0 then Ok w else obind (read_n (vdata v) (vsize u) w) (fun xs => write_n (vdata u) xs w)
            end) else Ok w
      | None => Ok w
      end
  | Move i j =>
      match object w j with
      | Some v => if free_name i w then Ok (set_object j (Some (Vec 0 None)) (set_object i (Some v) w)) else Ok w
      | None => Ok w
      end
  | CopyAssign i j =>
      match object w i, object w j with
      | Some u, Some v =>
          obind (resize i (vsize v) u w) (fun w =>
            match object w i, object w j with
            | Some u, Some v => if vsize u =? 0 then Ok w else obind (read_n (vdata v) (vsize u) w) (fun xs => write_n (vdata u) xs w)
            | _, _ => Ok w
            end)
      | _, _ => Ok w
      end
  | MoveAssign i j =>
      match object w i, object w j with
      | Some _, Some v => Ok (set_object j (Some (Vec 0 None)) (set_object i (Some v) w))
      | _, _ => Ok w
      end
  | Resize i n => match object w i with Some v => resize i n v w | None => Ok w end
  | Clear i => match object w i with Some v => clear i v w | None => Ok w end
  | Write i k x =>
      match object w i with
      | Some v => if k <? vsize v then obind (read_n (vdata v) (vsize v) w) (fun xs => write_n (vdata v) (upd xs k (Some x)) w) else Ok w
      | None => Ok w
      end
  | Destroy i => match object w i with Some v => obind (clear i v w) (fun w => Ok (set_object i None w)) | None => Ok w end
  end.

Fixpoint run (os : list op) (w : world) : outcome world :=
  match os with [] => Ok w | o :: os => obind (step o w) (run os) end.

(** a program with n names *)
Definition start (n : nat) : world := World [] (repeat None n) [].
End Vector.
Arguments op : clear implicits. Arguments world : clear implicits. Arguments block : clear implicits.
