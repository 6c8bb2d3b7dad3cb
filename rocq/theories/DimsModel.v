(** Model of the shapes of tensors: include/tensor.hpp:52, std::vector<unsigned long, buffered_allocator<unsigned long, 256>> shape_, with
    utils/buffered_allocator.hpp:33-66, and of what tensors do with it (tensor.hpp:58-147, 284-371).

    The allocator keeps 256 bytes inside itself, hence inside the vector, hence inside the tensor, and gives out this very buffer for
    everything that fits: two vectors are apart only because they are two objects, a vector that grows gets the memory it has, and a vector
    whose pointer is taken over by another one stays the owner of the elements.

    std::vector is libstdc++'s (bits/stl_vector.h, bits/vector.tcc): the range and the copy constructor, operator=, resize and the
    destructor, for elements that are numbers.  std::allocator gives a new block for every request; deallocate must name a block that has
    not been given back and, if [sized] holds (sized deallocation, as [allocator.members] demands), the number of elements it was
    requested with.

    Simplifications: 64-bit numbers, no CUDA; an element without a value is [None]; memory is not exhausted.  A program is a list of
    operations on named tensors; an operation that constructs a tensor that exists or uses one that does not is skipped.  The elements of
    tensors are not here (see Alias). *)
From Coq Require Import List Arith Bool PeanoNat.
From Verif Require Import ListBase TensorModel.
Import ListNotations.

Notation cell := (option nat).

(** where an array lies: nowhere, in the buffer inside object i, in block b of the heap *)
Inductive pointer := Null | InCache (i : nat) | Heap (b : nat).

Record block := Block { words : list cell; live : bool }.
(** the allocator's buffer, then start, finish - start and end_of_storage - start *)
Record vec := Vec { cache : list cell; start : pointer; size : nat; capacity : nat }.
Record world := World { heap : list block; objects : list (option vec) }.

Definition object (w : world) (i : nat) : option vec := nth i (objects w) None.
Definition set_object (i : nat) (v : option vec) (w : world) : world := World (heap w) (upd (objects w) i v).

(** ** Memory *)
Definition cells (w : world) (p : pointer) : option (list cell) :=
  match p with
  | Null => None
  | InCache i => match object w i with Some v => Some (cache v) | None => None end
  | Heap b => match nth_error (heap w) b with Some bl => if live bl then Some (words bl) else None | None => None end
  end.
Definition set_cells (p : pointer) (m : list cell) (w : world) : world :=
  match p with
  | Null => w
  | InCache i => match object w i with Some v => set_object i (Some (Vec m (start v) (size v) (capacity v))) w | None => w end
  | Heap b => World (upd (heap w) b (Block m true)) (objects w)
  end.

Definition read (w : world) (p : pointer) (n : nat) : outcome (list cell) :=
  if n =? 0 then Ok [] else match cells w p with Some m => if n <=? length m then Ok (firstn n m) else UB | None => UB end.
Definition write (p : pointer) (off : nat) (xs : list cell) (w : world) : outcome world :=
  if length xs =? 0 then Ok w
  else match cells w p with
       | Some m => if off + length xs <=? length m then Ok (set_cells p (firstn off m ++ xs ++ skipn (off + length xs) m) w) else UB
       | None => UB
       end.

(** ** buffered_allocator.hpp *)

Definition BYTES : nat := 256.
Definition size_of : nat := 8.

(** 33-49; line 46 requests as many elements as bytes are needed.  std::vector does not call it for 0 elements *)
Definition allocate (i n : nat) (w : world) : pointer * world :=
  if n =? 0 then (Null, w)
  else let bytes := size_of * n in
       if bytes <=? BYTES then (InCache i, w)
       else (Heap (length (heap w)), World (heap w ++ [Block (repeat None bytes) true]) (objects w)).

(** 51-66 *)
Definition deallocate (sized : bool) (p : pointer) (n : nat) (w : world) : outcome world :=
  match p with
  | Null => Ok w
  | _ =>
      if size_of * n <=? BYTES then Ok w
      else match p with
           | Heap b =>
               match nth_error (heap w) b with
               | Some bl => if live bl && (negb sized || (length (words bl) =? n)) then Ok (World (upd (heap w) b (Block (words bl) false)) (objects w)) else UB
               | None => UB
               end
           | _ => UB
           end
  end.

(** ** std::vector *)

Definition set_fields (i : nat) (p : pointer) (n c : nat) (w : world) : world :=
  match object w i with Some v => set_object i (Some (Vec (cache v) p n c)) w | None => w end.

(** the range constructor, in an object whose buffer holds m *)
Definition construct (i : nat) (m : list cell) (xs : list cell) (w : world) : outcome world :=
  let w := set_object i (Some (Vec m Null 0 0)) w in
  let (p, w) := allocate i (length xs) w in
  obind (write p 0 xs w) (fun w => Ok (set_fields i p (length xs) (length xs) w)).

(** the copy constructor: the allocator is copied with its buffer (buffered_allocator.hpp:22) *)
Definition copy_construct (i : nat) (x : vec) (w : world) : outcome world :=
  let w := set_object i (Some (Vec (cache x) Null 0 0)) w in
  let (p, w) := allocate i (size x) w in
  obind (read w (start x) (size x)) (fun xs =>
  obind (write p 0 xs w) (fun w => Ok (set_fields i p (size x) (size x) w))).

(** vector.tcc:211-265, v at i being not the same object as x; the allocator does not propagate *)
Definition assign (sized : bool) (i : nat) (v x : vec) (w : world) : outcome world :=
  let xlen := size x in
  if capacity v <? xlen then
    let (tmp, w) := allocate i xlen w in
    obind (read w (start x) xlen) (fun xs =>
    obind (write tmp 0 xs w) (fun w =>
    obind (deallocate sized (start v) (capacity v) w) (fun w => Ok (set_fields i tmp xlen xlen w))))
  else
    obind (read w (start x) xlen) (fun xs =>
    obind (write (start v) 0 xs w) (fun w => Ok (set_fields i (start v) xlen (capacity v) w))).

(** stl_vector.h resize, vector.tcc:635-710 _M_default_append: the new elements first, then the old ones are relocated *)
Definition resize (sized : bool) (i n : nat) (v : vec) (w : world) : outcome world :=
  if n <=? size v then Ok (set_fields i (start v) n (capacity v) w)
  else
    let more := n - size v in
    if more <=? capacity v - size v then
      obind (write (start v) (size v) (repeat (Some 0) more) w) (fun w => Ok (set_fields i (start v) n (capacity v) w))
    else
      let len := size v + Nat.max (size v) more in
      let (p, w) := allocate i len w in
      obind (write p (size v) (repeat (Some 0) more) w) (fun w =>
      obind (read w (start v) (size v)) (fun xs =>
      obind (write p 0 xs w) (fun w =>
      obind (deallocate sized (start v) (capacity v) w) (fun w => Ok (set_fields i p n len w))))).

Definition destruct (sized : bool) (i : nat) (v : vec) (w : world) : outcome world :=
  obind (deallocate sized (start v) (capacity v) w) (fun w => Ok (set_object i None w)).

(** ** Tensors *)

(** tensor.hpp:291-295 shape() *)
Definition shape (w : world) (v : vec) : outcome (list cell) := read w (start v) (size v).

(** resize (335-343) and reshape (355-368) as far as the shape is concerned *)
Definition set_shape (sized : bool) (i : nat) (xs : list cell) (v : vec) (w : world) : outcome world :=
  obind (resize sized i (length xs) v w) (fun w =>
  match object w i with
  | Some v => write (start v) 0 xs w
  | None => UB
  end).

Inductive op :=
| Create (i : nat) (s : list nat)       (* the constructors of 58-106 *)
| Copy (i j : nat)                      (* 111-115, and 120-124: moving copies *)
| Assign (i j : nat)                    (* 129-147: moving copies *)
| Reshape (i : nat) (s : list nat)      (* resize, reshape *)
| Deep (i j : nat)                      (* 308-313 deep_copy() *)
| DeepInto (i j : nat)                  (* 301-306 deep_copy( other ) *)
| Destroy (i : nat).

Definition free_name (i : nat) (w : world) : bool := (i <? length (objects w)) && match object w i with None => true | Some _ => false end.

Definition step (sized : bool) (o : op) (w : world) : outcome world :=
  match o with
  | Create i s => if free_name i w then construct i (repeat None 32) (map Some s) w else Ok w
  | Copy i j => match object w j with Some x => if free_name i w then copy_construct i x w else Ok w | None => Ok w end
  | Assign i j => match object w i, object w j with Some v, Some x => if i =? j then Ok w else assign sized i v x w | _, _ => Ok w end
  | Reshape i s => match object w i with Some v => set_shape sized i (map Some s) v w | None => Ok w end
  | Deep i j => match object w j with Some x => if free_name i w then obind (shape w x) (fun xs => construct i (repeat None 32) xs w) else Ok w | None => Ok w end
  | DeepInto i j => match object w i, object w j with Some v, Some x => obind (shape w x) (fun xs => set_shape sized i xs v w) | _, _ => Ok w end
  | Destroy i => match object w i with Some v => destruct sized i v w | None => Ok w end
  end.

Fixpoint run (sized : bool) (os : list op) (w : world) : outcome world :=
  match os with [] => Ok w | o :: os => obind (step sized o w) (run sized os) end.

Definition begin (n : nat) : world := World [] (repeat None n).
