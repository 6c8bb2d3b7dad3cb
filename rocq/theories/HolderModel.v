(** Model of node identifiers and placeholders: utils/id.hpp:11-45 (generate_uid, enable_id), place_holder.hpp:16-125 and the part of
    session.hpp that concerns them (bind, rebind, remember, the destructor; lines 36-66 and 175-182).

    A program is a list of events.  Objects of type place_holder are numbered in the order in which they are made; moved-from
    objects are not used any more, so a move is a copy.  [T] is the type of tensors: only whether a tensor is empty and its shape matter
    here.  Everything else that takes an identifier (variables, operators, constants) is the event [Other]. *)
From Coq Require Import List Arith NArith ZArith Bool PeanoNat.
From Verif Require Import ListBase TensorModel.
Import ListNotations.
Local Open Scope nat_scope.

Section Holder.
Context {T : Type} (t_empty : T -> bool) (t_shape : T -> list N) (none : T).   (* none: a default-constructed tensor *)
Variable dbg : bool.

(** place_holder.hpp:16-21 place_holder_state; the hint is a list of unsigned long, -1UL being 2^64 - 1 *)
Record hstate := HState { data_ : T; hint_ : list N }.
Definition minus_one : N := (2 ^ 64 - 1)%N.

(** a place_holder object: its identifier and its shared state *)
Record handle := Handle { id_ : Z; state_ : nat }.

Record world := World {
  next : Z;                    (* id_generator.value_ *)
  handles : list handle;
  states : list hstate;
  recorded : list handle       (* session::place_holders_ *)
}.
Definition start : world := World 0 [] [] [].

Inductive event :=
| Other                              (* some other node is constructed *)
| New (hint : option (list N))       (* place_holder(), place_holder( shape_hint ) *)
| Copy (i : nat)                     (* copy constructor *)
| Assign (i j : nat)                 (* object i = object j *)
| Rebind (i : nat) (x : T)           (* session::rebind, or bind of the holder itself *)
| Bind (i : nat) (x : T)             (* session::bind *)
| Reset (i : nat)
| Hint (i : nat) (s : list N)        (* shape( shape_hint ) *)
| Close.                             (* session::~session *)

(** id.hpp:21-27.  Counting past the largest int is undefined. *)
Definition generate_uid (w : world) : outcome (Z * world) :=
  if (next w =? 2 ^ 31 - 1)%Z then UB
  else Ok (next w, World (next w + 1) (handles w) (states w) (recorded w)).

Definition set_state (w : world) (k : nat) (s : hstate) : world := World (next w) (handles w) (upd (states w) k s) (recorded w).

(** place_holder.hpp:35-51 the constructors; shape_hint[0] of an empty vector is undefined *)
Definition construct (w : world) (hint : option (list N)) : outcome world :=
  match hint with
  | Some [] => UB
  | _ =>
      match generate_uid w with
      | Ok (i, w) =>
          let h := match hint with
                   | None => [minus_one]
                   | Some l => if (hd 0 l =? minus_one)%N then l else 1%N :: l
                   end in
          Ok (World (next w) (handles w ++ [Handle i (length (states w))]) (states w ++ [HState none h]) (recorded w))
      | _ => UB
      end
  end.

(** place_holder.hpp:53-58 *)
Definition bind_to (w : world) (h : handle) (x : T) : world := set_state w (state_ h) (HState x (t_shape x)).
(** place_holder.hpp:67-71 *)
Definition reset_it (w : world) (h : handle) : world := set_state w (state_ h) (HState none [minus_one]).

Definition step (w : world) (e : event) : outcome world :=
  match e with
  | Other => match generate_uid w with Ok (_, w) => Ok w | _ => UB end
  | New hint => construct w hint
  | Copy i => match nth_error (handles w) i with Some h => Ok (World (next w) (handles w ++ [h]) (states w) (recorded w)) | None => UB end
  | Assign i j => match nth_error (handles w) i, nth_error (handles w) j with
                  | Some _, Some h => Ok (World (next w) (upd (handles w) i h) (states w) (recorded w))
                  | _, _ => UB
                  end
  | Rebind i x => match nth_error (handles w) i with Some h => Ok (bind_to w h x) | None => UB end
  | Bind i x => match nth_error (handles w) i with
                | Some h => let w := bind_to w h x in Ok (World (next w) (handles w) (states w) (recorded w ++ [h]))
                | None => UB
                end
  | Reset i => match nth_error (handles w) i with Some h => Ok (reset_it w h) | None => UB end
  | Hint i s => match nth_error (handles w) i with
                | Some h => match nth_error (states w) (state_ h) with
                            | Some st => Ok (set_state w (state_ h) (HState (data_ st) s))
                            | None => UB
                            end
                | None => UB
                end
  | Close => let w := fold_left reset_it (recorded w) w in Ok (World (next w) (handles w) (states w) [])
  end.

Fixpoint run (w : world) (es : list event) : outcome world :=
  match es with
  | [] => Ok w
  | e :: es => match step w e with Ok w => run w es | Abort => Abort | UB => UB end
  end.

(** place_holder.hpp:60-65 *)
Definition forward (w : world) (i : nat) : outcome T :=
  match nth_error (handles w) i with
  | Some h => match nth_error (states w) (state_ h) with
              | Some s => if dbg && t_empty (data_ s) then Abort else Ok (data_ s)
              | None => UB
              end
  | None => UB
  end.

(** place_holder.hpp:80-86 *)
Definition shape (w : world) (i : nat) : outcome (list N) :=
  match nth_error (handles w) i with
  | Some h => match nth_error (states w) (state_ h) with
              | Some s => Ok (if negb (t_empty (data_ s)) then t_shape (data_ s) else hint_ s)
              | None => UB
              end
  | None => UB
  end.

End Holder.

(** place_holder.hpp:99-133 the comparisons *)
Definition holder_eq (a b : handle) : bool := (id_ a =? id_ b)%Z.
Definition holder_ne (a b : handle) : bool := negb (id_ a =? id_ b)%Z.
Definition holder_lt (a b : handle) : bool := (id_ a <? id_ b)%Z.
Definition holder_gt (a b : handle) : bool := (id_ a <? id_ b)%Z.
Definition holder_le (a b : handle) : bool := (id_ a <=? id_ b)%Z.
Definition holder_ge (a b : handle) : bool := (id_ b <=? id_ a)%Z.

(** session.hpp:61-66 remember, V being the type of variables *)
Definition remember {V} (vid : V -> nat) (m : list (nat * V)) (v : V) : list (nat * V) :=
  if existsb (fun e => fst e =? vid v) m then m else m ++ [(vid v, v)].
