(** Model of training and evaluating a compiled model: model.hpp:94-138 (evaluate), 163-226 (fit), 246-258 (train_on_batch),
    345-359 (predict), and config.hpp's learning_phase.

    The world W is everything the session and the model consist of (variables, caches, optimiser); running the loss and running
    the optimiser are functions of the world, the learning phase and the two buffers bound to the placeholders, which they may
    overwrite.  Errors are real numbers; dividing by zero has no value ([None]; in floating point it is inf or nan).
    fit computes training_loops in floating point from validation_split; the model takes the number.  Simplification: standard output is
    not modelled. *)
From Coq Require Import List Arith ZArith Bool PeanoNat Reals.
From Verif Require Import ListBase TensorModel.
Import ListNotations.
Local Open Scope nat_scope.

Section Fit.
Context {E W : Type} (zero : E).
Local Notation buffers := (list E * list E)%type.
(** session::run( loss_ ).as_scalar() and session::run( compiled_optimizer_ ); session::run( expression_ ) *)
Variable loss : W -> Z -> buffers -> R * (W * buffers).
Variable optimise : W -> Z -> buffers -> W * buffers.

(** a data set: its shape and its elements *)
Local Notation dataset := (list nat * list E)%type.

Record state := State { world : W; phase : Z; bufs : buffers }.

(** std::copy_n( src + off, n, dst ) *)
Definition copy_n (src : list E) (off n : nat) (dst : list E) : outcome (list E) :=
  if (off + n <=? length src) && (n <=? length dst) then Ok (firstn n (skipn off src) ++ skipn n dst) else UB.

(** lines 127-128 and 204-205: feed batch l *)
Definition feed (x y : dataset) (nx ny l : nat) (s : state) : outcome state :=
  match copy_n (snd x) (l * nx) nx (fst (bufs s)) with
  | Ok bx => match copy_n (snd y) (l * ny) ny (snd (bufs s)) with
             | Ok by_ => Ok (State (world s) (phase s) (bx, by_))
             | _ => UB
             end
  | _ => UB
  end.

Definition run_loss (s : state) : R * state :=
  let (e, wb) := loss (world s) (phase s) (bufs s) in (e, State (fst wb) (phase s) (snd wb)).
Definition run_optimiser (s : state) : state :=
  let wb := optimise (world s) (phase s) (bufs s) in State (fst wb) (phase s) (snd wb).

(** the shape of a batch: lines 101-110, 171-183; shape()[0] of an empty shape is undefined *)
Definition batch_shape (s : list nat) (b : nat) : outcome (list nat) :=
  match s with [] => UB | _ :: r => Ok (b :: r) end.

(** lines 199-217: the batches l, l+1, ... of one epoch; the sums of the training and of the validation errors *)
Fixpoint epoch_loop (x y : dataset) (nx ny training l todo : nat) (te ve : R) (s : state) : outcome (R * R * state) :=
  match todo with
  | O => Ok (te, ve, s)
  | S todo =>
      match feed x y nx ny l s with
      | Ok s =>
          let (e, s) := run_loss s in
          if l <=? training then epoch_loop x y nx ny training (S l) todo (te + e)%R ve (run_optimiser s)
          else epoch_loop x y nx ny training (S l) todo te (ve + e)%R s
      | _ => UB
      end
  end.

Definition quotient (e : R) (n : nat) : option R := if n =? 0 then None else Some (e / INR n)%R.

(** lines 197-224 *)
Fixpoint epochs (x y : dataset) (nx ny loops training n : nat) (s : state) : outcome (list (option R) * list (option R) * state) :=
  match n with
  | O => Ok ([], [], s)
  | S n =>
      match epoch_loop x y nx ny training 0 loops 0%R 0%R s with
      | Ok (te, ve, s) =>
          match epochs x y nx ny loops training n s with
          | Ok (tes, ves, s) => Ok (quotient te training :: tes, quotient ve (loops - training) :: ves, s)
          | _ => UB
          end
      | _ => UB
      end
  end.

(** model.hpp:163-226.  [training] is training_loops, which the code computes as (1.0 - validation_split) * loops_per_epoch. *)
Definition fit (x y : dataset) (b n training : nat) (w : W) : outcome (list (option R) * list (option R) * state) :=
  match fst x with
  | [] => UB
  | samples :: _ =>
      if b =? 0 then UB
      else
        match batch_shape (fst x) b, batch_shape (fst y) b with
        | Ok bx, Ok by_ =>
            epochs x y (prod bx) (prod by_) (samples / b) training n
              (State w 1 (repeat zero (prod bx), repeat zero (prod by_)))
        | _, _ => UB
        end
  end.

(** lines 124-133 *)
Fixpoint evaluate_loop (x y : dataset) (nx ny l todo : nat) (ve : R) (s : state) : outcome (R * state) :=
  match todo with
  | O => Ok (ve, s)
  | S todo =>
      match feed x y nx ny l s with
      | Ok s => let (e, s) := run_loss s in evaluate_loop x y nx ny (S l) todo (ve + e)%R s
      | _ => UB
      end
  end.

(** model.hpp:94-138 *)
Definition evaluate (x y : dataset) (b : nat) (w : W) : outcome (option R * state) :=
  match fst x with
  | [] => UB
  | samples :: _ =>
      if b =? 0 then UB
      else
        match batch_shape (fst x) b, batch_shape (fst y) b with
        | Ok bx, Ok by_ =>
            match evaluate_loop x y (prod bx) (prod by_) 0 (samples / b) 0%R
                    (State w 0 (repeat zero (prod bx), repeat zero (prod by_))) with
            | Ok (ve, s) => Ok (quotient ve (samples / b), State (world s) 1 (bufs s))
            | _ => UB
            end
        | _, _ => UB
        end
  end.

(** model.hpp:246-258: the buffers are those of the caller's own tensors *)
Definition train_on_batch (x y : dataset) (w : W) : R * state :=
  let s := State w 1 (snd x, snd y) in
  let (e, s) := run_loss s in
  (e, run_optimiser s).

(** model.hpp:345-359 predict: [forward] is session::run( expression_ ); the buffer is that of the caller's own tensor *)
Definition predict {A} (forward : W -> Z -> list E -> A * (W * list E)) (x : dataset) (w : W) : A * (W * Z * list E) :=
  let (a, wb) := forward w 0%Z (snd x) in (a, (fst wb, 1%Z, snd wb)).

(** A user's program: calls on a compiled model and assignments to learning_phase.  The process: the world and learning_phase. *)
Inductive call :=
| Fit (x y : dataset) (b n training : nat)
| Evaluate (x y : dataset) (b : nat)
| Train (x y : dataset)
| Predict (x : dataset)
| Set_phase (z : Z).

Definition perform {A} (forward : W -> Z -> list E -> A * (W * list E)) (p : W * Z) (c : call) : outcome (W * Z) :=
  match c with
  | Fit x y b n training => match fit x y b n training (fst p) with Ok (_, _, s) => Ok (world s, phase s) | Abort => Abort | UB => UB end
  | Evaluate x y b => match evaluate x y b (fst p) with Ok (_, s) => Ok (world s, phase s) | Abort => Abort | UB => UB end
  | Train x y => let (_, s) := train_on_batch x y (fst p) in Ok (world s, phase s)
  | Predict x => let (_, r) := predict forward x (fst p) in Ok (fst (fst r), snd (fst r))
  | Set_phase z => Ok (fst p, z)
  end.

Fixpoint performs {A} (forward : W -> Z -> list E -> A * (W * list E)) (p : W * Z) (cs : list call) : outcome (W * Z) :=
  match cs with
  | [] => Ok p
  | c :: cs => match perform forward p c with Ok p => performs forward p cs | Abort => Abort | UB => UB end
  end.

End Fit.
