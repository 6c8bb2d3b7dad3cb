(** Model of compiled_model::fit (model.hpp:163-226) over the state of the graph (GraphModel.v) and the optimiser (OptModel.v): FitModel.v
    with session::run( loss_ ) and session::run( compiled_optimizer_ ) not left open, and with the two tensors that fit binds once and
    overwrites for every batch.

    Simplifications: elements are real numbers, and dividing by no loops has no value ([None]); training_loops, which the code computes
    in floating point from validation_split, is given; standard output is not modelled. *)
From Coq Require Import List Arith Bool PeanoNat Reals.
From Verif Require Import ListBase TensorModel GraphModel CalcSpec OptModel FitModel.
Import ListNotations.
Local Open Scope nat_scope.

Section Epoch.
Variables (dbg : bool) (eps : R).

(** std::copy_n( src + off, n, t.data() ): lines 204-205 *)
Definition refill (t : tensor) (src : list R) (off n : nat) : O unit :=
  fun w => match nth_error (hp (gr w)) (ref t) with
           | Some d => match copy_n src off n d with
                       | Ok d' => Ok (tt, W (set_hp (gr w) (upd (hp (gr w)) (ref t) d')) (ctx w))
                       | _ => UB
                       end
           | None => UB
           end.

(** tensor.hpp:467-471 as_scalar; begin() of an empty tensor must not be read *)
Definition scalar (t : tensor) : O R :=
  fun w => if dbg && negb (prod (shape t) =? 1) then Abort
           else match nth_error (hp (gr w)) (ref t) with Some (v :: _) => Ok (v, w) | _ => UB end.

(** session::run( loss_ ).as_scalar(): line 207; session.hpp:58-63 *)
Definition run_loss (e : expr R) : O R :=
  do y <- on_graph (run 0%R 1%R Rplus Rmult dbg e);
  do _ <- on_graph (modify (fun s => set_cache s (fun _ => None)));
  scalar y.

(** lines 201-219: the batches l, l+1, ... of one epoch *)
Fixpoint loop (sess : list (nat * bool)) (e : expr R) (tx ty : tensor) (x y : list R) (nx ny training l todo : nat) (te ve : R) (o : opt) : O (R * R * opt) :=
  match todo with
  | 0 => oret (te, ve, o)
  | S todo =>
      do _ <- refill tx x (l * nx) nx;
      do _ <- refill ty y (l * ny) ny;
      do v <- run_loss e;
      if l <=? training then
        do o' <- step dbg eps sess e o;
        loop sess e tx ty x y nx ny training (S l) todo (te + v)%R ve o'
      else loop sess e tx ty x y nx ny training (S l) todo te (ve + v)%R o
  end.

(** lines 197-224 *)
Fixpoint epochs (sess : list (nat * bool)) (e : expr R) (tx ty : tensor) (x y : list R) (nx ny loops training n : nat) (o : opt) : O (list (option R) * list (option R) * opt) :=
  match n with
  | 0 => oret ([], [], o)
  | S n =>
      do r <- loop sess e tx ty x y nx ny training 0 loops 0%R 0%R o;
      do rest <- epochs sess e tx ty x y nx ny loops training n (snd r);
      oret (quotient (fst (fst r)) training :: fst (fst rest), quotient (snd (fst r)) (loops - training) :: snd (fst rest), snd rest)
  end.

(** a tensor of zeros of this shape, bound to place holder p: lines 172-190; session.hpp:44-49 *)
Definition new_bound (p : nat) (sh : list nat) : O tensor :=
  do t <- on_graph (new_tensor (sh, repeat 0%R (prod sh)));
  do _ <- on_graph (modify (fun s => set_holders s (fupd (holders s) p (Some t))));
  oret t.

(** model.hpp:163-226; input_place_holder_ is place holder 0 and ground_truth_place_holder_ is p.  The code makes both tensors and then
    binds both; *( inputs.shape().begin() ) and batch_input_shape[0] of an empty shape are undefined, as is dividing by a batch size of 0. *)
Definition fit (sess : list (nat * bool)) (e : expr R) (p : nat) (x y : val R) (b n training : nat) (o : opt) : O (list (option R) * list (option R) * opt) :=
  match fst x, fst y with
  | samples :: s, _ :: t =>
      if b =? 0 then (fun _ => UB)
      else
        do tx <- new_bound 0 (b :: s);
        do ty <- new_bound p (b :: t);
        do _ <- on_graph (modify (fun s => set_training s true));
        epochs sess e tx ty (snd x) (snd y) (prod (b :: s)) (prod (b :: t)) (samples / b) training n o
  | _, _ => fun _ => UB
  end.

End Epoch.
