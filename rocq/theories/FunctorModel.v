(** Model of what happens when one layer object is applied in several places (include/operation.hpp).

    A layer that keeps its result in a buffer is a function object returned by a factory:
    [auto pool = max_pooling_2d( 2 ); auto y = pool( x );].  The factories broadcast (464), argmax (1329), img2col (1525),
    drop_out (1883), max_pooling_2d (2039-2068), average_pooling_2d (2070-2150), up_sampling_2d (2212),
    normalization_batch (2245), zero_padding_2d (2824), cropping_2d (2949), sliding_2d (3088), repeat (3185), reduce_min
    (3319), reduce_max (3454) and reduce_sum (3571) create the buffer ([forward_cache]) once, outside the function object, so
    every expression made from ONE function object writes its result to the SAME buffer.

    The buffer of a function object is a tensor (utils/context_cast.hpp:9-18); forward resizes it
    (tensor.hpp:335-345: the shared vector is resized when the size differs, which destroys what was in it), fills it and
    returns a copy that shares the storage (operation.hpp:1963-2004 for max_pooling_2d; the others alike).

    Simplifications: an expression is a tree (a sub-expression that is mentioned twice is not shared, hence the session's
    forward cache is never hit, C25 has that); an action is a function from the input's value to the result's value, plus a
    function telling what the same loop leaves when its input and its buffer are the same storage of the same size; the
    other buffers of a layer (mask, backward_cache) are left out; storages that nobody refers to stay in the heap. *)
From Coq Require Import List Arith Lia Bool PeanoNat.
From Verif Require Import ListBase TensorModel.
Import ListNotations.
Local Open Scope nat_scope.

Section Functor.
Context {A : Type}.

(** what a tensor shows: its shape and its elements *)
Definition val := (list nat * list A)%type.

(** forward action of a layer; [None]: the action is undefined on this input *)
Record action := Action {
  act : val -> option val;                  (* the result, when the input does not lie in the buffer *)
  inplace : val -> option (list A) }.       (* what the loop leaves in the buffer when the input lies in it and the
                                               size does not change *)

(** expressions: an operand with a storage of its own (variable, constant), layer object number [k] applied to an
    expression (operation.hpp:2049-2066), a binary operator with a new result (operation.hpp:139-245, e.g. plus, multiply) *)
Inductive ex :=
| In (t : tensor)
| Un (k : nat) (o : action) (e : ex)
| Bin (g : val -> val -> option val) (l r : ex).

Record st := St {
  hp : list (list A);                        (* storages *)
  buf : nat -> option tensor;                (* forward_cache of every layer object; None: still without value *)
  saved : list (list tensor * tensor) }.     (* input_data_ and output_data_ of the operator objects (operation.hpp:70-71,
                                                161-163), in the order of their forward calls *)

Definition show (h : list (list A)) (t : tensor) : val := (shape t, nth (ref t) h []).

Definition set_buf (b : nat -> option tensor) (k : nat) (t : tensor) : nat -> option tensor :=
  fun i => if i =? k then Some t else b i.

(** the forward action of a layer (operation.hpp:1963-2004): context_cast, resize, loop, return *)
Definition un_step (k : nat) (o : action) (i : tensor) (s : st) : outcome (tensor * st) :=
  match act o (show (hp s) i) with
  | None => UB
  | Some v =>
      match buf s k with
      | None =>                                             (* context_cast.hpp:14-15: first use, a new tensor *)
          let t := mkT (fst v) (length (hp s)) in
          Ok (t, St (hp s ++ [snd v]) (set_buf (buf s) k t) (saved s))
      | Some b =>
          let t := mkT (fst v) (ref b) in
          if ref b =? ref i
          then if length (nth (ref b) (hp s) []) =? length (snd v)
               then match inplace o (show (hp s) i) with
                    | None => UB
                    | Some d => Ok (t, St (upd (hp s) (ref b) d) (set_buf (buf s) k t) (saved s))
                    end
               else UB                                      (* resize has freed the input's block: vector.hpp resize *)
          else Ok (t, St (upd (hp s) (ref b) (snd v)) (set_buf (buf s) k t) (saved s))
      end
  end.

Definition save (x : list tensor * tensor) (s : st) : st := St (hp s) (buf s) (saved s ++ [x]).

(** unary_operator::forward (operation.hpp:75-88), binary_operator::forward (operation.hpp:168-197: the left operand first, neither operand a value)
    on a tree *)
Fixpoint forward (e : ex) (s : st) : outcome (tensor * st) :=
  match e with
  | In t => Ok (t, s)
  | Un k o e1 =>
      match forward e1 s with
      | Ok (i, s1) =>
          match un_step k o i s1 with
          | Ok (t, s2) => Ok (t, save ([i], t) s2)
          | Abort => Abort
          | UB => UB
          end
      | Abort => Abort
      | UB => UB
      end
  | Bin g l r =>
      match forward l s with
      | Ok (tl, s1) =>
          match forward r s1 with
          | Ok (tr, s2) =>
              match g (show (hp s2) tl) (show (hp s2) tr) with
              | None => UB
              | Some v =>
                  let t := mkT (fst v) (length (hp s2)) in
                  Ok (t, save ([tl; tr], t) (St (hp s2 ++ [snd v]) (buf s2) (saved s2)))
              end
          | Abort => Abort
          | UB => UB
          end
      | Abort => Abort
      | UB => UB
      end
  end.

End Functor.
Arguments action : clear implicits.
Arguments ex : clear implicits.
Arguments st : clear implicits.
Arguments val : clear implicits.
