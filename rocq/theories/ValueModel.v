(** Model of a run of a network: like evaluation in DeclModel.v, but with the one epsilon of softmax and with what earlier runs really leave in
    the operators.

    Simplifications: the operators that keep a buffer keep it between runs and between the uses of one expression; only the index
    table of img2col decides about results, and it is one of those that runs of this operator on images of one size, in batches of any size,
    leave (operation.hpp:1545-1606).  The buffers of the other operators are arbitrary (forward1).  Layers make no single values. *)
From Coq Require Import List Arith Bool PeanoNat ZArith Reals.
From Verif Require Import ListBase TensorModel ArrayModel LayerModel DeclModel.
Import ListNotations.

(** the tables that an img2col operator can hold, used on images of shape s only *)
Inductive table_of (a : conv_args) (s : list nat) : list Z -> Prop :=
| tb_new : table_of a s []                                                                  (* 1539-1543 *)
| tb_run dbg t x t' y : table_of a s t -> tl (ashape x) = s -> img2col_fwd 0%R dbg a t x = Ok (t', y) -> table_of a s t'.

(** tensor.tcc:1081 the epsilon of softmax is the parameter eps (config.hpp) *)
Definition run1 (dbg : bool) (eps : R) (o : op1) (x y : arr R) : Prop :=
  match o with
  | Softmax => softmax dbg eps x = Ok y
  | Img2col a => exists t t', table_of a (tl (ashape x)) t /\ img2col_fwd 0%R dbg a t x = Ok (t', y)
  | _ => forward1 dbg o x y
  end.

(** operation.hpp:75-87, 168-195: the operands first *)
Inductive computes (dbg : bool) (eps : R) (leaf : nat -> arr R) : ex -> arr R -> Prop :=
| co_leaf n : computes dbg eps leaf (Leaf n) (leaf n)
| co_un o e x y : computes dbg eps leaf e x -> run1 dbg eps o x y -> computes dbg eps leaf (Un o e) y
| co_bin o l r x y z : computes dbg eps leaf l x -> computes dbg eps leaf r y -> forward2 dbg o x y z -> computes dbg eps leaf (Bin o l r) z.

Lemma run1_forward1 dbg eps o x y : run1 dbg eps o x y -> forward1 dbg o x y.
Proof. destruct o; cbn [run1 forward1]; eauto. intros (t & t' & _ & H). eauto. Qed.

Lemma computes_evaluates dbg eps leaf e y : computes dbg eps leaf e y -> evaluates dbg leaf e y.
Proof. induction 1 as [n|o e x y _ IH F|o l r x y z _ IHl _ IHr F]; [constructor| |]; econstructor; eauto using run1_forward1. Qed.
