(** Model of a network as a graph that can be trained: the expressions that layers make (NetModel.v), with the operators' backward actions,
    as expressions of GraphModel.v.

    Simplifications: every operator of an expression is an object of its own (the model is of networks in which each layer's result is used
    once: of chains of layers); the operators get numbers in the order in which they occur.  [Leaf 0] is the place holder 0 and [Leaf (S k)]
    the variable k.  Operators run with their assertions on.  The index table of img2col is the one that a first run on the present input
    makes (ValueProofs2.v shows that the results are those of any table it can hold).  Softmax, max pooling and all operators that layers do
    not use have no value in this model. *)
From Coq Require Import List Arith Bool PeanoNat ZArith Reals.
From Verif Require Import ListBase TensorModel ArrayModel LayerModel GraphModel OpModel DeclModel.
Import ListNotations.
Local Open Scope nat_scope.

(** an operator that this model leaves out *)
Definition unknown_op : uop R := UView (fun _ => None).

(** reshape (operation.hpp:1115-1150), flatten (1199-1213), expand_dims (1237-1256), squeeze (1283-1289; tensor.tcc:810-823): the
    result shares the elements of the input, the outgoing gradient those of the incoming one *)
Definition op_reshape (new_shape : list nat) : uop R :=
  UView (fun s => if (prod new_shape =? 0) || negb (prod s / prod new_shape * prod new_shape =? prod s) then None else Some (prod s / prod new_shape :: new_shape)).
Definition op_flatten : uop R :=
  UView (fun s => match s with b :: _ :: _ => if b =? 0 then None else Some [b; prod s / b] | _ => None end).
Definition op_expand_dims (axis : nat) : uop R :=
  UView (fun s => if length s <? axis then None else Some (firstn axis s ++ 1 :: skipn axis s)).
Definition op_squeeze (axis : nat) : uop R :=
  UView (fun s => if (axis <? length s) && (nth axis s 0 =? 1) then
                    match firstn axis s ++ skipn (S axis) s with [] => None | t => Some t end
                  else None).

(** transpose: operation.hpp:1471-1513, buffers of its own for the result and the gradient *)
Definition op_transpose : uop R :=
  op_layer true IntoOwn (fun x => obind (transpose_op 0%R true [] x) (fun p => Ok (snd p))) (fun _ g => obind (transpose_op 0%R true [] g) (fun p => Ok (snd p))).

(** img2col: operation.hpp:1534-1642; the backward action uses the table of the forward action *)
Definition op_img2col (a : conv_args) : uop R :=
  op_layer true IntoOwn
    (fun x => obind (img2col_fwd 0%R true a [] x) (fun p => Ok (snd p)))
    (fun x g => obind (img2col_fwd 0%R true a [] x) (fun p => img2col_bwd 0%R Rplus (fst p) x g)).

(** flip: operation.hpp:1432-1466, the backward action flips the gradient; the cached tensors take the operand's shape *)
Definition op_flip (axis : Z) : uop R :=
  op_layer true IntoOwn (fun x => obind (flip 0%R true x axis) (fun p => Ok (snd p))) (fun _ g => obind (flip 0%R true g axis) (fun p => Ok (snd p))).

(** conv2d_transpose_intermediate: operation.hpp:1765-1842 *)
Definition op_spread (rk ck rs cs : nat) (valid_padding : bool) : uop R :=
  op_layer true IntoOwn (spread_fwd 0%R true rk ck rs cs valid_padding) (spread_bwd 0%R rk ck rs cs valid_padding).

(** average_pooling_2d: operation.hpp:2074-2122; up_sampling_2d: 2141-2206 *)
Definition op_average_pooling (n : nat) : uop R :=
  op_layer true IntoOwn (avg_fwd 0%R true Rplus Rmult (/ (INR n * INR n))%R n) (avg_bwd 0%R Rmult (/ (INR n * INR n))%R n).
Definition op_up_sampling (n : nat) : uop R := op_layer true IntoOwn (up_fwd 0%R true n) (up_bwd 0%R Rplus n).

Section Graph.
(** the operator that applies a function to every element *)
Variable act : (R -> R) -> uop R.

Definition graph1 (o : op1) : uop R :=
  match o with
  | Map f => act f
  | Reshape new_shape true => op_reshape new_shape
  | Flatten => op_flatten
  | ExpandDims (Some axis) => op_expand_dims axis
  | Squeeze (Some axis) => op_squeeze axis
  | Transpose => op_transpose
  | Img2col a => op_img2col a
  | Flip axis => op_flip axis
  | Spread rk ck rs cs v => op_spread rk ck rs cs v
  | AvgPool n => op_average_pooling n
  | UpSample n => op_up_sampling n
  | _ => unknown_op
  end.

(** operator * on two expressions (operation.hpp:586-657) and operator + (420-447) *)
Definition graph2 (o : DeclModel.op2) : bop R :=
  match o with
  | Plus => BPlus
  | Matmul => op_matmul
  | _ => BNew false (fun _ _ => None) false (fun _ _ _ _ => None)
  end.

(** how many operators *)
Fixpoint ops (e : ex) : nat :=
  match e with Leaf _ | Value _ => 0 | Un _ x => S (ops x) | Bin _ l r => S (ops l + ops r) end.

(** the operators get the numbers n, n + 1, ... *)
Fixpoint graph (n : nat) (e : ex) : expr R :=
  match e with
  | Leaf 0 => EHold 0
  | Leaf (S k) => EVar k
  | Value c => EVal c
  | Un o x => EUn n (graph1 o) (graph (S n) x)
  | Bin o l r => EBin n (graph2 o) (graph (S n) l) (graph (S n + ops l) r)
  end.
End Graph.
