(** Model of layer.hpp: layers make expressions, with new variables sized by the shape that the expression below announces
    (DeclModel.v); general_conv2d and conv2d_transpose (operation.hpp:1711-1760, 1851-1881).

    Simplifications: a program that builds a network is a list of instructions, each applying a layer to expressions made before (so that
    an expression can be used more than once).  Initial values and regularisers of variables do not matter for shapes and are left out; a
    variable too large to be allocated aborts.  Layers not modelled: BatchNormalization, Dropout, the deprecated Conv2D with an input shape. *)
From Coq Require Import List Arith Bool PeanoNat NArith ZArith Reals.
From Verif Require Import ListBase TensorModel ArrayModel LayerModel DeclModel.
Import ListNotations.
Local Open Scope N_scope.

(** the string given as padding: "valid", "same" or anything else *)
Inductive padding := PValid | PSame | POther.

Inductive layer1 :=
| Dense (out : nat)                                                          (* layer.hpp:235-246 *)
| Conv2D (out kx ky : nat) (p : padding) (sx sy dx dy : nat)                 (* 99-122 *)
| Conv1D (out kernel stride : nat) (p : padding) (dilation : nat)            (* 124-136 *)
| Conv2DTranspose (out kx ky : nat) (p : padding) (sx sy dx dy : nat)        (* 161-183 *)
| Activation (f : R -> R)                                                    (* 402-436 ReLU, LeakyReLU, ELU *)
| SoftmaxLayer                                                               (* 410-416 *)
| ReshapeLayer (new_shape : list nat) (batch : bool)                         (* 441-444 *)
| FlattenLayer                                                               (* 449-455 *)
| MaxPooling2D (stride : nat) | UpSampling2D (stride : nat) | AveragePooling2D (stride : nat).   (* 460-488 *)

Inductive layer2 :=
| Concatenate (axis : option nat)                                            (* 329-335 *)
| Add | Subtract | Multiply.                                                 (* 349-396 *)

(** the expressions made so far, the input first, and the shapes of the variables: [Leaf 0] is the input, [Leaf (S k)] variable k *)
Record net := Net { nodes : list ex; params : list (list nat) }.

(** what the leaves announce *)
Definition leaves (input : list N) (ps : list (list nat)) (n : nat) : list N :=
  match n with 0%nat => input | S k => map N.of_nat (nth k ps []) end.

(** a variable with a new tensor of this shape *)
Definition new_variable (s : list N) : outcome (list nat) :=
  if fold_left N.mul s 1 <? 9223372036854775808 then Ok (map N.to_nat s) else Abort.

(** operation.hpp:1736-1742: the padding for "same" *)
Definition pad_amount (p : padding) (kernel stride dilation : nat) : N :=
  match p with
  | PSame => wrap (N.of_nat kernel mod 2 + wsub (wrap (N.of_nat kernel + wrap (wsub (N.of_nat kernel) 1 * wsub (N.of_nat dilation) 1))) (N.of_nat stride)) / 2
  | _ => 0
  end.

(** operation.hpp:1711-1760 general_conv2d; [es], [ws] are the shapes that lhs_ex and rhs_ex announce; the columns are computed with the
    ROW padding (1745) *)
Definition general_conv2d (dbg : bool) (p : padding) (sx sy dx dy : nat) (e : ex) (es : list N) (w : ex) (ws : list N) : outcome ex :=
  check dbg (length es =? 4)%nat
  match es with
  | _ :: row_input :: col_input :: _ :: _ =>
      check dbg (length ws =? 4)%nat
      match ws with
      | nc :: kr :: kc :: ch :: _ =>
          let kx := N.to_nat kr in
          let ky := N.to_nat kc in
          let row_padding := N.to_nat (pad_amount p kx sx dx) in
          let col_padding := N.to_nat (pad_amount p ky sy dy) in
          obind (col_extent row_input row_padding kx sx dx) (fun row_output =>
          obind (col_extent col_input row_padding ky sy dy) (fun col_output =>
            let as_col := Un (Img2col (Conv kx ky row_padding col_padding sx sy dx dy)) e in
            let flat := Un (Reshape [N.to_nat (wrap (wrap (kr * kc) * ch))] true) w in
            Ok (Un (Reshape [N.to_nat row_output; N.to_nat col_output; N.to_nat nc] true) (Un Transpose (Bin Matmul flat as_col)))))
      | _ => UB
      end
  | _ => UB
  end.

(** the last announced extent, *(ex.shape().rbegin()); of an empty shape undefined *)
Definition last_extent (s : list N) : outcome N := match rev s with [] => UB | n :: _ => Ok n end.

(** layer.hpp:107-121 the inner function of Conv2D, on an expression [e] and the variables made so far *)
Definition conv_layer (dbg : bool) (input : list N) (out kx ky : nat) (p : padding) (sx sy dx dy : nat) (e : ex) (ps : list (list nat)) : outcome (ex * list (list nat)) :=
  check dbg (0 <? out)%nat (
  obind (announced dbg (leaves input ps) e) (fun es =>
  obind (last_extent es) (fun ch =>
  obind (new_variable [N.of_nat out; N.of_nat kx; N.of_nat ky; ch]) (fun ws =>
  obind (new_variable [1; 1; N.of_nat out]) (fun bs =>
  obind (general_conv2d dbg p sx sy dx dy e es (Leaf (S (length ps))) (map N.of_nat ws)) (fun conv =>
  Ok (Bin Plus conv (Leaf (S (S (length ps)))), ps ++ [ws; bs]))))))).

Definition apply1 (dbg : bool) (input : list N) (l : layer1) (e : ex) (ps : list (list nat)) : outcome (ex * list (list nat)) :=
  match l with
  | Dense out =>
      obind (announced dbg (leaves input ps) e) (fun es =>
      check dbg (1 <=? length es)%nat (
      obind (last_extent es) (fun input_size =>
      obind (new_variable [input_size; N.of_nat out]) (fun ws =>
      obind (new_variable [1; N.of_nat out]) (fun bs =>
      Ok (Bin Plus (Bin Matmul e (Leaf (S (length ps)))) (Leaf (S (S (length ps)))), ps ++ [ws; bs]))))))
  | Conv2D out kx ky p sx sy dx dy => conv_layer dbg input out kx ky p sx sy dx dy e ps
  | Conv1D out kernel stride p dilation =>
      obind (conv_layer dbg input out kernel 1 p stride 1 dilation 1 (Un (ExpandDims (Some 2%nat)) e) ps) (fun r =>
      Ok (Un (Squeeze (Some 2%nat)) (fst r), snd r))
  | Conv2DTranspose out kx ky p sx sy dx dy =>
      check dbg (0 <? out)%nat (
      obind (announced dbg (leaves input ps) e) (fun es =>
      obind (last_extent es) (fun ch =>
      obind (new_variable [N.of_nat out; N.of_nat kx; N.of_nat ky; ch]) (fun ws =>
      obind (new_variable [1; 1; N.of_nat out]) (fun bs =>
      let ps' := ps ++ [ws; bs] in
      let spread := Un (Spread kx ky sx sy (match p with PValid => true | _ => false end)) e in
      let w := Un (Flip 1) (Un (Flip 2) (Leaf (S (length ps)))) in
      obind (announced dbg (leaves input ps') spread) (fun es' =>
      obind (announced dbg (leaves input ps') w) (fun ws' =>
      obind (general_conv2d dbg p sx sy dx dy spread es' w ws') (fun conv =>
      Ok (Bin Plus conv (Leaf (S (S (length ps)))), ps')))))))))
  | Activation f => Ok (Un (Map f) e, ps)
  | SoftmaxLayer => Ok (Un Softmax e, ps)
  | ReshapeLayer new_shape batch => Ok (Un (Reshape new_shape batch) e, ps)
  | FlattenLayer => Ok (Un Flatten e, ps)
  | MaxPooling2D n => Ok (Un (MaxPool n) e, ps)
  | UpSampling2D n => Ok (Un (UpSample n) e, ps)
  | AveragePooling2D n => Ok (Un (AvgPool n) e, ps)
  end.

(** l - r is l + ( -r ) (operation.hpp:1007-1021) *)
Definition apply2 (l : layer2) (a b : ex) : ex :=
  match l with
  | Concatenate axis => Bin (Concat axis) a b
  | Add => Bin Plus a b
  | Subtract => Bin Plus a (Un (Map Ropp) b)
  | Multiply => Bin Product a b
  end.

(** ** Programs *)

Inductive instr :=
| Apply1 (l : layer1) (i : nat)          (* a layer on expression i *)
| Apply2 (l : layer2) (i j : nat).

Definition step (dbg : bool) (input : list N) (n : net) (c : instr) : outcome net :=
  match c with
  | Apply1 l i =>
      match nth_error (nodes n) i with
      | Some e => obind (apply1 dbg input l e (params n)) (fun r => Ok (Net (nodes n ++ [fst r]) (snd r)))
      | None => UB
      end
  | Apply2 l i j =>
      match nth_error (nodes n) i, nth_error (nodes n) j with
      | Some a, Some b => Ok (Net (nodes n ++ [apply2 l a b]) (params n))
      | _, _ => UB
      end
  end.

Fixpoint steps (dbg : bool) (input : list N) (n : net) (p : list instr) : outcome net :=
  match p with [] => Ok n | c :: p => obind (step dbg input n c) (fun n => steps dbg input n p) end.

(** Input( given ), then the layers; layer.hpp:17-20 *)
Definition build (dbg : bool) (given : list N) (p : list instr) : outcome net :=
  obind (hint given) (fun input => steps dbg input (Net [Leaf 0] []) p).
