(** Which networks are well formed: the shapes of one batch element, layer by layer. *)
From Coq Require Import List Arith PeanoNat Reals.
From Verif Require Import ListBase ArrayModel NetModel.
Import ListNotations.
Local Open Scope nat_scope.

(** extents of at least one, at most [m] elements *)
Definition within (m : nat) (t : list nat) : Prop := t <> [] /\ Forall (fun n => 1 <= n) t /\ prod t <= m.

(** a kernel moved over n pixels, with [pad] more on both sides, comes to m positions *)
Definition window (n pad kernel stride dilation m : nat) : Prop :=
  1 <= kernel /\ 1 <= stride /\ dilation * (kernel - 1) + 1 <= n + 2 * pad /\ m = (n + 2 * pad - (dilation * (kernel - 1) + 1)) / stride + 1.

(** the padding that "valid" and "same" stand for *)
Definition pads (p : padding) (kernel stride dilation amount : nat) : Prop :=
  match p with
  | PSame => 1 <= dilation /\ stride <= kernel + (kernel - 1) * (dilation - 1) /\
             amount = (kernel mod 2 + (kernel + (kernel - 1) * (dilation - 1) - stride)) / 2
  | _ => amount = 0
  end.

(** a convolution, with the SAME padding of rows and columns; all matrices on the way are not too large *)
Definition convolves (m out kx ky : nat) (p : padding) (sx sy dx dy : nat) (t t' : list nat) : Prop :=
  exists r c ch ro co pad, t = [r; c; ch] /\ t' = [ro; co; out] /\
    pads p kx sx dx pad /\ pads p ky sy dy pad /\ window r pad kx sx dx ro /\ window c pad ky sy dy co /\
    1 <= out /\ dx * kx <= m /\ dy * ky <= m /\ out * kx * ky * ch <= m /\ kx * ky * ch * (ro * co) <= m.

(** layer l makes t' of t, with new variables of the shapes ps *)
Inductive makes (m : nat) : layer1 -> list nat -> list nat -> list (list nat) -> Prop :=
| mk_dense out n : makes m (Dense out) [n] [out] [[n; out]; [1; out]]
| mk_conv2d out kx ky p sx sy dx dy r c ch t' : convolves m out kx ky p sx sy dx dy [r; c; ch] t' ->
    makes m (Conv2D out kx ky p sx sy dx dy) [r; c; ch] t' [[out; kx; ky; ch]; [1; 1; out]]
| mk_conv1d out k s p d n ch n' : convolves m out k 1 p s 1 d 1 [n; 1; ch] [n'; 1; out] ->
    makes m (Conv1D out k s p d) [n; ch] [n'; out] [[out; k; 1; ch]; [1; 1; out]]
| mk_transpose out kx ky p sx sy dx dy r c ch r1 c1 t' :
    r1 = r * sx + (match p with PValid => 2 * kx - 2 | _ => 0 end) -> c1 = c * sy + (match p with PValid => 2 * ky - 2 | _ => 0 end) ->
    within m [r1; c1; ch] -> convolves m out kx ky p sx sy dx dy [r1; c1; ch] t' ->
    makes m (Conv2DTranspose out kx ky p sx sy dx dy) [r; c; ch] t' [[out; kx; ky; ch]; [1; 1; out]]
| mk_activation f t : makes m (Activation f) t t []
| mk_softmax t : makes m SoftmaxLayer t t []
| mk_reshape t new : prod new = prod t -> makes m (ReshapeLayer new true) t new []
| mk_flatten t : makes m FlattenLayer t [prod t] []
| mk_max n r c k : 1 <= n -> makes m (MaxPooling2D n) [r; c; k] [r / n; c / n; k] []
| mk_average n r c k : 1 <= n -> makes m (AveragePooling2D n) [r; c; k] [r / n; c / n; k] []
| mk_up n r c k : makes m (UpSampling2D n) [r; c; k] [r * n; c * n; k] [].

(** two extents of one axis: equal, or one of them is 1 *)
Definition stretched (a b c : nat) : Prop := (a = b /\ c = a) \/ (a = 1 /\ c = b) \/ (b = 1 /\ c = a).
Inductive stretch_all : list nat -> list nat -> list nat -> Prop :=
| sa_nil : stretch_all [] [] []
| sa_cons a b c l r t : stretched a b c -> stretch_all l r t -> stretch_all (a :: l) (b :: r) (c :: t).

Inductive joins : layer2 -> list nat -> list nat -> list nat -> Prop :=
| jn_concat p a b q axis : axis = Some (S (length p)) \/ axis = None /\ q = [] -> joins (Concatenate axis) (p ++ a :: q) (p ++ b :: q) (p ++ (a + b) :: q)
| jn_add l r t : stretch_all l r t -> joins Add l r t
| jn_subtract l r t : stretch_all l r t -> joins Subtract l r t
| jn_multiply t : joins Multiply t t t.

(** a program makes expressions of the shapes ts' of those of the shapes ts, with variables of the shapes ps *)
Inductive well_formed (m : nat) : list (list nat) -> list instr -> list (list nat) -> list (list nat) -> Prop :=
| wf_done ts : well_formed m ts [] ts []
| wf_one ts l i t t' ps1 p ts' ps2 : nth_error ts i = Some t -> makes m l t t' ps1 -> within m t' -> well_formed m (ts ++ [t']) p ts' ps2 ->
    well_formed m ts (Apply1 l i :: p) ts' (ps1 ++ ps2)
| wf_two ts l i j a b t p ts' ps : nth_error ts i = Some a -> nth_error ts j = Some b -> joins l a b t -> within m t -> well_formed m (ts ++ [t]) p ts' ps ->
    well_formed m ts (Apply2 l i j :: p) ts' ps.

(** an array of shape s *)
Definition is_array (x : arr R) (s : list nat) : Prop := ashape x = s /\ length (adata x) = prod s.

(** the input and the variables have values of these shapes; nothing is said about the values *)
Definition supplied (leaf : nat -> arr R) (input : list nat) (ps : list (list nat)) : Prop :=
  is_array (leaf 0) input /\ forall k p, nth_error ps k = Some p -> is_array (leaf (S k)) p.
