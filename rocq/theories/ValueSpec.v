(** What the layers of a network compute, of one sample: lists of reals in row-major order. *)
From Coq Require Import List Arith Bool PeanoNat ZArith Reals.
From Verif Require Import ListBase Loops ArrayModel LayerSpec NetModel.
Import ListNotations.
Local Open Scope nat_scope.

(** elements i*n up to (i+1)*n: sample i of a batch of samples of n elements each *)
Definition part {A} (n i : nat) (d : list A) : list A := firstn n (skipn (i * n) d).

Definition at1 (x : list R) (i : nat) : R := nth i x 0%R.
(** x is an image with c columns and k channels *)
Definition at3 (c k : nat) (x : list R) (i j q : nat) : R := nth ((i * c + j) * k + q) x 0%R.

Definition largest (l : list R) : R := match l with [] => 0%R | x :: t => fold_left Rmax t x end.

(** x is n numbers, w a matrix of n rows and [out] columns *)
Definition dense (n out : nat) (w b x : list R) : list R :=
  tab out (fun o => rsum (tab n (fun i => at1 x i * at1 w (i * out + o))) + at1 b o)%R.

(** the padding that "valid" and "same" stand for, and the number of positions of a kernel *)
Definition pad_of (p : padding) (kernel stride dilation : nat) : nat :=
  match p with PSame => (kernel mod 2 + (kernel + (kernel - 1) * (dilation - 1) - stride)) / 2 | _ => 0 end.
Definition extent (n pad kernel stride dilation : nat) : nat := (n + 2 * pad - (dilation * (kernel - 1) + 1)) / stride + 1.

(** the pixel (i, j) of an r x c image with zeros around it *)
Definition around (r c k : nat) (x : list R) (i j : Z) (q : nat) : R :=
  if on_image r c i j then at3 c k x (Z.to_nat i) (Z.to_nat j) q else 0%R.

(** ro x co positions of the kernel; the weights are [out] filters, each of ch x kx x ky numbers *)
Definition convolve (r c ch out kx ky pad sx sy dx dy ro co : nat) (w b x : list R) : list R :=
  loop3 ro co out (fun h v o =>
    rsum (loop3 ch kx ky (fun q i j => at1 w (((o * ch + q) * kx + i) * ky + j) *
                                       around r c ch x (Z.of_nat (h * sx + i * dx) - Z.of_nat pad) (Z.of_nat (v * sy + j * dy) - Z.of_nat pad) q)) + at1 b o)%R.

(** the weights seen as [out] x kx x ky x ch numbers, turned around in the two middle axes *)
Definition turned (out kx ky ch : nat) (w : list R) : list R :=
  loop4 out kx ky ch (fun o i j q => at1 w (((o * kx + (kx - 1 - i)) * ky + (ky - 1 - j)) * ch + q)).

(** the pixels of an r x c image set apart by the strides, after a margin, in a r1 x c1 image of zeros *)
Definition apart (r c ch sx sy mx my r1 c1 : nat) (x : list R) : list R :=
  loop3 r1 c1 ch (fun i j q =>
    if (mx <=? i) && ((i - mx) mod sx =? 0) && ((i - mx) / sx <? r) && (my <=? j) && ((j - my) mod sy =? 0) && ((j - my) / sy <? c)
    then at3 c ch x ((i - mx) / sx) ((j - my) / sy) q else 0%R).

Definition softmax_list (eps : R) (x : list R) : list R :=
  map (fun v => exp (v - largest x) / (rsum (map (fun u => exp (u - largest x)) x) + eps))%R x.

(** the shape and the elements that layer l makes of a sample x of shape t, with the weights w and the bias b *)
Definition means1 (eps : R) (l : layer1) (w b : list R) (tx : list nat * list R) : list nat * list R :=
  match l, tx with
  | Dense out, ([n], x) => ([out], dense n out w b x)
  | Conv2D out kx ky p sx sy dx dy, ([r; c; ch], x) =>
      let pad := pad_of p kx sx dx in
      let ro := extent r pad kx sx dx in
      let co := extent c pad ky sy dy in
      ([ro; co; out], convolve r c ch out kx ky pad sx sy dx dy ro co w b x)
  | Conv1D out k s p d, ([n; ch], x) =>
      let pad := pad_of p k s d in
      let n' := extent n pad k s d in
      ([n'; out], convolve n 1 ch out k 1 pad s 1 d 1 n' 1 w b x)
  | Conv2DTranspose out kx ky p sx sy dx dy, ([r; c; ch], x) =>
      let mx := match p with PValid => kx - 1 | _ => 0 end in
      let my := match p with PValid => ky - 1 | _ => 0 end in
      let r1 := r * sx + 2 * mx in
      let c1 := c * sy + 2 * my in
      let pad := pad_of p kx sx dx in
      let ro := extent r1 pad kx sx dx in
      let co := extent c1 pad ky sy dy in
      ([ro; co; out], convolve r1 c1 ch out kx ky pad sx sy dx dy ro co (turned out kx ky ch w) b (apart r c ch sx sy mx my r1 c1 x))
  | Activation f, (t, x) => (t, map f x)
  | SoftmaxLayer, (t, x) => let n := last t 0 in (t, flat_map (fun i => softmax_list eps (part n i x)) (seq 0 (prod t / n)))
  | ReshapeLayer new _, (_, x) => (new, x)
  | FlattenLayer, (t, x) => ([prod t], x)
  | MaxPooling2D n, ([r; c; k], x) =>
      ([r / n; c / n; k], loop3 (r / n) (c / n) k (fun i j q => largest (loop2 n n (fun a b => at3 c k x (i * n + a) (j * n + b) q))))
  | AveragePooling2D n, ([r; c; k], x) =>
      ([r / n; c / n; k], loop3 (r / n) (c / n) k (fun i j q => rsum (loop2 n n (fun a b => at3 c k x (i * n + a) (j * n + b) q)) / INR (n * n))%R)
  | UpSampling2D n, ([r; c; k], x) => ([r * n; c * n; k], loop3 (r * n) (c * n) k (fun i j q => at3 c k x (i / n) (j / n) q))
  | _, _ => ([], [])
  end.

(** an axis of extent 1 is read at 0 *)
Definition pin (t idx : list nat) : list nat := map2 (fun d i => if d =? 1 then 0 else i) t idx.
Definition pointwise (f : R -> R -> R) (ta tb : list nat) (x y : list R) : list nat * list R :=
  let t := map2 (fun a b => if a =? 1 then b else a) ta tb in
  (t, tab (prod t) (fun p => f (at1 x (offset ta (pin ta (unoffset t p)))) (at1 y (offset tb (pin tb (unoffset t p)))))).

Definition means2 (l : layer2) (tx ty : list nat * list R) : list nat * list R :=
  match tx, ty with
  | (ta, x), (tb, y) =>
      match l with
      | Concatenate axis =>       (* axis 0 is the batch *)
          let k := match axis with Some a => a - 1 | None => length ta - 1 end in
          let a := prod (skipn k ta) in
          let b := prod (skipn k tb) in
          (firstn k ta ++ (nth k ta 0 + nth k tb 0) :: skipn (S k) ta, flat_map (fun i => part a i x ++ part b i y) (seq 0 (prod (firstn k ta))))
      | Add => pointwise Rplus ta tb x y
      | Subtract => pointwise Rminus ta tb x y
      | Multiply => (ta, map2 Rmult x y)
      end
  end.

Definition with_variables (l : layer1) : bool :=
  match l with Dense _ | Conv2D _ _ _ _ _ _ _ _ | Conv1D _ _ _ _ _ | Conv2DTranspose _ _ _ _ _ _ _ _ => true | _ => false end.

(** what a program computes of one sample: the values of all expressions; vs are the variables, two for each layer that has any *)
Fixpoint means (eps : R) (prog : list instr) (vs : list (list R)) (zs : list (list nat * list R)) : list (list nat * list R) :=
  match prog with
  | [] => zs
  | Apply1 l i :: p =>
      let z := nth i zs ([], []) in
      if with_variables l then means eps p (skipn 2 vs) (zs ++ [means1 eps l (nth 0 vs []) (nth 1 vs []) z])
      else means eps p vs (zs ++ [means1 eps l [] [] z])
  | Apply2 l i j :: p => means eps p vs (zs ++ [means2 l (nth i zs ([], [])) (nth j zs ([], []))])
  end.
