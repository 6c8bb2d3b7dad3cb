(** Model of the layer operators of include/operation.hpp that move elements around: transpose, zero padding, cropping,
    up-sampling, repeat, pooling, drop-out, img2col and the convolution built from it, the transposed convolution's
    spreading step, and the operators that only change the shape.

    An operator object owns cache tensors (std::shared_ptr<std::any>, filled by context_cast, utils/context_cast.hpp:10-18)
    that persist from run to run; the tensor it returns shares the cache's storage.  Each operator here takes the contents
    of its cache storage and gives the new contents together with the returned array.  A cache starts out empty.

    Simplifications: extents are unbounded naturals; operators that expect four dimensions and get fewer read outside the
    shape vector, reported as UB, and so is getting more than four (a release build would go on with the first four);
    reading a view past the end of the storage is UB. *)
From Coq Require Import List Arith Lia Bool PeanoNat ZArith.
From Verif Require Import ListBase Loops TensorModel ArrayModel.
Import ListNotations.

(** position of element (n, r, c, k) in a view_4d with R rows, C columns and K channels (utils/view.hpp) *)
Definition pos4 (R C K n r c k : nat) : nat := n * (R * (C * K)) + (r * (C * K) + (c * K + k)).

(** assignments of the form cell += value, in order *)
Definition accumulate {A} (plus : A -> A -> A) (zero : A) (ws : list (nat * A)) (d : list A) : list A :=
  fold_left (fun d w => upd d (fst w) (plus (nth (fst w) d zero) (snd w))) ws d.

Section Layers.
Context {A : Type} (zero one : A).
Variable dbg : bool.

(** tensor.hpp:335-343 resize on a cache: keeps the elements when the size is the same, otherwise new zeros *)
Definition resized (cache : list A) (n : nat) : list A := if length cache =? n then cache else repeat zero n.

Definition with4 {T} (x : arr A) (f : nat -> nat -> nat -> nat -> outcome T) : outcome T :=
  check dbg (length (ashape x) =? 4)
    match ashape x with
    | [n; r; c; k] => if prod [n; r; c; k] <=? length (adata x) then f n r c k else UB
    | _ => UB
    end.

(** run the assignments of a loop nest on the cache storage and return it with shape s *)
Definition fill (cache : list A) (s : list nat) (ws : list (nat * A)) : outcome (list A * arr A) :=
  if in_bounds (length cache) ws then let d := writes ws cache in Ok (d, Arr s d) else UB.

(** ** shape-only operators: the result shares the argument's storage *)

(** operation.hpp:1115-1185 reshape( new_shape, include_batch ): forward.  Division by a zero new_size is undefined. *)
Definition reshape_op (new_shape : list nat) (include_batch : bool) (x : arr A) : outcome (arr A) :=
  let new_size := prod new_shape in
  let total := length (adata x) in
  if new_size =? 0 then UB
  else
    let batch := total / new_size in
    check dbg (batch * new_size =? total)
      (if include_batch
       then let s := batch :: new_shape in Ok (Arr s (reshaped zero (adata x) s))
       else check dbg (batch =? 1) (match new_shape with [] => UB | _ => Ok (Arr new_shape (reshaped zero (adata x) new_shape)) end)).

(** backward of reshape, flatten, expand_dims and squeeze (1144-1149, 1209-1213, 1251-1256, 1285-1289): the gradient with
    the input's shape *)
Definition reshape_back (input grad : arr A) : outcome (arr A) :=
  match ashape input with [] => UB | s => Ok (Arr s (reshaped zero (adata grad) s)) end.

(** operation.hpp:1195-1219 flatten *)
Definition flatten_op (x : arr A) : outcome (arr A) :=
  check dbg (1 <? length (ashape x))
    match ashape x with
    | [] => UB
    | b :: _ => if b =? 0 then UB else let s := [b; length (adata x) / b] in Ok (Arr s (reshaped zero (adata x) s))
    end.

(** operation.hpp:1231-1272 expand_dims( axis ): insert an extent of 1; begin()+axis outside the shape is undefined *)
Definition expand_dims_op (axis : option nat) (x : arr A) : outcome (arr A) :=
  let ax := match axis with Some a => a | None => length (ashape x) end in
  if length (ashape x) <? ax then UB
  else let s := firstn ax (ashape x) ++ 1 :: skipn ax (ashape x) in Ok (Arr s (reshaped zero (adata x) s)).

(** tensor.tcc:789-824 squeeze: remove all extents of 1, or one given axis *)
Definition squeeze_op (axis : option nat) (x : arr A) : outcome (arr A) :=
  match axis with
  | None =>
      if length (adata x) =? 0 then Ok x
      else if length (adata x) =? 1 then Ok (Arr [1] (adata x))
      else match filter (fun s => 1 <? s) (ashape x) with
           | [] => UB
           | s => Ok (Arr s (reshaped zero (adata x) s))
           end
  | Some ax =>
      check dbg (ax <? length (ashape x))
        (if length (ashape x) <=? ax then UB
         else check dbg (nth ax (ashape x) 0 =? 1)
                match firstn ax (ashape x) ++ skipn (S ax) (ashape x) with
                | [] => UB
                | s => Ok (Arr s (reshaped zero (adata x) s))
                end)
  end.

(** operation.hpp:1471-1523 transpose; forward and backward are the same loop on their own caches *)
Definition transpose_op (cache : list A) (x : arr A) : outcome (list A * arr A) :=
  check dbg (length (ashape x) =? 2)
    match ashape x with
    | row :: col :: _ =>
        if row * col <=? length (adata x)
        then fill (resized cache (col * row)) [col; row] (loop2 row col (fun r c => (c * row + r, nth (r * col + c) (adata x) zero)))
        else UB
    | _ => UB
    end.

(** ** zero padding (2745-2808) and cropping (2866-2931) *)

(** forward of zero_padding_2d: only the interior is written, the border keeps what the cache holds *)
Definition pad_fwd (top bottom left right : nat) (cache : list A) (x : arr A) : outcome (list A * arr A) :=
  with4 x (fun n r c k =>
    let R := top + r + bottom in
    let C := left + c + right in
    fill (resized cache (prod [n; R; C; k])) [n; R; C; k]
      (loop4 n r c k (fun i y z w => (pos4 R C k i (top + y) (left + z) w, nth (pos4 r c k i y z w) (adata x) zero)))).

(** backward of zero_padding_2d: the answer is zeroed first *)
Definition pad_bwd (top bottom left right : nat) (input grad : arr A) : outcome (arr A) :=
  match ashape input with
  | [n; r; c; k] =>
      let R := top + r + bottom in
      let C := left + c + right in
      if prod [n; R; C; k] <=? length (adata grad) then
        obind (fill (repeat zero (prod [n; r; c; k])) [n; r; c; k]
          (loop4 n r c k (fun i y z w => (pos4 r c k i y z w, nth (pos4 R C k i (y + top) (z + left) w) (adata grad) zero)))) (fun p => Ok (snd p))
      else UB
  | _ => UB
  end.

(** forward of cropping_2d.  row-top-bottom > 0 on unsigned numbers only fails when they are equal; a margin larger than
    the image wraps around, reported as UB. *)
Definition crop_fwd (top bottom left right : nat) (cache : list A) (x : arr A) : outcome (list A * arr A) :=
  with4 x (fun n r c k =>
    if (r <? top + bottom) || (c <? left + right) then UB
    else
      let R := r - top - bottom in
      let C := c - left - right in
      check dbg (0 <? R) (check dbg (0 <? C)
        (fill (resized cache (prod [n; R; C; k])) [n; R; C; k]
          (loop4 n R C k (fun i y z w => (pos4 R C k i y z w, nth (pos4 r c k i (top + y) (left + z) w) (adata x) zero)))))).

(** backward of cropping_2d *)
Definition crop_bwd (top bottom left right : nat) (input grad : arr A) : outcome (arr A) :=
  match ashape grad with
  | [n; r; c; k] =>
      let R := r + top + bottom in
      let C := c + left + right in
      if prod [n; r; c; k] <=? length (adata grad) then
        obind (fill (repeat zero (prod (ashape input))) (ashape input)
          (loop4 n r c k (fun i y z w => (pos4 R C k i (y + top) (z + left) w, nth (pos4 r c k i y z w) (adata grad) zero)))) (fun p => Ok (snd p))
      else UB
  | _ => UB
  end.

(** ** up-sampling (2142-2206) and repeat (3100-3165) *)

Definition up_fwd (s : nat) (x : arr A) : outcome (arr A) :=
  with4 x (fun n r c k =>
    obind (fill (repeat zero (prod [n; r * s; c * s; k])) [n; r * s; c * s; k]
      (concat (loop4 n r c k (fun i y z w => loop2 s s (fun a b => (pos4 (r * s) (c * s) k i (y * s + a) (z * s + b) w, nth (pos4 r c k i y z w) (adata x) zero))))))
      (fun p => Ok (snd p))).

Definition up_bwd (plus : A -> A -> A) (s : nat) (input grad : arr A) : outcome (arr A) :=
  match ashape input with
  | [n; r; c; k] =>
      if prod [n; r * s; c * s; k] <=? length (adata grad) then
        Ok (Arr [n; r; c; k] (accumulate plus zero
          (concat (loop4 n r c k (fun i y z w => loop2 s s (fun a b => (pos4 r c k i y z w, nth (pos4 (r * s) (c * s) k i (y * s + a) (z * s + b) w) (adata grad) zero)))))
          (repeat zero (prod [n; r; c; k]))))
      else UB
  | _ => UB
  end.

(** 3107-3132 forward of repeat( repeats, axis ): axis is clamped to the last one (-1UL is the default) *)
Definition repeat_fwd (repeats : nat) (axis : option nat) (cache : list A) (x : arr A) : outcome (list A * arr A) :=
  if repeats =? 1 then Ok (cache, x)
  else match ashape x with
       | [] => UB
       | _ =>
           let ax := match axis with Some a => Nat.min a (length (ashape x) - 1) | None => length (ashape x) - 1 end in
           let stride := prod (skipn (S ax) (ashape x)) in
           let iterations := prod (firstn (S ax) (ashape x)) in
           let s := upd (ashape x) ax (nth ax (ashape x) 0 * repeats) in
           if iterations * stride <=? length (adata x) then
             fill (resized cache (prod s)) s
               (loop3 iterations repeats stride (fun it re j => (it * (repeats * stride) + (re * stride + j), nth (it * stride + j) (adata x) zero)))
           else UB
       end.

(** 3139-3162 backward of repeat *)
Definition repeat_bwd (plus : A -> A -> A) (repeats : nat) (axis : option nat) (input grad : arr A) : outcome (arr A) :=
  if repeats =? 1 then Ok grad
  else match ashape input with
       | [] => UB
       | _ =>
           let ax := match axis with Some a => Nat.min a (length (ashape input) - 1) | None => length (ashape input) - 1 end in
           let stride := prod (skipn (S ax) (ashape input)) in
           let iterations := prod (firstn (S ax) (ashape input)) in
           if iterations * repeats * stride <=? length (adata grad) then
             Ok (Arr (ashape input) (accumulate plus zero
               (loop3 iterations repeats stride (fun it re j => (it * stride + j, nth (it * (repeats * stride) + (re * stride + j)) (adata grad) zero)))
               (repeat zero (prod (ashape input)))))
           else UB
       end.

(** ** average pooling (2072-2128); factor is 1/(stride*stride).  Division by a zero stride is undefined. *)

Definition avg_fwd (plus mul : A -> A -> A) (factor : A) (s : nat) (x : arr A) : outcome (arr A) :=
  with4 x (fun n r c k =>
    if s =? 0 then UB else
    Ok (Arr [n; r / s; c / s; k] (accumulate plus zero
      (concat (loop4 n (r / s) (c / s) k (fun i y z w => loop2 s s (fun a b =>
        (pos4 (r / s) (c / s) k i y z w, mul (nth (pos4 r c k i (y * s + a) (z * s + b) w) (adata x) zero) factor)))))
      (repeat zero (prod [n; r / s; c / s; k]))))).

(** the backward loop covers every input position and reads tg[bs][r/stride][c/stride][ch], which is outside the gradient's
    rows (but maybe inside its storage) for the positions of an incomplete block *)
Definition avg_bwd (mul : A -> A -> A) (factor : A) (s : nat) (input grad : arr A) : outcome (arr A) :=
  match ashape input with
  | [n; r; c; k] =>
      if s =? 0 then UB else
      let reads := loop4 n r c k (fun i y z w => pos4 (r / s) (c / s) k i (y / s) (z / s) w) in
      if forallb (fun q => q <? length (adata grad)) reads
      then Ok (Arr [n; r; c; k] (loop4 n r c k (fun i y z w => mul factor (nth (pos4 (r / s) (c / s) k i (y / s) (z / s) w) (adata grad) zero))))
      else UB
  | _ => UB
  end.

(** ** max pooling (1958-2040).  The mask is only ever set, never cleared; neither is the backward answer. *)

(** 1990-2002: scan a block for the first largest element; the result is its position *)
Definition block_max (ltb : A -> A -> bool) (d : list A) (start : nat) (block : list nat) : nat :=
  fold_left (fun cur p => if ltb (nth cur d zero) (nth p d zero) then p else cur) block start.

Definition block_cells (R C K s i y z w : nat) : list nat := loop2 s s (fun a b => pos4 R C K i (y * s + a) (z * s + b) w).

Record pool := Pool { p_mask : list A; p_out : list A; p_back : list A }.
Definition pool0 : pool := Pool [] [] [].

Definition max_fwd (ltb : A -> A -> bool) (s : nat) (st : pool) (x : arr A) : outcome (pool * arr A) :=
  with4 x (fun n r c k =>
    if s =? 0 then UB else
    let best i y z w := block_max ltb (adata x) (pos4 r c k i (y * s) (z * s) w) (block_cells r c k s i y z w) in
    let mask := writes (loop4 n (r / s) (c / s) k (fun i y z w => (best i y z w, one))) (resized (p_mask st) (prod [n; r; c; k])) in
    let out := writes (loop4 n (r / s) (c / s) k (fun i y z w => (pos4 (r / s) (c / s) k i y z w, nth (best i y z w) (adata x) zero)))
                      (resized (p_out st) (prod [n; r / s; c / s; k])) in
    Ok (Pool mask out (p_back st), Arr [n; r / s; c / s; k] out)).

(** is_one is the test std::abs( m - 1.0 ) < 1.0e-5 *)
Definition max_bwd (is_one : A -> bool) (s : nat) (st : pool) (input grad : arr A) : outcome (pool * arr A) :=
  match ashape input with
  | [n; r; c; k] =>
      if s =? 0 then UB else
      let marked := filter (fun w => is_one (nth (fst w) (p_mask st) zero))
                      (loop4 n r c k (fun i y z w => (pos4 r c k i y z w, pos4 (r / s) (c / s) k i (y / s) (z / s) w))) in
      if (prod [n; r; c; k] <=? length (p_mask st)) && forallb (fun w => snd w <? length (adata grad)) marked then
        let back := writes (map (fun w => (fst w, nth (snd w) (adata grad) zero)) marked) (resized (p_back st) (prod [n; r; c; k])) in
        Ok (Pool (p_mask st) (p_out st) back, Arr [n; r; c; k] back)
      else UB
  | _ => UB
  end.

(** ** drop-out (1883-1943) *)

Record drop := Drop { d_mask : option (list A) }.

(** the learning phase (config.hpp) and, for the first training run, the random numbers are inputs.  mask[idx] beyond the
    mask is undefined. *)
Definition drop_fwd (mul div sub : A -> A -> A) (gtb : A -> A -> bool) (factor : A) (training : bool)
  (draws : list A) (st : drop) (x : arr A) : outcome (drop * arr A) :=
  if negb training then Ok (st, x)
  else
    let mask := match d_mask st with
                | Some m => m
                | None => tab (length (adata x)) (fun i => if gtb (nth i draws zero) factor then one else zero)
                end in
    if length (adata x) <=? length mask
    then Ok (Drop (Some mask), Arr (ashape x) (tab (length (adata x)) (fun i => mul (nth i (adata x) zero) (div (nth i mask zero) (sub one factor)))))
    else UB.

(** any_cast of an empty std::any throws inside a noexcept function: the program terminates, reported as Abort *)
Definition drop_bwd (mul : A -> A -> A) (training : bool) (st : drop) (grad : arr A) : outcome (arr A) :=
  if negb training then Ok grad
  else match d_mask st with
       | None => Abort
       | Some mask => if length (adata grad) <=? length mask
                      then Ok (Arr (ashape grad) (tab (length (adata grad)) (fun i => mul (nth i (adata grad) zero) (nth i mask zero))))
                      else UB
       end.

(** ** img2col (1525-1658) *)

Record conv_args := Conv { krow : nat; kcol : nat; prow : nat; pcol : nat; srow : nat; scol : nat; drow : nat; dcol : nat }.

(** 1554-1555: the number of kernel positions; an effective kernel larger than the padded image wraps around and a zero
    stride divides by zero, both reported as None *)
Definition conv_extent (n pad kernel stride dilation : nat) : option nat :=
  if (stride =? 0) || (kernel =? 0) || (n + 2 * pad <? dilation * (kernel - 1) + 1) then None
  else Some ((n + 2 * pad - (dilation * (kernel - 1) + 1)) / stride + 1).

(** 1684-1692 and 1731-1740: the padding chosen for "same"; the unsigned difference wraps around when the stride exceeds the
    effective kernel, reported as None *)
Definition same_padding (kernel stride dilation : nat) : option nat :=
  if (kernel =? 0) || (dilation =? 0) || (kernel + (kernel - 1) * (dilation - 1) <? stride) then None
  else Some ((kernel mod 2 + (kernel + (kernel - 1) * (dilation - 1) - stride)) / 2).

Definition to_u32 (z : Z) : Z := (z mod 4294967296)%Z.
Definition no_pixel : Z := 4294967295%Z.   (* 0xffffffff *)

(** 1570-1586: the table entry for batch bs, matrix row c, output position (h, w): 64-bit signed arithmetic, then a cast to
    32 bits *)
Definition table_entry (a : conv_args) (R C K : nat) (bs c h w : nat) : Z :=
  let w_offset := Z.of_nat (c mod kcol a) in
  let h_offset := Z.of_nat ((c / kcol a) mod krow a) in
  let c_im := Z.of_nat (c / (kcol a * krow a)) in
  let im_row := (Z.of_nat h * Z.of_nat (srow a) - Z.of_nat (prow a) + h_offset * Z.of_nat (drow a))%Z in
  let im_col := (Z.of_nat w * Z.of_nat (scol a) - Z.of_nat (pcol a) + w_offset * Z.of_nat (dcol a))%Z in
  let im_idx := (Z.of_nat (bs * R * C * K) + (im_row * Z.of_nat C + im_col) * Z.of_nat K + c_im)%Z in
  if ((im_row <? 0) || (Z.of_nat R <=? im_row) || (im_col <? 0) || (Z.of_nat C <=? im_col))%Z%bool then no_pixel else to_u32 im_idx.

(** 1564-1603: fill the table in the order [bs][c][h][w] and re-arrange it to [c][bs][h*w].  The two loop nests visit every
    cell of their targets once, in row-major order of the source; the table is given in its final order. *)
Definition index_table (a : conv_args) (BS R C K OR OC : nat) : list Z :=
  let record := loop4 BS (krow a * kcol a * K) OR OC (fun bs c h w => table_entry a R C K bs c h w) in
  let rows := krow a * kcol a * K in
  writes (loop3 BS rows (OR * OC) (fun bs r c => (r * (BS * (OR * OC)) + (bs * (OR * OC) + c), nth (bs * (rows * (OR * OC)) + (r * (OR * OC) + c)) record 0%Z)))
         (repeat 0%Z (length record)).

(** forward: the table is rebuilt only when its size differs from the size needed now *)
Definition img2col_fwd (a : conv_args) (table : list Z) (x : arr A) : outcome (list Z * arr A) :=
  with4 x (fun BS R C K =>
    match conv_extent R (prow a) (krow a) (srow a) (drow a), conv_extent C (pcol a) (kcol a) (scol a) (dcol a) with
    | Some OR, Some OC =>
        let rows := krow a * kcol a * K in
        let cols := BS * OR * OC in
        let table' := if length table =? rows * cols then table else index_table a BS R C K OR OC in
        if forallb (fun z => (z =? no_pixel) || (z <? Z.of_nat (length (adata x))))%Z table'
        then Ok (table', Arr [rows; cols] (map (fun z => if (z =? no_pixel)%Z then zero else nth (Z.to_nat z) (adata x) zero) table'))
        else UB
    | _, _ => UB
    end).

(** 1608-1622 backward *)
Definition img2col_bwd (plus : A -> A -> A) (table : list Z) (input grad : arr A) : outcome (arr A) :=
  let n := prod (ashape input) in
  if (length (adata grad) <=? length table)
     && forallb (fun z => (z =? no_pixel) || (z <? Z.of_nat n))%Z (firstn (length (adata grad)) table)
  then
    let ws := filter (fun w => negb (fst w =? no_pixel)%Z) (combine table (adata grad)) in
    Ok (Arr (ashape input) (accumulate plus zero (map (fun w => (Z.to_nat (fst w), snd w)) ws) (repeat zero n)))
  else UB.

(** ** conv2d / general_conv2d (1660-1760): reshape the kernel to [NC, r*c*CH], multiply with the column matrix, transpose
    and reshape.  The column count of the final reshape uses the ROW padding (1696, 1744).  Values only; the product is the
    CPU gemm (TensorModel.multiply, C16). *)
Definition matmul (plus mul : A -> A -> A) (m k n : nat) (a b : list A) : list A :=
  tab2 m n (fun i j => fold_left (fun acc q => plus acc (mul (nth (i * k + q) a zero) (nth (q * n + j) b zero))) (seq 0 k) zero).

Definition conv2d (plus mul : A -> A -> A) (a : conv_args) (row_input col_input : nat) (x kernel : arr A) : outcome (arr A) :=
  match ashape kernel with
  | [nc; kr; kc; ch] =>
      if negb ((kr =? krow a) && (kc =? kcol a)) then UB else
      obind (img2col_fwd a [] x) (fun p =>
        match ashape (snd p) with
        | [rows; cols] =>
            obind (reshape_op [krow a * kcol a * ch] true kernel) (fun w =>
              match ashape w with
              | [nc'; k'] =>
                  check dbg (k' =? rows)
                   (if negb (k' =? rows) then UB else
                    let flat := matmul plus mul nc' rows cols (adata w) (adata (snd p)) in
                    obind (transpose_op [] (Arr [nc'; cols] flat)) (fun q =>
                      match conv_extent row_input (prow a) (krow a) (srow a) (drow a), conv_extent col_input (prow a) (kcol a) (scol a) (dcol a) with
                      | Some OR, Some OC => reshape_op [OR; OC; nc] true (snd q)
                      | _, _ => UB
                      end))
              | _ => UB
              end)
        | _ => UB
        end)
  | _ => UB
  end.

(** ** conv2d_transpose_intermediate (1765-1842): spread the input with the strides into a zeroed array *)
Definition spread_extent (n kernel stride : nat) (valid_padding : bool) : nat := n * stride + if valid_padding then kernel * 2 - 2 else 0.

Definition spread_fwd (rk ck rs cs : nat) (valid_padding : bool) (x : arr A) : outcome (arr A) :=
  with4 x (fun n r c k =>
    let R := spread_extent r rk rs valid_padding in
    let C := spread_extent c ck cs valid_padding in
    let ro := if valid_padding then rk - 1 else 0 in
    let co := if valid_padding then ck - 1 else 0 in
    obind (fill (repeat zero (prod [n; R; C; k])) [n; R; C; k]
      (loop4 n r c k (fun i y z w => (pos4 R C k i (ro + y * rs) (co + z * cs) w, nth (pos4 r c k i y z w) (adata x) zero)))) (fun p => Ok (snd p))).

Definition spread_bwd (rk ck rs cs : nat) (valid_padding : bool) (input grad : arr A) : outcome (arr A) :=
  match ashape input, ashape grad with
  | [n; r; c; k], [_; R; C; _] =>
      let ro := if valid_padding then rk - 1 else 0 in
      let co := if valid_padding then ck - 1 else 0 in
      let reads := loop4 n r c k (fun i y z w => pos4 R C k i (ro + y * rs) (co + z * cs) w) in
      if forallb (fun q => q <? length (adata grad)) reads
      then Ok (Arr [n; r; c; k] (map (fun q => nth q (adata grad) zero) reads))
      else UB
  | _, _ => UB
  end.

End Layers.
Arguments Drop {A}. Arguments d_mask {A}. Arguments Pool {A}. Arguments p_mask {A}. Arguments p_out {A}. Arguments p_back {A}. Arguments pool0 {A}.
