(** Model of the array functions of include/tensor.tcc: concatenate, repmat, the reductions, softmax and flip.

    These functions read their arguments through data() and build a tensor with a storage of its own, so an array here is
    just a shape with its row-major elements; what matters about shared storages is modelled in TensorModel.v.  The one
    place where such a function reaches into its argument's storage (flip of a tensor with more than four dimensions,
    through a reshaped copy) returns the argument's storage as well.

    Simplifications: extents are unbounded naturals; the for_each calls inside softmax are their sequential meaning
    (ParallelModel.v); moving a stride_iterator past the end of the storage (si+n in reduce, never dereferenced) is not
    counted as undefined. *)
From Coq Require Import List Arith Lia Bool PeanoNat ZArith Reals.
From Verif Require Import ListBase Loops TensorModel.
Import ListNotations.

Record arr (A : Type) := Arr { ashape : list nat; adata : list A }.
Arguments Arr {A}. Arguments ashape {A}. Arguments adata {A}.

Section Arrays.
Context {A : Type} (zero : A).
Variable dbg : bool.

Definition check {T} (b : bool) (k : outcome T) : outcome T := if b then k else if dbg then Abort else k.

(** static_cast<unsigned long>(-1) selects the last axis *)
Definition pick_axis (axis : option nat) (ndim : nat) : nat := match axis with Some a => a | None => ndim - 1 end.

Definition slice (d : list A) (start n : nat) : list A := firstn n (skipn start d).

(** tensor.tcc:915-957 concatenate.  For arguments of different rank the code builds ranges from the begin() and end() of
    two different temporaries (lines 924-927 and repeat, line 760), which is undefined.  An axis beyond the rank indexes
    outside the shape in a release build.  copy_n past the end of either source or of the result is undefined. *)
Definition concatenate (l r : arr A) (axis : option nat) : outcome (arr A) :=
  if negb (length (ashape l) =? length (ashape r)) then UB
  else
    let ax := pick_axis axis (length (ashape l)) in
    let ls := ashape l in
    let rs := ashape r in
    check (ax <? length ls)
      (if length ls <=? ax then UB
       else check (list_eqb (firstn ax ls) (firstn ax rs))
             (check (list_eqb (skipn (S ax) ls) (skipn (S ax) rs))
               (let times := Nat.max 1 (prod (firstn ax ls)) in
                let lst := prod (skipn ax ls) in
                let rst := prod (skipn ax rs) in
                let s := upd ls ax (nth ax ls 0 + nth ax rs 0) in
                if (times * lst <=? length (adata l)) && (times * rst <=? length (adata r)) && (times * (lst + rst) <=? prod s)
                then
                  let body := flat_map (fun i => slice (adata l) (lst * i) lst ++ slice (adata r) (rst * i) rst) (seq 0 times) in
                  Ok (Arr s (body ++ repeat zero (prod s - times * (lst + rst))))
                else UB))).

(** tensor.tcc:960-974 repmat: three loops over block row, block column and source row, each copying one source row.  The
    inner copy_n is spelled out as one assignment per element. *)
Definition repmat (t : arr A) (row_rep col_rep : nat) : outcome (arr A) :=
  check (length (ashape t) =? 2)
    match ashape t with
    | old_row :: old_col :: _ =>
        let n := old_row * row_rep * (old_col * col_rep) in
        let ws := loop4 row_rep col_rep old_row old_col (fun rdx cdx odx k =>
                    (old_row * old_col * rdx * col_rep + odx * old_col * col_rep + old_col * cdx + k,
                     nth (odx * old_col + k) (adata t) zero)) in
        if (old_row * old_col <=? length (adata t)) && in_bounds n ws
        then Ok (Arr [old_row * row_rep; old_col * col_rep] (writes ws (repeat zero n)))
        else UB
    | _ => UB
    end.

(** libstdc++ <numeric> std::reduce over random access iterators: four elements at a time, the rest one by one *)
Fixpoint std_reduce (f : A -> A -> A) (init : A) (l : list A) {struct l} : A :=
  match l with
  | a :: ((b :: c :: d :: rest) as tail) => std_reduce f (f init (f (f a b) (f c d))) rest
  | _ => fold_left f l init
  end.

(** the elements a stride_iterator visits: start, start+step, ... (utils/stride_iterator.hpp) *)
Definition strided (d : list A) (start step n : nat) : list A := tab n (fun k => nth (start + k * step) d zero).

(** tensor.tcc:1108-1140 reduce.  An empty tensor is returned as it is.  Without keepdims the axis is removed and
    tensor::reshape called, which dereferences rbegin() of an empty vector when no dimension is left. *)
Definition reduce (t : arr A) (axis : option nat) (init : A) (f : A -> A -> A) (keepdims : bool) : outcome (arr A) :=
  match adata t with
  | [] => Ok t
  | _ =>
    let ax := pick_axis axis (length (ashape t)) in
    let s := ashape t in
    check (ax <? length s)
      (if length s <=? ax then UB
       else
         let pres := prod (firstn ax s) in
         let post := prod (skipn (S ax) s) in
         let n := nth ax s 0 in
         if pres * n * post <=? length (adata t) then
           let d := loop2 pres post (fun idx jdx => std_reduce f init (strided (adata t) (idx * post * n + jdx) post n)) in
           if keepdims then Ok (Arr (upd s ax 1) d)
           else match firstn ax s ++ skipn (S ax) s with
                | [] => UB
                | s' => Ok (Arr s' d)
                end
         else UB)
  end.

(** tensor.tcc:1142-1146 sum along an axis; 1148-1155 mean along an axis: [inject n] is static_cast<value_type>(n).  For an
    empty tensor mean reads shape[axis], undefined when the axis is not there. *)
Definition sum_axis (plus : A -> A -> A) t axis keepdims := reduce t axis zero plus keepdims.

Definition mean_axis (plus div : A -> A -> A) (inject : nat -> A) (t : arr A) axis keepdims : outcome (arr A) :=
  let ax := pick_axis axis (length (ashape t)) in
  obind (reduce t axis zero plus keepdims) (fun r =>
    if length (ashape t) <=? ax then UB
    else Ok (Arr (ashape r) (map (fun v => div v (inject (nth ax (ashape t) 0))) (adata r)))).

(** tensor.tcc:1185-1197 max and min along an axis: std::numeric_limits<T>::min() and ::max() are the starting values *)
Definition max_axis (ltb : A -> A -> bool) (limits_min : A) t axis keepdims :=
  reduce t axis limits_min (fun a b => if ltb b a then a else b) keepdims.
Definition min_axis (ltb : A -> A -> bool) (limits_max : A) t axis keepdims :=
  reduce t axis limits_max (fun a b => if ltb a b then a else b) keepdims.

(** tensor.tcc:1003-1012 max over all elements; std::max( tsor[idx], ans ) returns ans only when tsor[idx] < ans.
    1020-1030 min likewise. *)
Definition max_all (ltb : A -> A -> bool) (limits_min : A) (t : arr A) : outcome A :=
  check (negb (length (adata t) =? 0))
    (if length (adata t) =? 0 then Ok zero else Ok (fold_left (fun ans v => if ltb v ans then ans else v) (adata t) limits_min)).
Definition min_all (ltb : A -> A -> bool) (limits_max : A) (t : arr A) : outcome A :=
  check (negb (length (adata t) =? 0))
    (if length (adata t) =? 0 then Ok zero else Ok (fold_left (fun ans v => if ltb ans v then ans else v) (adata t) limits_max)).

(** tensor.tcc:1039-1053 sum and mean over all elements *)
Definition sum_all (plus : A -> A -> A) (t : arr A) : outcome A :=
  check (negb (length (adata t) =? 0)) (Ok (fold_left plus (adata t) zero)).

(** tensor.tcc:767-772 reduce_sum: std::reduce over the whole storage, as a tensor of shape {1} *)
Definition reduce_sum_all (plus : A -> A -> A) (t : arr A) : arr A := Arr [1] [std_reduce plus zero (adata t)].

(** ** flip *)

(** tensor.tcc:1331-1365 flip_3D: the assignments of its loop nests over a source of extents r, c, ch *)
Definition flip_3D_writes (src : list A) (r c ch : nat) (axis : Z) : list (nat * A) :=
  let at3 x y z := x * (c * ch) + (y * ch + z) in
  if Z.eqb axis 0 then loop3 r c ch (fun x y z => (at3 (r - x - 1) y z, nth (at3 x y z) src zero))
  else if Z.eqb axis 1 then loop3 r c ch (fun x y z => (at3 x (c - y - 1) z, nth (at3 x y z) src zero))
  else loop3 r c ch (fun x y z => (at3 x y (ch - z - 1), nth (at3 x y z) src zero)).

Definition flip_3D (src : list A) (r c ch : nat) (axis : Z) (dst : list A) : outcome (list A) :=
  let ws := flip_3D_writes src r c ch axis in
  if (r * (c * ch) <=? length src) && in_bounds (length dst) ws then Ok (writes ws dst) else UB.

(** tensor.tcc:1370-1373 flip_1D: std::copy( begin, end, ans.rbegin() ) *)
Definition flip_1D (src dst : list A) : outcome (list A) :=
  if length src <=? length dst
  then Ok (writes (tab (length src) (fun i => (length dst - 1 - i, nth i src zero))) dst) else UB.

(** tensor.tcc:1375-1440: reshape an alias of the source and the result to three dimensions, flip, and give the result its
    shape back.  reshape of a tensor whose size differs resizes the (shared) storage to zeros (tensor.hpp:361).  The result
    is the source's storage afterwards and the answer. *)
Definition reshaped (d : list A) (s : list nat) : list A := if length d =? prod s then d else repeat zero (prod s).

Definition flip_via (src dst : list A) (s : list nat) (r c ch : nat) (axis : Z) : outcome (list A * arr A) :=
  let src' := reshaped src [r; c; ch] in
  obind (flip_3D src' r c ch axis (reshaped dst [r; c; ch])) (fun d => Ok (src', Arr s (reshaped d s))).

(** tensor.tcc:1411-1451 flip( tsor, axis ): the answer starts as a default constructed tensor.  An empty source leaves it
    that way; otherwise it is resized to the source's shape (zeros). *)
Definition flip (t : arr A) (axis : Z) : outcome (list A * arr A) :=
  let s := ashape t in
  let src := adata t in
  if length src =? 0 then Ok (src, Arr [] [])
  else
    let ndim := length s in
    check (ndim <=? 4)
     (let ax := if Z.eqb axis (-1) then (Z.of_nat ndim - 1)%Z else axis in
      check (ax <? Z.of_nat ndim)%Z
       (let dst := repeat zero (prod s) in
        match s with
        | [_] => obind (flip_1D src dst) (fun d => Ok (src, Arr s d))
        | [a; b] => flip_via src dst s a b 1 ax
        | [a; b; c] => obind (flip_3D src a b c ax dst) (fun d => Ok (src, Arr s d))
        | a :: b :: c :: d :: _ =>
            if (Z.eqb ax 0 || Z.eqb ax 1)%bool then flip_via src dst s a b (c * d) ax
            else flip_via src dst s (a * b) c d (ax - 1)
        | [] => UB
        end)).

End Arrays.

(** ** softmax, over the reals *)

(** *std::max_element of a non-empty range: the first largest *)
Definition rmax (l : list R) : R :=
  match l with [] => 0%R | x :: t => fold_left (fun m v => if Rlt_dec m v then v else m) t x end.

(** tensor.tcc:1079-1085, one row: subtract the maximum, add up the exponentials from the left, divide *)
Definition softmax_row (eps : R) (row : list R) : list R :=
  let mx := rmax row in
  let shifted := map (fun v => v - mx)%R row in
  let ac := fold_left (fun init v => init + exp v)%R shifted 0%R in
  map (fun v => exp v / (ac + eps))%R shifted.

(** tensor.tcc:1071-1087: size() / last_dim rows.  Division by a zero last dimension, or rbegin() of an empty shape, is
    undefined; eps is 1e-8 (config.hpp). *)
Definition softmax (dbg : bool) (eps : R) (t : arr R) : outcome (arr R) :=
  check dbg (negb (length (adata t) =? 0))
    match rev (ashape t) with
    | [] => UB
    | last_dim :: _ =>
        if last_dim =? 0 then UB
        else let rem := length (adata t) / last_dim in
             Ok (Arr (ashape t)
                  (flat_map (fun i => softmax_row eps (slice (adata t) (i * last_dim) last_dim)) (seq 0 rem)
                   ++ skipn (rem * last_dim) (adata t)))
    end.
