(** Model of the tensor type (include/tensor.hpp) and of the tensor functions of include/tensor.tcc that create, reshape,
    broadcast, add, subtract and multiply tensors.

    A tensor object is a shape and a reference to a shared storage (tensor.hpp:52-53: shape_ and
    std::shared_ptr<vector<T>> vector_); the heap is the list of storages.  Copying a tensor object copies the pair, so the
    copies share the storage (tensor.hpp:111-146).  Storages that nobody refers to any more stay in the heap: releasing them
    is not observable.

    Simplifications: sizes and dimensions are unbounded naturals (no wrap-around); the element type is any type with a zero
    (the value-initialised element); the tensor's id_ is left out; shape_'s buffered_allocator is taken to behave like
    std::allocator (true for at most 32 dimensions, which fit its in-object buffer). *)
From Coq Require Import List Arith Lia Bool PeanoNat.
From Verif Require Import ListBase.
Import ListNotations.

Inductive outcome (T : Type) :=
| Ok (v : T)
| Abort        (* better_assert fails in a debug build (utils/better_assert.hpp) *)
| UB.          (* out-of-bounds access, dereferencing rbegin() of an empty vector, division by zero *)
Arguments Ok {T}. Arguments Abort {T}. Arguments UB {T}.

Definition obind {S T} (m : outcome S) (f : S -> outcome T) : outcome T :=
  match m with Ok v => f v | Abort => Abort | UB => UB end.

Record tensor := mkT { shape : list nat; ref : nat }.

Fixpoint list_eqb (a b : list nat) : bool :=
  match a, b with
  | [], [] => true
  | x :: a', y :: b' => (x =? y) && list_eqb a' b'
  | _, _ => false
  end.

Section Tensor.
Context {A : Type} (zero : A).
Variable dbg : bool.   (* debug build (NDEBUG unset): better_assert is active *)

Definition heap := list (list A).
Definition M (T : Type) := heap -> outcome (T * heap).

Definition ret {T} (v : T) : M T := fun h => Ok (v, h).
Definition bind {S T} (m : M S) (f : S -> M T) : M T :=
  fun h => match m h with Ok (v, h') => f v h' | Abort => Abort | UB => UB end.
Definition fail_ub {T} : M T := fun _ => UB.
Notation "'do' x <- m ; f" := (bind m (fun x => f)) (at level 200, x name, m at level 100, f at level 200).

(** utils/better_assert.hpp: aborts in a debug build, nothing in a release build *)
Definition better_assert (b : bool) : M unit :=
  fun h => if b then Ok (tt, h) else if dbg then Abort else Ok (tt, h).

(** the storage behind a tensor (tensor.hpp:376-390 data(), 249-253 size() is its length) *)
Definition data (t : tensor) : M (list A) :=
  fun h => match nth_error h (ref t) with Some d => Ok (d, h) | None => UB end.

(** write the whole storage of a tensor *)
Definition store (t : tensor) (d : list A) : M unit := fun h => Ok (tt, upd h (ref t) d).

(** a tensor with a new storage *)
Definition alloc (s : list nat) (d : list A) : M tensor := fun h => Ok (mkT s (length h), h ++ [d]).

Definition zeros (n : nat) : list A := repeat zero n.

(** tensor.hpp:79-88: tensor{ shape } value-initialises the product of the dimensions many elements *)
Definition new_zero (s : list nat) : M tensor := alloc s (zeros (prod s)).

(** tensor.hpp:58: the default constructor: no dimensions, no elements *)
Definition new_empty : M tensor := alloc [] [].

(** tensor.hpp:335-343 resize.  vector::resize (utils/vector.hpp:78-83) clears and re-creates a zeroed array; the storage
    is shared, the shape is this object's own. *)
Definition resize (t : tensor) (s : list nat) : M tensor :=
  do d <- data t;
  if length d =? prod s then ret (mkT s (ref t))
  else do _ <- store t (zeros (prod s)); ret (mkT s (ref t)).

(** requested dimensions are [option nat]: [None] is static_cast<unsigned long>(-1) *)
Fixpoint all_known (rs : list (option nat)) : option (list nat) :=
  match rs with
  | [] => Some []
  | Some d :: t => match all_known t with Some l => Some (d :: l) | None => None end
  | None :: _ => None
  end.

(** tensor.hpp:354-368 reshape.  A trailing -1UL becomes size() divided by the product of the others; a -1UL elsewhere is an
    ordinary (2^64-1) extent and would have to be allocated, reported here as UB.  An empty request dereferences rbegin() of
    an empty vector.  On a size mismatch the tensor is resized, not rejected. *)
Definition reshape_req (t : tensor) (rs : list (option nat)) : M tensor :=
  do d <- data t;
  match rs with
  | [] => fail_ub
  | _ =>
      match all_known (removelast rs) with
      | None => fail_ub
      | Some pre =>
          match last rs None with
          | Some k => resize t (pre ++ [k])
          | None => if prod pre =? 0 then fail_ub else resize t (pre ++ [length d / prod pre])
          end
      end
  end.

(** reshape with explicit dimensions *)
Definition reshape (t : tensor) (s : list nat) : M tensor := reshape_req t (map Some s).

(** std::copy_n( src, n, dst ) into the front of dst, n = length src *)
Definition copy_front (src dst : list A) : M (list A) :=
  if length src <=? length dst then ret (src ++ skipn (length src) dst) else fail_ub.

(** tensor.hpp:308-313 deep_copy(): zeros of the product of the shape, then size() elements copied over *)
Definition deep_copy (t : tensor) : M tensor :=
  do d <- data t;
  do d' <- copy_front d (zeros (prod (shape t)));
  alloc (shape t) d'.

(** tensor.hpp:301-306 deep_copy( other ): resize to the other's shape, then copy size() elements from the other (source
    and destination are read after the resize, which matters when they share a storage) *)
Definition deep_copy_from (t other : tensor) : M tensor :=
  do t' <- resize t (shape other);
  do d <- data t';
  do o <- data other;
  if length d <=? length o
  then do _ <- store t' (firstn (length d) o); ret t'
  else fail_ub.

(** tensor.hpp:400-405 map and 415-458 the scalar versions of += -= *= /=: apply f to every element in place *)
Definition map_inplace (f : A -> A) (t : tensor) : M unit :=
  do d <- data t; store t (map f d).

(** tensor.hpp:407-458, the tensor versions: std::transform( data(), data()+size(), other.data(), data(), f ) after a
    better_assert on equal shapes *)
Definition zip_inplace (f : A -> A -> A) (t other : tensor) : M unit :=
  do _ <- better_assert (list_eqb (shape t) (shape other));
  do d <- data t;
  do o <- data other;
  if length d <=? length o then store t (map2 f d o) else fail_ub.

(** tensor.hpp:321-330 operator[] = v *)
Definition set_elem (t : tensor) (i : nat) (v : A) : M unit :=
  do d <- data t;
  if i <? length d then store t (upd d i v) else fail_ub.

(** tensor.hpp:275-279 reset( val ): fill *)
Definition reset (t : tensor) (v : A) : M unit := map_inplace (fun _ => v) t.

(** tensor.tcc:396-403: the dimension idx places from the right, 1 when there is none *)
Definition dim_at (s : list nat) (idx : nat) : nat :=
  if idx <? length s then nth (length s - 1 - idx) s 0 else 1.

(** tensor.tcc:402-418: the dimension pushed in round idx of the loop *)
Definition bdim (a b : list nat) (idx : nat) : outcome nat :=
  let dim_a := dim_at a idx in
  let dim_b := dim_at b idx in
  if dim_a =? 1 then Ok dim_b
  else if dim_b =? 1 then Ok dim_a
  else if dim_a =? dim_b then Ok dim_a
  else if dbg then Abort else Ok dim_a.

(** tensor.tcc:394-419: the rounds of the loop, pushing to the back of ans *)
Fixpoint bdims (a b : list nat) (idxs : list nat) : outcome (list nat) :=
  match idxs with
  | [] => Ok []
  | i :: t => obind (bdim a b i) (fun d => obind (bdims a b t) (fun r => Ok (d :: r)))
  end.

(** tensor.tcc:385-423 broadcast_shape *)
Definition broadcast_shape (a b : list nat) : outcome (list nat) :=
  if list_eqb a b then Ok a
  else obind (bdims a b (seq 0 (Nat.max (length a) (length b)))) (fun r => Ok (rev r)).

Definition lift {T} (o : outcome T) : M T :=
  fun h => match o with Ok v => Ok (v, h) | Abort => Abort | UB => UB end.

(** tensor.tcc:324-330: the last position where the two shapes differ *)
Fixpoint last_diff (u n : list nat) : option nat :=
  match u, n with
  | x :: u', y :: n' => match last_diff u' n' with
                        | Some d => Some (S d)
                        | None => if x =? y then None else Some 0
                        end
  | _, _ => None
  end.

(** tensor.tcc:346-349: v3[r][c][ch] = v2[r][ch], reading the flat source and producing the flat result *)
Definition stretch (headings repeats tailings : nat) (src : list A) : list A :=
  tab2 headings (repeats * tailings) (fun r q => nth (r * tailings + q mod tailings) src zero).

(** tensor.tcc:302-353 broadcast_tensor.  [fuel] bounds the recursion of line 352; each round makes one more dimension agree,
    so length new_shape + 1 rounds always suffice.  A shape longer than the target makes line 327 read past new_shape. *)
Fixpoint broadcast_loop (fuel : nat) (t : tensor) (new_shape : list nat) : M tensor :=
  match fuel with
  | O => fail_ub
  | S fuel' =>
      if list_eqb (shape t) new_shape then ret t
      else
        let updated := repeat 1 (length new_shape - length (shape t)) ++ shape t in
        do t' <- (if length (shape t) <? length new_shape then reshape t updated else ret t);
        if list_eqb updated new_shape then ret t'
        else if length new_shape <? length updated then fail_ub
        else
          match last_diff updated new_shape with
          | None => fail_ub
          | Some d =>
              do _ <- better_assert (nth d updated 0 =? 1);
              let headings := prod (firstn d updated) in
              let repeats := nth d new_shape 0 in
              let tailings := prod (skipn d updated) in
              let expanded := upd updated d repeats in
              do src <- data t';
              (* reads of v2 and writes of v3 must stay inside the two arrays *)
              if (headings * tailings <=? length src) && (headings * (repeats * tailings) <=? prod expanded)
              then
                do d' <- copy_front (stretch headings repeats tailings src) (zeros (prod expanded));
                do ans <- alloc expanded d';
                do ans' <- reshape ans expanded;
                broadcast_loop fuel' ans' new_shape
              else fail_ub
          end
  end.

Definition broadcast_tensor (t : tensor) (new_shape : list nat) : M tensor :=
  broadcast_loop (S (length new_shape)) t new_shape.

(** tensor.tcc:577-586 add and 608-618 minus (with f the addition or the subtraction).  llhs is a copy (sharing the storage)
    of what broadcast_tensor returns; the loop writes into it. *)
Definition zip_broadcast (f : A -> A -> A) (lhs rhs : tensor) : M tensor :=
  do s <- lift (broadcast_shape (shape lhs) (shape rhs));
  do llhs <- broadcast_tensor lhs s;
  do rrhs <- broadcast_tensor rhs s;
  do l <- data llhs;
  do r <- data rrhs;
  if length l <=? length r then
    do _ <- store llhs (map2 f l r); ret llhs
  else fail_ub.

(** tensor.tcc:594-662 scalar operators and tensor.hpp:460-465 unary minus: deep copy, then map in place *)
Definition scalar_op (f : A -> A) (t : tensor) : M tensor :=
  do ans <- deep_copy t;
  do _ <- map_inplace f ans;
  ret ans.

(** tensor.tcc:740-747 elementwise_divide: a fresh tensor of the left shape; the loop runs over the left elements *)
Definition zip_fresh (f : A -> A -> A) (lhs rhs : tensor) : M tensor :=
  do _ <- better_assert (list_eqb (shape lhs) (shape rhs));
  do l <- data lhs;
  do r <- data rhs;
  if length l <=? length r then
    do d <- copy_front (map2 f l r) (zeros (prod (shape lhs)));
    alloc (shape lhs) d
  else fail_ub.

Variables (plus mul : A -> A -> A).

(** ** matrix product *)

(** tensor.tcc:428-457 gemm_cpu.  view_2d::operator[] (utils/view.hpp:49-61): the row pitch is col_ normally and row_ when
    transposed, so element (i,j) of op(A) is read as a_view[i][j] or a_view[j][i]. *)
Definition view_index (row col : nat) (transposed : bool) (i j : nat) : nat :=
  if transposed then i * row + j else i * col + j.

(** one pass of the innermost body: c_view[r][c] += a * b, with the bounds made explicit *)
Definition gemm_step (a b : list A) (at_ bt : bool) (m n k : nat) (c : option (list A)) (r idx col : nat) : option (list A) :=
  match c with
  | None => None
  | Some c =>
      let pa := if at_ then view_index m n true idx r else view_index m n false r idx in
      let pb := if bt then view_index n k true col idx else view_index n k false idx col in
      let pc := view_index m k false r col in
      match nth_error a pa, nth_error b pb, nth_error c pc with
      | Some x, Some y, Some z => Some (upd c pc (plus z (mul x y)))
      | _, _, _ => None
      end
  end.

(** the loop nest r, idx, c of lines 437-456 (the four cases differ only in the two element positions) *)
Definition gemm_cpu (a : list A) (at_ : bool) (b : list A) (bt : bool) (m n k : nat) (c0 : list A) : option (list A) :=
  if m * k <=? length c0 then
    fold_left (fun c r => fold_left (fun c idx => fold_left (fun c col => gemm_step a b at_ bt m n k c r idx col)
                                                            (seq 0 k) c)
                                    (seq 0 n) c)
              (seq 0 m) (Some (zeros (m * k) ++ skipn (m * k) c0))
  else None.

(** tensor.tcc:671-697 multiply( lhs, rhs, ans ) for a default-constructed ans, as called from 699-705.
    Lines 674-675: a 1-D lhs becomes a row.  Lines 677-678: a 1-D rhs is reshaped to {lhs.size(), 1}.  The views of 688-689
    use shape[0] and shape[1]; 561-563 assert that the inner extents agree. *)
Definition multiply (lhs rhs : tensor) : M tensor :=
  do ans0 <- new_empty;
  do dl0 <- data lhs;
  do lhs' <- (if length (shape lhs) =? 1 then reshape lhs [1; length dl0] else ret lhs);
  do dl1 <- data lhs';
  do rhs' <- (if length (shape rhs) =? 1 then reshape rhs [length dl1; 1] else ret rhs);
  do _ <- better_assert (length (shape rhs') =? 2);
  match shape lhs', shape rhs' with
  | [m; n], n' :: k :: _ =>
      do ans <- resize ans0 [m; k];
      do _ <- better_assert (n =? n');
      do a <- data lhs';
      do b <- data rhs';
      do c <- data ans;
      match gemm_cpu a false b false m n k c with
      | Some c' => do _ <- store ans c'; ret ans
      | None => fail_ub
      end
  | [_; _], _ => fail_ub
  | _, _ => do _ <- better_assert false; ret ans0
  end.

(** tensor.tcc:714-732 elementwise_product.  The operand with fewer elements is the right one after the swap; the quotient of
    the sizes divides by r_size (integer division by zero when it is empty). *)
Definition product_loop (l r : list A) (repeats : nat) : list A :=
  fold_left (fun acc idx =>
    fold_left (fun acc jdx =>
        let p := idx * length r + jdx in upd acc p (mul (nth p acc zero) (nth jdx r zero)))
      (seq 0 (length r)) acc)
    (seq 0 repeats) l.

Definition elementwise_product_ordered (lhs rhs : tensor) : M tensor :=
  do l <- data lhs;
  do r <- data rhs;
  if length r =? 0 then fail_ub
  else
    let repeats := length l / length r in
    do _ <- better_assert (length r * repeats =? length l);
    do ans <- deep_copy lhs;
    do a <- data ans;
    do r' <- data rhs;
    do _ <- store ans (product_loop a r' repeats);
    ret ans.

Definition elementwise_product (lhs rhs : tensor) : M tensor :=
  do l <- data lhs;
  do r <- data rhs;
  if length l <? length r then elementwise_product_ordered rhs lhs else elementwise_product_ordered lhs rhs.

End Tensor.
