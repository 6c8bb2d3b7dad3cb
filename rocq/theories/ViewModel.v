(** Model of include/utils/view.hpp (views of an array as a matrix, cube, 4-D or N-D tensor) and include/utils/stride_iterator.hpp.

    A pointer is the number of elements between the array's start and what it points at.  An array has [size] elements; a pointer
    may be formed to each of them and one past the last (C++: other results of pointer arithmetic are undefined behaviour), and
    dereferenced at each of them.  unsigned long has 64 bits and wraps around.  Elements are read and written through the location
    an access yields.  Left out: the overloads for const (the same text), typedefs, nullptr (the default of view_4d). *)
From Coq Require Import List Bool NArith ZArith.
From Verif Require Import TensorModel.
Import ListNotations.
Local Open Scope N_scope.

(** unsigned long *)
Definition w64 (x : N) : N := x mod 18446744073709551616.

Section Views.
Variable size : N.     (* the array's number of elements *)
Variable dbg : bool.   (* debug build: better_assert is active *)

(** data + k *)
Definition padd (p k : N) : outcome N := if p + k <=? size then Ok (p + k) else UB.
(** the location a pointer points at *)
Definition deref (p : N) : outcome N := if p <? size then Ok p else UB.

(** view_2d: view.hpp:28-52 *)
Record view2 := V2 { data2 : N; row2 : N; col2 : N; transposed : bool }.
(** operator[]: view.hpp:53-66 *)
Definition index2 (v : view2) (i : N) : outcome N := padd (data2 v) (w64 (i * if transposed v then row2 v else col2 v)).
(** v[i][j] *)
Definition at2 (v : view2) (i j : N) : outcome N := obind (index2 v i) (fun p => obind (padd p j) deref).
(** size(), end(): view.hpp:69-75 *)
Definition size2 (v : view2) : N := w64 (row2 v * col2 v).
Definition end2 (v : view2) : outcome N := padd (data2 v) (size2 v).
(** row_begin, row_end: view.hpp:80-84 *)
Definition row_begin (v : view2) (i : N) : outcome N := padd (data2 v) (w64 (i * col2 v)).
Definition row_end (v : view2) (i : N) : outcome N := padd (data2 v) (w64 (w64 (i + 1) * col2 v)).

(** One application of operator[] to a view of the given shape whose data is at p; the result is a view of the remaining shape, or,
    when it is empty, the location.  Rank 1: view.hpp:17 and raw pointers; 2: 53-58 (not transposed); 3: 104-112; 4: 153-173;
    5 and more: 227-249, which hands the last four dimensions to view<T, 4> (202-208). *)
Definition sub (p : N) (shape : list N) (i : N) : outcome (N * list N) :=
  match shape with
  | [] => UB
  | [_] => obind (padd p i) (fun q => obind (deref q) (fun l => Ok (l, [])))
  | [_; c] => obind (padd p (w64 (i * c))) (fun q => Ok (q, [c]))
  | [_; c; k] => obind (padd p (w64 (w64 (i * c) * k))) (fun q => Ok (q, [c; k]))
  | [_; r; c; k] => obind (padd p (w64 (w64 (w64 (i * r) * c) * k))) (fun q => Ok (q, [r; c; k]))
  | n :: rest =>
      if dbg && negb (i <? n) then Abort
      else obind (padd p (w64 (i * fold_left (fun a b => w64 (a * b)) rest 1))) (fun q => Ok (q, rest))
  end.

(** v[i0][i1]... *)
Fixpoint at_ (p : N) (shape : list N) (idx : list N) : outcome (N * list N) :=
  match idx with
  | [] => Ok (p, shape)
  | i :: idx' => obind (sub p shape i) (fun v => at_ (fst v) (snd v) idx')
  end.

(** stride_iterator over pointers: stride_iterator.hpp:21-22 *)
Record stride := Stride { iter : Z; step : Z }.
(** pointer + signed difference *)
Definition zadd (p d : Z) : outcome Z := if ((0 <=? p + d) && (p + d <=? Z.of_N size))%Z then Ok (p + d)%Z else UB.
(** operator++, operator--: 32-35, 53-56 *)
Definition next (s : stride) : outcome stride := obind (zadd (iter s) (step s)) (fun p => Ok (Stride p (step s))).
Definition prev (s : stride) : outcome stride := obind (zadd (iter s) (- step s)) (fun p => Ok (Stride p (step s))).
(** operator+=, operator+: 42-52 *)
Definition plus (s : stride) (d : Z) : outcome stride := obind (zadd (iter s) (step s * d)) (fun p => Ok (Stride p (step s))).
(** operator*: 84-87 *)
Definition star (s : stride) : outcome N := if ((0 <=? iter s) && (iter s <? Z.of_N size))%Z then Ok (Z.to_N (iter s)) else UB.
(** operator[]: 76-79 *)
Definition nth_stride (s : stride) (d : Z) : outcome N := obind (zadd (iter s) (d * step s)) (fun p => star (Stride p (step s))).
(** the difference: 95-99; division by a step of zero is undefined *)
Definition minus (s t : stride) : outcome Z :=
  if dbg && negb (step s =? step t)%Z then Abort else if (step s =? 0)%Z then UB else Ok ((iter s - iter t) ÷ step s)%Z.
(** operator==: 93, defaulted *)
Definition same (s t : stride) : bool := ((iter s =? iter t) && (step s =? step t))%Z.

(** col_begin, col_end: view.hpp:86-87 *)
Definition col_begin (v : view2) (i : N) : outcome stride := obind (padd (data2 v) i) (fun p => Ok (Stride (Z.of_N p) (Z.of_N (col2 v)))).
Definition col_end (v : view2) (i : N) : outcome stride := obind (col_begin v i) (fun s => plus s (Z.of_N (row2 v))).

(** for ( it = b; it != e; ++it ) use( *it );   the locations used, at most fuel many *)
Fixpoint walk (fuel : nat) (b e : stride) : outcome (list N) :=
  if same b e then Ok []
  else match fuel with
       | O => UB
       | S fuel' => obind (star b) (fun l => obind (next b) (fun b' => obind (walk fuel' b' e) (fun ls => Ok (l :: ls))))
       end.
(** the same with row times ++ instead of a comparison with the end *)
Fixpoint steps (n : nat) (b : stride) : outcome (list N) :=
  match n with
  | O => Ok []
  | S n' => obind (star b) (fun l => match n' with O => Ok [l] | _ => obind (next b) (fun b' => obind (steps n' b') (fun ls => Ok (l :: ls))) end)
  end.
End Views.
