(** Model of sliding_2d (include/operation.hpp:2997-3096): zero padding, a random shift of every channel, cropping.

    The operator is cropping_2d( {pixels,} )( detailed_sliding_2d( ... )( zero_padding_2d( {pixels,} )( ex ) ) )
    (3094-3096); padding and cropping are those of LayerModel.

    Simplifications: extents are unbounded naturals and shifts unbounded integers (the code computes r-row_shift on unsigned
    64-bit numbers, where a negative number is larger than every extent, so that the test [>= 0 && < row] selects the same
    rows); the random numbers are a parameter, so that theorems hold for every draw; the debug assertion pixels >= 1 of
    zero_padding_2d (2841-2844) is taken to have passed; a shape of other than four extents is UB. *)
From Coq Require Import List Arith Lia Bool PeanoNat ZArith.
From Verif Require Import ListBase Loops TensorModel ArrayModel LayerModel.
Import ListNotations.
Local Open Scope nat_scope.

(** 3029-3030, 3034-3036: row or column y moved back by d, if that is on an image of n rows or columns *)
Definition moved_back (n y : nat) (d : Z) : option nat :=
  let s := (Z.of_nat y - d)%Z in
  if ((0 <=? s) && (s <? Z.of_nat n))%Z%bool then Some (Z.to_nat s) else None.

Section Slide.
Context {A : Type} (zero : A).
Variable dbg : bool.

(** the loops 3023-3042 (sgn = 1) and 3063-3082 (sgn = -1): batch, channel, row, column; only cells with a source are
    assigned *)
Definition slide_writes (n r c k : nat) (sgn : Z) (sh : list (Z * Z)) (d : list A) : list (nat * A) :=
  concat (loop4 n k r c (fun i w y z =>
    let s := nth w sh (0%Z, 0%Z) in
    match moved_back r y (sgn * fst s), moved_back c z (sgn * snd s) with
    | Some y', Some z' => [(pos4 r c k i y z w, nth (pos4 r c k i y' z' w) d zero)]
    | _, _ => []
    end)).

(** 3011-3016: the shifts of k channels from a stream of random numbers *)
Definition drawn (draws : nat -> Z) (k : nat) : list (Z * Z) := tab k (fun ch => (draws (2 * ch), draws (2 * ch + 1))).

(** forward of detailed_sliding_2d (3001-3045): outside the learning phase the input itself; gives the new shifts and the
    result *)
Definition slide_fwd (learning : bool) (draws : nat -> Z) (sh : list (Z * Z)) (x : arr A) : outcome (list (Z * Z) * arr A) :=
  if learning then
    match ashape x with
    | [n; r; c; k] =>
        if prod [n; r; c; k] <=? length (adata x) then
          let sh' := drawn draws k in
          obind (fill (repeat zero (prod [n; r; c; k])) [n; r; c; k] (slide_writes n r c k 1 sh' (adata x)))
            (fun p => Ok (sh', snd p))
        else UB
    | _ => UB
    end
  else Ok (sh, x).

(** backward of detailed_sliding_2d (3046-3085): the shifts of the last learning pass, whatever the phase; without shifts
    for every channel the read is out of range *)
Definition slide_bwd (sh : list (Z * Z)) (g : arr A) : outcome (arr A) :=
  match ashape g with
  | [n; r; c; k] =>
      if (length sh <? k) && negb (n =? 0) then UB
      else if prod [n; r; c; k] <=? length (adata g) then
        obind (fill (repeat zero (prod [n; r; c; k])) [n; r; c; k] (slide_writes n r c k (-1) sh (adata g))) (fun p => Ok (snd p))
      else UB
  | _ => UB
  end.

(** what the three operator objects keep between calls: the caches of padding and cropping, the shifts, and the input_data_
    of padding and of cropping (operation.hpp:70-71) *)
Record slider := Slider { pad_cache : list A; shifts : list (Z * Z); crop_cache : list A; pad_in : arr A; crop_in : arr A }.

(** a new operator: empty caches, default tensors *)
Definition new_slider : slider := Slider [] [] [] (Arr [] []) (Arr [] []).

(** 3094-3096: forward of sliding_2d( p ) *)
Definition sliding_fwd (p : nat) (learning : bool) (draws : nat -> Z) (s : slider) (x : arr A) : outcome (slider * arr A) :=
  obind (pad_fwd zero dbg p p p p (pad_cache s) x) (fun a =>
  obind (slide_fwd learning draws (shifts s) (snd a)) (fun b =>
  obind (crop_fwd zero dbg p p p p (crop_cache s) (snd b)) (fun d =>
  Ok (Slider (fst a) (fst b) (fst d) x (snd b), snd d)))).

(** backward of sliding_2d( p ): cropping, shift, padding *)
Definition sliding_bwd (p : nat) (s : slider) (g : arr A) : outcome (arr A) :=
  obind (crop_bwd zero p p p p (crop_in s) g) (fun g1 =>
  obind (slide_bwd (shifts s) g1) (fun g2 =>
  pad_bwd zero p p p p (pad_in s) g2)).

(** successive forward passes of one operator: the learning phase, the random numbers and the input of each *)
Fixpoint slidings (p : nat) (s : slider) (h : list (bool * (nat -> Z) * arr A)) : outcome (slider * list (arr A)) :=
  match h with
  | [] => Ok (s, [])
  | (learning, draws, x) :: t =>
      obind (sliding_fwd p learning draws s x) (fun a =>
      obind (slidings p (fst a) t) (fun b => Ok (fst b, snd a :: snd b)))
  end.

End Slide.
