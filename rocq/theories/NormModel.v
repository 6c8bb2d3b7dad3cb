(** Model of normalization_batch (include/operation.hpp:2245-2370): an operator that keeps statistics of its input from run to run.

    Each of the operator's caches is a std::any that starts out without a value; context_cast( cache, initial ) gives it the value
    [initial] unless it has one already (utils/context_cast.hpp:10-18).  Here a cache is an option.

    Simplifications: numbers are real numbers; extents are unbounded naturals; the tensor returned by a run shares the storage of the
    operator's forward cache, which every run writes completely, or, in the untrained prediction (2274-2275), the input's: results are
    given as values here.  The two caches average_cache and forward_cache are written before they are read in every run, so they are not
    part of the state. *)
From Coq Require Import List Arith Bool Reals.
From Verif Require Import ListBase TensorModel ArrayModel.
Import ListNotations.
Local Open Scope R_scope.

(** 2247-2252: the caches whose contents matter from run to run *)
Record norm := Norm {
  global_average : option (list R);
  global_variance : option (list R);
  variance : option (list R);
  backward_cache : option (arr R) }.

(** a new operator *)
Definition fresh_norm : norm := Norm None None None None.

Section Norm.
Variables (dbg : bool) (eps momentum : R).

(** 2265-2268: channels and rest_dims; rbegin() of an empty shape and division by zero are undefined *)
Definition with_channels {T} (x : arr R) (k : nat -> nat -> outcome T) : outcome T :=
  let channels := last (ashape x) 0%nat in
  match ashape x with
  | [] => UB
  | _ => if (channels =? 0)%nat then UB else k channels (length (adata x) / channels)%nat
  end.

(** element [r][c] of a view_2d (utils/view.hpp) *)
Definition cell (d : list R) (channels r c : nat) : R := nth (r * channels + c) d 0.

(** 2293-2302: for every row, every channel: average[jdx] += input_[idx][jdx]; then /= rest_dims *)
Definition average_of (d : list R) (rest_dims channels : nat) : list R :=
  map (fun a => a / INR rest_dims)
    (fold_left (fun acc idx => tab channels (fun jdx => nth jdx acc 0 + cell d channels idx jdx)) (seq 0 rest_dims) (repeat 0 channels)).

(** 2304-2314 *)
Definition variance_of (d average : list R) (rest_dims channels : nat) : list R :=
  map (fun a => a / INR rest_dims)
    (fold_left (fun acc idx => tab channels (fun jdx => nth jdx acc 0 + (cell d channels idx jdx - nth jdx average 0) ^ 2)) (seq 0 rest_dims) (repeat 0 channels)).

(** 2278-2288 and 2317-2324 *)
Definition normalized (d average variance : list R) (rest_dims channels : nat) : list R :=
  tab2 rest_dims channels (fun r c => (cell d channels r c - nth c average 0) / sqrt (nth c variance 0 + eps)).

(** 2334-2339: the loop runs over the elements of the global average *)
Definition moved (old new : list R) (n : nat) : list R := tab n (fun i => nth i old 0 * momentum + nth i new 0 * (1 - momentum)) ++ skipn n old.

(** 2257-2343, learning_phase != 0 *)
Definition train (x : arr R) (s : norm) : outcome (arr R * norm) :=
  check dbg (1 <? length (ashape x))%nat (with_channels x (fun channels rest_dims =>
    let avg := average_of (adata x) rest_dims channels in
    let var := variance_of (adata x) avg rest_dims channels in
    let ga := match global_average s with Some l => l | None => repeat 0 channels end in
    let gv := match global_variance s with Some l => l | None => repeat 0 channels end in
    let n := length ga in
    if ((channels <? n) || (length gv <? n))%nat then UB
    else Ok (Arr (ashape x) (normalized (adata x) avg var rest_dims channels),
             Norm (Some (moved ga avg n)) (Some (moved gv var n)) (Some var) (backward_cache s)))).

(** 2257-2289, learning_phase == 0; extracting a cache without a value fails (an assertion, or std::bad_any_cast in a noexcept function) *)
Definition predict (x : arr R) (s : norm) : outcome (arr R * norm) :=
  check dbg (1 <? length (ashape x))%nat (with_channels x (fun channels rest_dims =>
    let ga := match global_average s with Some l => l | None => [] end in
    let s' := Norm (Some ga) (global_variance s) (variance s) (backward_cache s) in
    match ga, global_variance s with
    | [], _ => Ok (x, s')
    | _, None => Abort
    | _, Some gv =>
        if ((length ga <? channels) || (length gv <? channels))%nat then UB
        else Ok (Arr (ashape x) (normalized (adata x) ga gv rest_dims channels), s')
    end)).

(** 2346-2364; the cache keeps the shape of the first input *)
Definition back (x g : arr R) (s : norm) : outcome (arr R * norm) :=
  match variance s with
  | None => Abort
  | Some var =>
      with_channels x (fun channels rest_dims =>
        let ans := match backward_cache s with Some a => a | None => Arr (ashape x) (repeat 0 (prod (ashape x))) end in
        let n := (rest_dims * channels)%nat in
        if ((length (adata ans) <? n) || (length (adata g) <? n) || (length var <? channels))%nat then UB
        else let a := Arr (ashape ans) (tab2 rest_dims channels (fun r c => cell (adata g) channels r c / sqrt (nth c var 0 + eps)) ++ skipn n (adata ans)) in
             Ok (a, Norm (global_average s) (global_variance s) (variance s) (Some a)))
  end.

(** what a program does with the operator: forward passes in either phase, and backward passes *)
Inductive use := Train (x : arr R) | Predict (x : arr R) | Back (x g : arr R).

Definition use1 (u : use) (s : norm) : outcome (arr R * norm) :=
  match u with Train x => train x s | Predict x => predict x s | Back x g => back x g s end.

Fixpoint uses (us : list use) (s : norm) : outcome (list (arr R) * norm) :=
  match us with
  | [] => Ok ([], s)
  | u :: us => obind (use1 u s) (fun r => obind (uses us (snd r)) (fun r' => Ok (fst r :: fst r', snd r')))
  end.

End Norm.
