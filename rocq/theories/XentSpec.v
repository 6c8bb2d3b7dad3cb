(** What cross_entropy_loss is about.  A batch of scores y and a batch of labels, both with rows of n elements; element j of row r is
    element r n + j. *)
From Coq Require Import List Arith Bool Reals.
From Coquelicot Require Import Rcomplements Hierarchy Derive.
From Verif Require Import ListBase TensorModel GraphModel GraphSpec GradSpec LayerSpec CalcSpec GradProps.
Import ListNotations.
Local Open Scope nat_scope.

(** the label of an element whose target is t: 1 - smooth for a target above eps, otherwise its share of smooth *)
Definition given (eps smooth : R) (n : nat) (t : R) : R := if Rlt_dec eps t then (1 - smooth)%R else (smooth / INR (n - 1))%R.

(** every row has exactly one target above eps *)
Definition one_hot (eps : R) (rows n : nat) (target : nat -> R) : Prop :=
  forall r, r < rows -> exists j, j < n /\ (eps < target (r * n + j)%nat)%R /\ forall i, i < n -> i <> j -> (target (r * n + i)%nat <= eps)%R.

(** sum of the exponentials of a row; the softmax of an element *)
Definition row_exp (n : nat) (y : nat -> R) (r : nat) : R := rsum (tab n (fun j => exp (y (r * n + j)))).
Definition share (n : nat) (y : nat -> R) (i : nat) : R := (exp (y i) / row_exp n y (i / n))%R.

(** the cross entropy of labels and softmax, summed over the batch *)
Definition entropy (rows n : nat) (lab y : nat -> R) : R := (- rsum (tab (rows * n) (fun i => lab i * ln (share n y i))))%R.

(** for every row, the logarithm of the sum of the exponentials less the labelled scores *)
Definition logits (rows n : nat) (lab y : nat -> R) : R :=
  rsum (tab rows (fun r => ln (row_exp n y r) - rsum (tab n (fun j => lab (r * n + j)%nat * y (r * n + j)%nat)))%R).

(** softmax with eps added to the denominator after dividing both by the exponential of the largest score of the row *)
Definition largest (n : nat) (y : nat -> R) (r : nat) : R := fold_right Rmax (y (r * n)) (tab n (fun j => y (r * n + j))).
Definition damped (eps : R) (n : nat) (y : nat -> R) (i : nat) : R := (exp (y i) / (row_exp n y (i / n) + eps * exp (largest n y (i / n))))%R.

(** the value of the loss: damped, and cut off at eps *)
Definition reported (eps : R) (batch rows n : nat) (lab y : nat -> R) : R :=
  (- rsum (tab (rows * n) (fun i => lab i * ln (Rmax eps (damped eps n y i)))) / INR batch)%R.

(** g and l differ by at most eps times the sum of the output's derivatives with respect to element i of v *)
Definition within (eps : R) (s : st R) (out : expr R) (count v i : nat) (g l : R) : Prop :=
  exists dy, (forall j, j < count -> is_derive (fun x => entry (evalR (nudge (env_of s) v i x) out) j) (nth i (data_of s v) 0%R) (dy j)) /\
    (Rabs (g - l) <= eps * rsum (tab count (fun j => Rabs (dy j))))%R.
