(** Means, variances and moving averages, independently of the loops of NormModel.v. *)
From Coq Require Import List Arith Reals.
From Verif Require Import ListBase TensorModel ArrayModel LayerSpec.
Import ListNotations.
Local Open Scope R_scope.

Definition mean (l : list R) : R := rsum l / INR (length l).
Definition var (l : list R) : R := mean (map (fun x => (x - mean l) * (x - mean l)) l).

(** the elements of channel c of a tensor with ch channels: those at c, c + ch, c + 2 ch, ... *)
Definition channel (ch c : nat) (x : arr R) : list R := tab (length (adata x) / ch) (fun r => nth (r * ch + c) (adata x) 0).

(** a batch: at least two dimensions, the last of extent ch, elements in all of them *)
Definition batch (ch : nat) (x : arr R) : Prop := exists d s, ashape x = (d :: s) ++ [ch] /\ length (adata x) = prod (ashape x) /\ (prod (ashape x) <> 0)%nat.

(** standardised by a mean and a variance *)
Definition scaled (eps m v : R) (l : list R) : list R := map (fun x => (x - m) / sqrt (v + eps)) l.

(** the moving average of statistics f of the batches xs, oldest first: weight (1 - p) p^i for the batch i before the last *)
Definition moving {X} (p : R) (f : X -> R) (xs : list X) : R := rsum (tab (length xs) (fun i => (1 - p) * p ^ (length xs - 1 - i) * nth i (map f xs) 0)).
