(** Vocabulary of the properties of random tensors. *)
From Coq Require Import List Arith Bool PeanoNat NArith ZArith Reals.
From Verif Require Import ListBase RandModel.
Import ListNotations.
Local Open Scope nat_scope.

(** the source after n numbers, and these numbers *)
Fixpoint after {T S} (next : S -> T * S) (n : nat) (s : S) : S := match n with 0 => s | S n => after next n (snd (next s)) end.
Definition numbers {T S} (next : S -> T * S) (n : nat) (s : S) : list T := map (fun k => fst (next (after next k s))) (seq 0 n).

(** a distribution object and the generator it is called with *)
Definition both {D G} (normal : D -> G -> R * (D * G)) (s : D * G) : R * (D * G) := normal (fst s) (snd s).

(** a number between two limits *)
Definition accepted (lower upper x : R) : bool := if Rle_dec lower x then if Rle_dec x upper then true else false else false.

(** Glorot's bound, from the numbers of inputs and outputs of a unit *)
Definition glorot (fan_in fan_out : nat) : R := sqrt (6 / INR (fan_in + fan_out)).
Definition inside (b x : R) : Prop := (- b <= x < b)%R.

(** the next numbers of Poisson distributions with these means *)
Inductive counts {G} (poissonian : Z -> G -> Z * G) : list R -> G -> list R -> G -> Prop :=
| cs_nil g : counts poissonian [] g [] g
| cs_cons x l mean g k g1 ks g' : (0 < mean)%Z -> (IZR mean <= x < IZR mean + 1)%R -> poissonian mean g = (k, g1) -> counts poissonian l g1 ks g' ->
    counts poissonian (x :: l) g (IZR k :: ks) g'.

(** assignments to random_seed *)
Definition assigns (a : act) : bool := match a with Seed _ => true | _ => false end.

(** the elements of the kernels: every second shape *)
Fixpoint kernels (ps : list (list nat)) : nat := match ps with ws :: _ :: ps => prod ws + kernels ps | _ => 0 end.
