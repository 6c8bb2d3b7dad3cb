(** Model of random tensors: tensor.hpp:31-34 (random_seed, random_generator), tensor.tcc:826-905 (randn, truncated_normal, poisson, random,
    rand, random_like, randn_like, glorot_uniform), and the initial values layers give their variables (layer.hpp:118-119, 179-180, 241-242).

    The generator (std::mt19937) is any type with a function from seeds and a function that draws a number of [0, 1)
    (std::generate_canonical); normal and Poisson distributions are any functions of the generator.  A distribution object may have a
    state of its own (normal_distribution keeps every second number); every call makes a new object.

    Simplifications: elements are real numbers, so that a uniform number is below its upper limit (in float, rounding can make it equal);
    the loop of truncated_normal has fuel, and [Endless] means that the fuel does not suffice; the static variables are those of one
    translation unit (every unit that includes tensor.hpp has its own). *)
From Coq Require Import List Arith Bool PeanoNat NArith ZArith Reals.
From Flocq Require Import Core.Raux.
From Verif Require Import ListBase TensorModel.
Import ListNotations.
Local Open Scope nat_scope.

Inductive result (T : Type) := Done (v : T) | Undefined | Endless.
Arguments Done {T}. Arguments Undefined {T}. Arguments Endless {T}.
Definition rbind {S T} (m : result S) (f : S -> result T) : result T := match m with Done v => f v | Undefined => Undefined | Endless => Endless end.

(** (shape, elements) *)
Definition array : Type := list nat * list R.

Section Random.
Context {G D : Type}.
Variable (engine : N -> G) (canonical : G -> R * G).
Variable (fresh : R -> R -> D) (normal : D -> G -> R * (D * G)).
Variable (poissonian : Z -> G -> Z * G).

(** std::generate over n elements *)
Fixpoint generate {S} (next : S -> R * S) (n : nat) (s : S) : list R * S :=
  match n with
  | 0 => ([], s)
  | S n => let (v, s) := next s in let (l, s) := generate next n s in (v :: l, s)
  end.

(** std::uniform_real_distribution: [random.distributions]; min <= max is required *)
Definition uniform (min max : R) (g : G) : R * G := let (u, g) := canonical g in ((u * (max - min) + min)%R, g).

(** tensor.tcc:869-876 random; 878-882 rand and 884-888 random_like call it *)
Definition random (shape : list nat) (min max : R) (g : G) : result (array * G) :=
  if Rle_bool min max then let (l, g) := generate (uniform min max) (prod shape) g in Done ((shape, l), g) else Undefined.

(** tensor.tcc:826-833 randn; 890-894 randn_like calls it; stddev > 0 is required *)
Definition randn (shape : list nat) (mean stddev : R) (g : G) : result (array * G) :=
  if Rlt_bool 0 stddev then
    let (l, s) := generate (fun s => normal (fst s) (snd s)) (prod shape) (fresh mean stddev, g) in Done ((shape, l), snd s)
  else Undefined.

(** tensor.tcc:842-850: draw until a number is accepted *)
Fixpoint until (fuel : nat) (lower upper : R) (s : D * G) : result (R * (D * G)) :=
  match fuel with
  | 0 => Endless
  | S fuel => let (x, s) := normal (fst s) (snd s) in
              if Rle_bool lower x && Rle_bool x upper then Done (x, s) else until fuel lower upper s
  end.
Fixpoint fill (fuel : nat) (lower upper : R) (n : nat) (s : D * G) : result (list R * (D * G)) :=
  match n with
  | 0 => Done ([], s)
  | S n => rbind (until fuel lower upper s) (fun xs => rbind (fill fuel lower upper n (snd xs)) (fun ls => Done (fst xs :: fst ls, snd ls)))
  end.
(** tensor.tcc:835-854 truncated_normal *)
Definition truncated_normal (fuel : nat) (shape : list nat) (mean stddev lower upper : R) (g : G) : result (array * G) :=
  if Rlt_bool 0 stddev then rbind (fill fuel lower upper (prod shape) (fresh mean stddev, g)) (fun ls => Done ((shape, fst ls), snd (snd ls)))
  else Undefined.

(** static_cast<long>: tensor.tcc:863; undefined if the truncated number is not a long *)
Definition to_long (x : R) : result Z :=
  let z := Ztrunc x in if (Z.leb (-9223372036854775808) z && Z.leb z 9223372036854775807)%bool then Done z else Undefined.
(** tensor.tcc:856-867 poisson; the mean of a Poisson distribution must be positive *)
Fixpoint poissons (l : list R) (g : G) : result (list R * G) :=
  match l with
  | [] => Done ([], g)
  | x :: l => rbind (to_long x) (fun z => if Z.ltb 0 z then let (k, g) := poissonian z g in rbind (poissons l g) (fun r => Done (IZR k :: fst r, snd r)) else Undefined)
  end.
Definition poisson (t : array) (g : G) : result (array * G) := rbind (poissons (snd t) g) (fun r => Done ((fst t, fst r), snd r)).

(** tensor.tcc:899-905 glorot_uniform; *( shape.begin()+1 ) of a shorter list must not be read *)
Definition bound_of (d0 d1 : nat) : R := sqrt (6 / Rmax 1 (INR d0 + INR d1)).
Definition glorot_uniform (shape : list nat) (g : G) : result (array * G) :=
  match shape with
  | d0 :: d1 :: _ => let b := bound_of d0 d1 in random shape (- b) b g
  | _ => Undefined
  end.

(** the variables layers make, in pairs: the kernel, then the bias (zeros: tensor.tcc:976-980) *)
Fixpoint initial (ps : list (list nat)) (g : G) : result (list array * G) :=
  match ps with
  | ws :: bs :: ps => rbind (glorot_uniform ws g) (fun w => rbind (initial ps (snd w)) (fun r => Done (fst w :: (bs, repeat 0%R (prod bs)) :: fst r, snd r)))
  | [] => Done ([], g)
  | _ => Undefined
  end.

(** A user's program: assignments to random_seed and random tensors.  The process: random_seed and random_generator. *)
Inductive act :=
| Seed (z : N)
| Random (shape : list nat) (min max : R)
| Randn (shape : list nat) (mean stddev : R)
| Truncated (shape : list nat) (mean stddev lower upper : R)
| Glorot (shape : list nat)
| Poisson (t : array).

Record process := Process { seed : N; gen : G }.

(** tensor.hpp:31-34: the static variables are initialised before main runs *)
Definition start (clock : N) : process := Process clock (engine clock).

Definition tell (p : process) (r : result (array * G)) : result (list array * process) := rbind r (fun ag => Done ([fst ag], Process (seed p) (snd ag))).
Definition perform (fuel : nat) (a : act) (p : process) : result (list array * process) :=
  match a with
  | Seed z => Done ([], Process z (gen p))
  | Random sh lo hi => tell p (random sh lo hi (gen p))
  | Randn sh m s => tell p (randn sh m s (gen p))
  | Truncated sh m s lo hi => tell p (truncated_normal fuel sh m s lo hi (gen p))
  | Glorot sh => tell p (glorot_uniform sh (gen p))
  | Poisson t => tell p (poisson t (gen p))
  end.
Fixpoint performs (fuel : nat) (l : list act) (p : process) : result (list array * process) :=
  match l with
  | [] => Done ([], p)
  | a :: l => rbind (perform fuel a p) (fun r => rbind (performs fuel l (snd r)) (fun r' => Done (fst r ++ fst r', snd r')))
  end.

(** what the program sees *)
Definition seen (r : result (list array * process)) : result (list array) := rbind r (fun x => Done (fst x)).
End Random.
Arguments process : clear implicits.
