(** Specification vocabulary for gradients over the real numbers: values that move with a parameter, and operators whose
    backward action is right. *)
From Coq Require Import List Arith Lia Bool PeanoNat Reals.
From Coquelicot Require Import Rcomplements Hierarchy Derive.
From Verif Require Import ListBase TensorModel TensorSpec GraphModel GraphSpec GradSpec LayerSpec.
Import ListNotations.
Local Open Scope nat_scope.

Definition rleb (a b : R) : bool := if Rle_dec a b then true else false.

(** as many elements as the shape says *)
Definition sized (v : val R) : Prop := length (snd v) = prod (fst v).

(** element p of a value *)
Definition entry (v : option (val R)) (p : nat) : R := match v with Some w => nth p (snd w) 0%R | None => 0%R end.

(** The value c t, which depends on a real parameter, is v at t0, keeps its shape nearby, and each of its elements has the
    derivative given in dv. *)
Record tangent (c : R -> option (val R)) (t0 : R) (v : val R) (dv : list R) : Prop := {
  tan_at : c t0 = Some v;
  tan_sized : sized v;
  tan_len : length dv = prod (fst v);
  tan_near : locally t0 (fun t => exists w, c t = Some w /\ fst w = fst v /\ sized w);
  tan_derive : forall p, p < prod (fst v) -> is_derive (fun t => entry (c t) p) t0 (nth p dv 0%R)
}.

(** the forward actions *)
Definition apply1 (o : uop R) (i : val R) : option (val R) :=
  match o with
  | UNew _ f _ _ => f i
  | UView f => match f (fst i) with Some s => Some (s, snd i) | None => None end
  end.
Definition apply2 (o : bop R) (a b : val R) : option (val R) :=
  match o with
  | BPlus => plus_val 0%R Rplus a b
  | BNew _ f _ _ => f a b
  end.

(** The local rule of a unary operator is right at i: however the input moves through i with velocity di, the result moves
    with some velocity dy, and for every incoming gradient g the backward action's gradient gi satisfies <g, dy> = <gi, di>. *)
Definition right1 (o : uop R) (i : val R) : Prop :=
  forall c t0 di, tangent c t0 i di ->
    exists y dy, tangent (fun t => obind2 (c t) (apply1 o)) t0 y dy /\
      forall g, fst g = fst y -> sized g ->
        exists gi, local1 o i g = Some gi /\ fst gi = fst i /\ sized gi /\ inner (snd g) dy = inner (snd gi) di.

(** The same for a binary operator. *)
Definition right2 (dbg : bool) (o : bop R) (a b : val R) : Prop :=
  forall ca cb t0 da db, tangent ca t0 a da -> tangent cb t0 b db ->
    exists y dy, tangent (fun t => obind2 (ca t) (fun a => obind2 (cb t) (fun b => apply2 o a b))) t0 y dy /\
      forall g, fst g = fst y -> sized g ->
        exists ga gb, local2 0%R Rplus dbg o a b g = Some (ga, gb) /\ fst ga = fst a /\ sized ga /\ fst gb = fst b /\ sized gb /\
          inner (snd g) dy = (inner (snd ga) da + inner (snd gb) db)%R.

(** the value of an expression over the real numbers, and the values of two operands *)
Definition evalR (q : env R) (e : expr R) : option (val R) := eval 0%R 1%R Rplus Rmult q e.
Definition operandsR (q : env R) (l r : expr R) : option (val R * val R) := operands 0%R 1%R Rplus Rmult q l r.

(** every operator of e is right at the values of its operands *)
Definition right_everywhere (dbg : bool) (q : env R) (e : expr R) : Prop :=
  (forall k n o x i, At e k (EUn n o x) -> evalR q x = Some i -> right1 o i) /\
  (forall k n o l r a b, At e k (EBin n o l r) -> operandsR q l r = Some (a, b) -> right2 dbg o a b).

(** the leaves, with element p of variable v replaced by t *)
Definition nudge (q : env R) (v p : nat) (t : R) : env R :=
  Env (fun u => if u =? v then (fst (e_var q v), upd (snd (e_var q v)) p t) else e_var q u) (e_hold q) (e_const q).

(** <g, e>: the number whose derivatives back-propagation computes *)
Definition paired (g : list R) (v : option (val R)) : R := match v with Some w => inner g (snd w) | None => 0%R end.

(** the occurrences of variables in an expression: slot and variable *)
Fixpoint uses {A} (k : slot) (e : expr A) : list (slot * nat) :=
  match e with
  | EVar v => [(k, v)]
  | EHold _ | EConst _ | EVal _ => []
  | EUn n _ x => uses (Some (n, false)) x
  | EBin n _ l r => uses (Some (n, false)) l ++ uses (Some (n, true)) r
  end.

(** the derivative of the regularisers l1 |x| + l2 x^2 of an occurrence; one below eps counts as absent *)
Definition reg (eps : R) (o : vobj (A:=R)) (x : R) : R :=
  ((if rleb eps (l1 o) then if rleb 0 x then l1 o else - l1 o else 0) + (if rleb eps (l2 o) then 2 * x * l2 o else 0))%R.

(** the regularisers of the trainable occurrences of v *)
Definition penalty (eps : R) (vo : slot -> vobj (A:=R)) (v : nat) (x : R) (us : list (slot * nat)) : R :=
  rsum (map (fun u => if (snd u =? v) && trainable (vo (fst u)) then reg eps (vo (fst u)) x else 0%R) us).

(** element p of the gradients that reach the trainable occurrences of v *)
Definition arrived (vo : slot -> vobj (A:=R)) (v p : nat) (ds : list (delivery (A:=R))) : R :=
  rsum (map (fun d => match d with (k, v', g) => if (v' =? v) && trainable (vo k) then nth p (snd g) 0%R else 0%R end) ds).
