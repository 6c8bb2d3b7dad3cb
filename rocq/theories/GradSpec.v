(** Specification vocabulary for back-propagation: which gradients reach which occurrences of variables. *)
From Coq Require Import List Arith Lia Bool PeanoNat.
From Verif Require Import ListBase TensorModel TensorSpec GraphModel GraphSpec.
Import ListNotations.

Section Grad.
Context {A : Type} (zero one : A) (add mul : A -> A -> A) (opp : A -> A) (leb : A -> A -> bool) (eps : A).
Variable dbg : bool.
Variable q : env A.
Notation eval := (eval zero one add mul q).
Notation operands := (operands zero one add mul q).
Notation inplace := (inplace zero one add mul q).
Notation path := (path zero one add mul q).
Notation unbroadcast := (unbroadcast zero add dbg).

(** a gradient arriving at an occurrence of a variable: its slot, the variable, the gradient *)
Definition delivery : Type := slot * nat * val A.

(** the gradients of the operands of an operator, from the values of its operands and its result *)
Definition local1 (o : uop A) (i g : val A) : option (val A) :=
  match o with
  | UNew _ f _ b => obind2 (f i) (fun y => b i y g)
  | UView _ => Some (fst i, snd g)
  end.
Definition local2 (o : bop A) (a b g : val A) : option (val A * val A) :=
  match o with
  | BPlus => obind2 (unbroadcast (fst a) g) (fun gl => obind2 (unbroadcast (fst b) g) (fun gr => Some (gl, gr)))
  | BNew _ f _ bk => obind2 (f a b) (fun y => bk a b y g)
  end.

(** the chain rule, from the root to the leaves, left operand first *)
Fixpoint grads (k : slot) (e : expr A) (g : val A) : option (list delivery) :=
  match e with
  | EVar v => Some [(k, v, g)]
  | EHold _ | EConst _ | EVal _ => Some []
  | EUn n o x => obind2 (eval x) (fun i => obind2 (local1 o i g) (fun g1 => grads (Some (n, false)) x g1))
  | EBin n o l r =>
      obind2 (operands l r) (fun p => obind2 (local2 o (fst p) (snd p) g) (fun gs =>
        obind2 (grads (Some (n, false)) l (fst gs)) (fun dl =>
        obind2 (grads (Some (n, true)) r (snd gs)) (fun dr => Some (dl ++ dr)))))
  end.

(** what one delivery d does to the gradient cur of a variable with elements dat, for the occurrence o *)
Definition deliver (o : vobj (A:=A)) (dat cur d : list A) : list A :=
  if trainable o then
    let c := map2 add cur d in
    if synced o then c
    else map2 (fun x y => l2_term one add mul leb eps o x (l1_term zero add opp leb eps o x y)) dat c
  else cur.

(** all deliveries to variable v, in order *)
Definition gather (vo : slot -> vobj (A:=A)) (dat : list A) (v : nat) (ds : list delivery) (cur : list A) : list A :=
  fold_left (fun c d => match d with (k, v', g) => if v' =? v then deliver (vo k) dat c (snd g) else c end) ds cur.

(** a delivery reaches the occurrence in slot k' *)
Definition hit (k' : slot) (ds : list delivery) : bool := existsb (fun d => slot_eqb (fst (fst d)) k') ds.

(** an occurrence has added its regulariser's gradient *)
Definition mark (o : vobj (A:=A)) : vobj := if trainable o then VObj true (trainable o) (l1 o) (l2 o) else o.
Definition marks (ds : list delivery) (vo : slot -> vobj (A:=A)) : slot -> vobj := fun k => if hit k ds then mark (vo k) else vo k.

(** several backward passes, one after the other *)
Fixpoint gathers (vo : slot -> vobj (A:=A)) (dat : list A) (v : nat) (dss : list (list delivery)) (cur : list A) : list A :=
  match dss with
  | [] => cur
  | ds :: dss => gathers (marks ds vo) dat v dss (gather vo dat v ds cur)
  end.

(** a delivery has the shape of the variable *)
Definition fits (d : delivery) : Prop :=
  match d with (_, v, g) => fst g = fst (e_var q v) /\ length (snd g) = prod (fst g) end.

(** the elements of the incoming gradient's tensor after the backward pass: actions that work in place overwrite it *)
Fixpoint seed_after (e : expr A) (g : val A) : option (list A) :=
  match e with
  | EUn n o x =>
      obind2 (eval x) (fun i =>
        match o with
        | UNew _ _ IntoGrad _ => obind2 (local1 o i g) (fun g1 => seed_after x g1)
        | UView _ => seed_after x (fst i, snd g)
        | _ => Some (snd g)
        end)
  | _ => Some (snd g)
  end.

(** each variable has a gradient of its own shape: variable.hpp:56-64 *)
Definition graded (e : expr A) (s : st A) : Prop :=
  forall k v, At e k (EVar v) -> shape (vgrad (vars s v)) = shape (vdata (vars s v)) /\
    length (nth (ref (vgrad (vars s v))) (hp s) []) = prod (shape (vdata (vars s v))).

(** the backward action does not look at the result *)
Definition blind (x : expr A) : Prop :=
  match x with
  | EUn _ (UNew _ _ _ b) _ => forall i y y' g, b i y g = b i y' g
  | EBin _ (BNew _ _ _ b) _ _ => forall i j y y' g, b i j y g = b i j y' g
  | _ => True
  end.

(** no operator whose result is overwritten by a sum needs that result in its backward action *)
Definition legible (e : expr A) : Prop :=
  forall k n l r, At e k (EBin n BPlus l r) -> inplace l r = true -> forall x, In x (path l) -> blind x.

(** e.backward( g ) for one tensor g after the other, each made by the user *)
Fixpoint backs (e : expr A) (gs : list (val A)) : G unit :=
  match gs with
  | [] => gret tt
  | g :: gs => gbind (new_tensor g) (fun t => gbind (backward zero one add mul opp leb eps dbg None e t) (fun _ => backs e gs))
  end.

End Grad.
