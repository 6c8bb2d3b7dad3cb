(** Specification vocabulary for the graph properties: the mathematical value of an expression, where its sub-expressions
    sit, and which storage a result lives in. *)
From Coq Require Import List Arith Lia Bool PeanoNat.
From Verif Require Import ListBase TensorModel TensorSpec GraphModel.
Import ListNotations.

Section Spec.
Context {A : Type} (zero one : A) (add mul : A -> A -> A).

(** values of the leaves *)
Record env := Env { e_var : nat -> val A; e_hold : nat -> option (val A); e_const : tensor -> val A }.

(** NumPy's a + b *)
Definition plus_val (a b : val A) : option (val A) :=
  match broadcast_shape true (fst a) (fst b) with
  | Ok r => Some (r, tab (prod r) (fun p =>
              let idx := unoffset r p in
              add (nth (offset (fst a) (source_index (fst a) idx)) (snd a) zero)
                  (nth (offset (fst b) (source_index (fst b) idx)) (snd b) zero)))
  | _ => None
  end.

(** a value operand takes the shape of the other operand *)
Definition const_like (c : A) (v : val A) : val A := (fst v, repeat (mul one c) (prod (fst v))).

Definition obind2 {S T} (m : option S) (f : S -> option T) : option T := match m with Some v => f v | None => None end.

(** the mathematical value of an expression *)
Fixpoint eval (q : env) (e : expr A) : option (val A) :=
  match e with
  | EVar v => Some (e_var q v)
  | EHold p => e_hold q p
  | EConst t => Some (e_const q t)
  | EVal _ => None
  | EUn _ o x =>
      obind2 (eval q x) (fun v =>
        match o with
        | UNew _ f _ _ => f v
        | UView f => match f (fst v) with Some s => Some (s, snd v) | None => None end
        end)
  | EBin _ o l r =>
      obind2 (match l, r with
              | EVal c, _ => obind2 (eval q r) (fun v => Some (const_like c v, v))
              | _, EVal c => obind2 (eval q l) (fun v => Some (v, const_like c v))
              | _, _ => obind2 (eval q l) (fun a => obind2 (eval q r) (fun b => Some (a, b)))
              end)
             (fun p => match o with
                       | BPlus => plus_val (fst p) (snd p)
                       | BNew _ f _ _ => f (fst p) (snd p)
                       end)
  end.

(** the values of the two operands of a binary operator *)
Definition operands (q : env) (l r : expr A) : option (val A * val A) :=
  match l, r with
  | EVal c, _ => obind2 (eval q r) (fun v => Some (const_like c v, v))
  | _, EVal c => obind2 (eval q l) (fun v => Some (v, const_like c v))
  | _, _ => obind2 (eval q l) (fun a => obind2 (eval q r) (fun b => Some (a, b)))
  end.

(** the leaves' values in a state *)
Definition env_of (s : st A) : env :=
  Env (fun v => val_of (hp s) (vdata (vars s v)))
      (fun p => match holders s p with Some t => Some (val_of (hp s) t) | None => None end)
      (fun t => val_of (hp s) t).

(** [At e k x]: in expression e, the object in slot k is x *)
Inductive At (e : expr A) : slot -> expr A -> Prop :=
| At_root : At e None e
| At_un k n o x : At e k (EUn n o x) -> At e (Some (n, false)) x
| At_left k n o l r : At e k (EBin n o l r) -> At e (Some (n, false)) l
| At_right k n o l r : At e k (EBin n o l r) -> At e (Some (n, true)) r.

Definition node_id (e : expr A) : option nat :=
  match e with EUn n _ _ => Some n | EBin n _ _ _ => Some n | _ => None end.

(** operators with the same id are copies of one operator *)
Definition consistent (e : expr A) : Prop :=
  forall k1 k2 x y n, At e k1 x -> At e k2 y -> node_id x = Some n -> node_id y = Some n -> x = y.

(** every sub-expression has a value with as many elements as its shape says, and at least one *)
Definition sizes_ok (q : env) (e : expr A) : Prop :=
  forall k x, At e k x -> (forall c, x <> EVal c) ->
    exists w, eval q x = Some w /\ length (snd w) = prod (fst w) /\ snd w <> [].

(** l + r is computed inside the left operand's storage: its shape is the result's, up to leading ones *)
Definition inplace (q : env) (l r : expr A) : bool :=
  match operands q l r with
  | Some (a, b) => match plus_val a b with
                   | Some w => list_eqb (padded (length (fst w)) (fst a)) (fst w)
                   | None => false
                   end
  | None => false
  end.

(** the sub-expressions whose results live in the same storage as x's: through views and in-place sums *)
Fixpoint path (q : env) (x : expr A) : list (expr A) :=
  x :: match x with
       | EUn _ (UView _) y => path q y
       | EBin _ BPlus l r => match l with EVal _ => [] | _ => if inplace q l r then path q l else [] end
       | _ => []
       end.

Definition is_leaf (x : expr A) : bool := match x with EVar _ | EHold _ | EConst _ => true | _ => false end.

(** No sum is computed inside a storage that something else reads: for every in-place sum l + r of e, every result that
    lives in l's storage is an operator's result, and no other operator of e uses it. *)
Definition disciplined (q : env) (e : expr A) : Prop :=
  forall k n l r, At e k (EBin n BPlus l r) -> inplace q l r = true ->
    forall x, In x (path q l) -> is_leaf x = false /\
      forall k1 k2, At e k1 x -> At e k2 x -> node_id x <> None -> k1 = k2.

(** Who a storage belongs to: a leaf (or anything else of the user's), the gradient of a variable, an operator's result, an
    operator's outgoing gradients, or a temporary. *)
Inductive owner := OLeaf | OGrad (v : nat) | OOp (n : nat) | OBack (n : nat) (side : bool) | OTmp.

(** Leaves, gradients and operators' buffers do not share storages. *)
Definition separate (e : expr A) (s : st A) (who : nat -> owner) : Prop :=
  (forall k v, At e k (EVar v) -> who (ref (vdata (vars s v))) = OLeaf /\
                                 who (ref (vgrad (vars s v))) = OGrad v /\ ref (vgrad (vars s v)) < length (hp s)) /\
  (forall k p t, At e k (EHold p) -> holders s p = Some t -> who (ref t) = OLeaf) /\
  (forall k t, At e k (EConst t) -> who (ref t) = OLeaf) /\
  (forall n t, own s n = Some t -> who (ref t) = OOp n /\ ref t < length (hp s)) /\
  (forall n b t, ownb s n b = Some t -> who (ref t) = OBack n b /\ ref t < length (hp s)).

Fixpoint size (e : expr A) : nat :=
  match e with EUn _ _ x => S (size x) | EBin _ _ l r => S (size l + size r) | _ => 1 end.

(** ids of the operators in an expression, with repetitions *)
Fixpoint ids (e : expr A) : list nat :=
  match e with EUn n _ x => n :: ids x | EBin n _ l r => n :: ids l ++ ids r | _ => [] end.

End Spec.
Arguments env : clear implicits.
