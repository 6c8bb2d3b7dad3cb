(** What a user expects of an expression, and when one layer object is used in a way that keeps it. *)
From Coq Require Import List Arith Bool.
From Verif Require Import ListBase TensorModel FunctorModel.
Import ListNotations.
Local Open Scope nat_scope.

Section FunctorSpec.
Context {A : Type}.

(** mathematical value of an expression: every layer applied to the value of its operand *)
Fixpoint value (h : list (list A)) (e : ex A) : option (val A) :=
  match e with
  | In t => Some (show h t)
  | Un k o e1 => match value h e1 with Some v => act o v | None => None end
  | Bin g l r =>
      match value h l, value h r with
      | Some a, Some b => g a b
      | _, _ => None
      end
  end.

(** operands and result of every operator of an expression, operands before the operators that use them, left before right *)
Fixpoint values (h : list (list A)) (e : ex A) : list (list (option (val A)) * option (val A)) :=
  match e with
  | In t => []
  | Un k o e1 => values h e1 ++ [([value h e1], value h e)]
  | Bin g l r => values h l ++ values h r ++ [([value h l; value h r], value h e)]
  end.

(** layer objects an expression mentions *)
Fixpoint uses (e : ex A) : list nat :=
  match e with
  | In _ => []
  | Un k _ e1 => k :: uses e1
  | Bin _ l r => uses l ++ uses r
  end.

(** operands with a storage of their own *)
Fixpoint operands (e : ex A) : list tensor :=
  match e with
  | In t => [t]
  | Un _ _ e1 => operands e1
  | Bin _ l r => operands l ++ operands r
  end.

(** the expression is the direct result of layer object [k] *)
Definition made_by (e : ex A) (k : nat) : Prop := match e with Un k' _ _ => k' = k | _ => False end.

(** no layer object writes its buffer while an earlier result of it is still to be read: a layer object is not applied
    directly to its own result, and the right operand of a binary operator does not use the layer object whose direct result
    the left operand is *)
Fixpoint safe (e : ex A) : Prop :=
  match e with
  | In _ => True
  | Un k _ e1 => safe e1 /\ ~ made_by e1 k
  | Bin _ l r => safe l /\ safe r /\ (forall k, made_by l k -> ~ List.In k (uses r))
  end.

(** states a program can be in: every buffer has a storage of its own *)
Definition good (s : st A) : Prop :=
  (forall k b, buf s k = Some b -> ref b < length (hp s)) /\
  (forall k k' b b', buf s k = Some b -> buf s k' = Some b' -> ref b = ref b' -> k = k').

(** the operands exist and do not lie in a buffer *)
Definition apart (s : st A) (ts : list tensor) : Prop :=
  forall t, List.In t ts -> ref t < length (hp s) /\ forall k b, buf s k = Some b -> ref b <> ref t.

(** what the operator objects have kept shows these operands and this result *)
Definition keeps (h : list (list A)) (x : list tensor * tensor) (y : list (option (val A)) * option (val A)) : Prop :=
  map (fun t => Some (show h t)) (fst x) = fst y /\ Some (show h (snd x)) = snd y.

End FunctorSpec.
