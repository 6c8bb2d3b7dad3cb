(** What a C++ program made of such statements does, and the vocabulary of the properties of serialize. *)
From Coq Require Import List Arith NArith Bool PeanoNat.
From Verif Require Import ListBase TensorModel TextModel TextSpec SerialModel.
Import ListNotations.
Local Open Scope nat_scope.

Section Spec.
Context {E : Type} (zero : E) (put : E -> list N) (take : list N -> option E).
(** [lit] writes a number into the program, [unlit] is how the compiler reads it there (None: it is no literal) *)
Context (lit : E -> list N) (unlit : list N -> option E).
Local Notation content := (list nat * list E)%type.

(** an expression as the user sees it: without identifiers *)
Inductive tree :=
| THold
| TVal (x : E)
| TCon (x : content)
| TVar (x : content) (l1 l2 : E) (trainable : bool)
| TOp (o : operator) (es : list tree).

Fixpoint tree_of (e : ex E) : tree :=
  match e with
  | Hold _ => THold
  | Val _ x => TVal x
  | Con _ _ x => TCon x
  | Var _ _ x l1 l2 tr => TVar x l1 l2 tr
  | Un _ o e => TOp o [tree_of e]
  | Bin _ o l r => TOp o [tree_of l; tree_of r]
  end.

(** ** Running the program *)

Inductive object := OTensor (x : content) | OEx (t : tree).
Definition scope := list (list N * object).
Definition find (n : list N) (s : scope) : option object :=
  match List.find (fun p => path_eqb (fst p) n) s with Some p => Some (snd p) | None => None end.
(** a name may be declared once in a scope *)
Definition declare (n : list N) (o : object) (s : scope) : option scope := match find n s with Some _ => None | None => Some ((n, o) :: s) end.
Definition find_tensor (n : list N) (s : scope) : option content := match find n s with Some (OTensor x) => Some x | _ => None end.
Definition set_tensor (n : list N) (x : content) (s : scope) : scope := map (fun p => if path_eqb (fst p) n then (n, OTensor x) else p) s.
Fixpoint find_all (ns : list (list N)) (s : scope) : option (list tree) :=
  match ns with
  | [] => Some []
  | n :: ns => match find n s, find_all ns s with Some (OEx t), Some ts => Some (t :: ts) | _, _ => None end
  end.

(** what the program is compiled against: is there a member tensor::load_tensor, and can an operator's call be compiled with a number
    of operands *)
Record library := Library { load_member : bool; callable : operator -> nat -> bool }.

(** [None]: not compiled, or the file cannot be read *)
Definition exec1 (lib : library) (fs : files) (st : stmt) (s : scope) : option scope :=
  match st with
  | DeclTensor n => declare n (OTensor ([], [])) s
  | LoadTensor n file =>
      if load_member lib then
        match find_tensor n s, fs file with
        | Some _, Some c => match load_tensor zero take false c with Ok x => Some (set_tensor n x s) | _ => None end
        | _, _ => None
        end
      else None
  | DeclHold n => declare n (OEx THold) s
  | DeclVal n x => match unlit x with Some x => declare n (OEx (TVal x)) s | None => None end
  | DeclCon n t => match find_tensor t s with Some x => declare n (OEx (TCon x)) s | None => None end
  | DeclVar n t l1 l2 tr =>
      match find_tensor t s, unlit l1, unlit l2 with Some x, Some l1, Some l2 => declare n (OEx (TVar x l1 l2 tr)) s | _, _, _ => None end
  | DeclAuto n o ops => if callable lib o (length ops) then match find_all ops s with Some ts => declare n (OEx (TOp o ts)) s | None => None end else None
  end.
Fixpoint exec (lib : library) (fs : files) (p : list stmt) (s : scope) : option scope :=
  match p with [] => Some s | st :: p => match exec1 lib fs st s with Some s => exec lib fs p s | None => None end end.

(** ** Objects of an expression *)

(** the objects of an expression, one entry per occurrence: identifier and what it is *)
Inductive kind := KTensor | KHold | KVal | KCon | KVar | KOp (o : operator) (operands : nat).
Fixpoint objects (e : ex E) : list (nat * kind) :=
  match e with
  | Hold id => [(id, KHold)]
  | Val id _ => [(id, KVal)]
  | Con id tid _ => [(tid, KTensor); (id, KCon)]
  | Var id tid _ _ _ _ => [(tid, KTensor); (id, KVar)]
  | Un id o e => objects e ++ [(id, KOp o 1)]
  | Bin id o l r => objects l ++ objects r ++ [(id, KOp o 2)]
  end.
(** identifiers are identifiers: the same one is the same object (C40) *)
Definition identified (e : ex E) : Prop := forall id k k', In (id, k) (objects e) -> In (id, k') (objects e) -> k = k'.
(** no object occurs twice *)
Definition unshared (e : ex E) : Prop := NoDup (map fst (objects e)).

Fixpoint tensors (e : ex E) : list (nat * content) :=
  match e with
  | Hold _ | Val _ _ => []
  | Con _ tid x => [(tid, x)]
  | Var _ tid x _ _ _ => [(tid, x)]
  | Un _ _ e => tensors e
  | Bin _ _ l r => tensors l ++ tensors r
  end.

(** the numbers that stand in the program itself *)
Fixpoint literals (e : ex E) : list E :=
  match e with
  | Hold _ | Con _ _ _ => []
  | Val _ x => [x]
  | Var _ _ _ l1 l2 _ => [l1; l2]
  | Un _ _ e => literals e
  | Bin _ _ l r => literals l ++ literals r
  end.
(** they are literals of the language; they are read back exactly *)
Definition are_literals (e : ex E) : Prop := forall x, In x (literals e) -> exists y, unlit (lit x) = Some y.
Definition exact_literals (e : ex E) : Prop := forall x, In x (literals e) -> unlit (lit x) = Some x.

(** elements are written as words and read back exactly; tensors have as many elements as their shapes say *)
Definition exact_text : Prop := forall a, word (put a) /\ take (put a) = Some a.
Definition sound (e : ex E) : Prop := forall tid x, In (tid, x) (tensors e) -> full x.
End Spec.
