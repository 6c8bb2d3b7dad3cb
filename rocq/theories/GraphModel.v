(** Model of the expression graph: variables (include/variable.hpp), place holders (include/place_holder.hpp), constants and
    values (include/constant.hpp, include/value.hpp), unary and binary operators (include/operation.hpp:53-240) and the
    session's forward cache (include/session.hpp:58-63, 181-197), over the tensors and the heap of TensorModel.v.

    An operator object holds an id, a shared state (its operand objects and its two actions) and, per copy, the tensors seen
    by the last forward pass (operation.hpp:58-71, 147-163).  Copies of an operator share the id and the state, hence also
    the operand objects.  An expression is therefore written as a tree whose operator nodes carry their id; nodes with the
    same id are copies of each other and have the same operands.  The object in which a copy lives is named by its slot: the
    root, or the left or right operand of the operator with a given id.

    Simplifications: has_nan and size assertions of the actions are left out; an action that would read or write outside its
    tensors is a partial function without a result; place holders' shape hints and all shape calculators are left out. *)
From Coq Require Import List Arith Lia Bool PeanoNat.
From Verif Require Import ListBase TensorModel ArrayModel.
Import ListNotations.

Section Graph.
Context {A : Type} (zero one : A) (add mul : A -> A -> A) (opp : A -> A) (leb : A -> A -> bool) (eps : A).
Variable dbg : bool.   (* debug build: better_assert is active *)

(** shape and elements *)
Definition val : Type := list nat * list A.

(** Where a backward action puts its result: in a new tensor, in the operator's own buffer (context_cast on a backward
    cache), or over the gradient it received (Tsor ans = grad; then a loop over ans).  Returning grad itself is the last
    case with unchanged elements. *)
Inductive bmode := IntoNew | IntoOwn | IntoGrad.

(** The actions of a unary operator.  [UNew own f m b]: the result is f applied to the input, in a new tensor or in the
    operator's own buffer (context_cast on a forward cache: utils/context_cast.hpp:10-18); b computes the gradient of the
    input from input, output and incoming gradient.  [UView f]: the result shares the input's storage under another shape,
    and the gradient passed on shares the incoming gradient's storage (operation.hpp:1116-1200 reshape, flatten, identity). *)
Inductive uop :=
| UNew (own : bool) (f : val -> option val) (m : bmode) (b : val -> val -> val -> option val)
| UView (f : list nat -> option (list nat)).

(** The actions of a binary operator.  [BPlus]: operation.hpp:526-558, the forward action is the tensor function add, which
    may write into its left operand (tensor.tcc:577-586).  [BNew]: forward result and the two gradients in new tensors or in
    the operator's own buffers. *)
Inductive bop :=
| BPlus
| BNew (own : bool) (f : val -> val -> option val) (bown : bool) (b : val -> val -> val -> val -> option (val * val)).

Inductive expr :=
| EVar (v : nat)                            (* variable with id v: variable.hpp *)
| EHold (p : nat)                           (* place holder with id p: place_holder.hpp *)
| EConst (t : tensor)                       (* constant: constant.hpp *)
| EVal (c : A)                              (* value, only as one operand of a binary operator: value.hpp *)
| EUn (n : nat) (o : uop) (e : expr)        (* unary operator with id n: operation.hpp:53-117 *)
| EBin (n : nat) (o : bop) (l r : expr).    (* binary operator with id n: operation.hpp:143-240 *)

(** the object an expression lives in: the root, or an operand of operator n (true: the right one) *)
Definition slot : Type := option (nat * bool).

(** input_data_ (lhs_input_data_), rhs_input_data_ and output_data_ of one operator object; None is the empty tensor *)
Record obj := Obj { in1 : option tensor; in2 : option tensor; out : option tensor }.

(** the per-copy part of a variable: variable.hpp:35-44 regularizer, 52-53 *)
Record vobj := VObj { synced : bool; trainable : bool; l1 : A; l2 : A }.

(** the shared part: variable.hpp:26-32 *)
Record vstate := VState { vdata : tensor; vgrad : tensor }.

Record st := St {
  hp : list (list A);                      (* tensor storages *)
  cache : nat -> option tensor;            (* session.hpp:37 forward_cache_ *)
  objs : slot -> obj;
  vobjs : slot -> vobj;
  vars : nat -> vstate;
  holders : nat -> option tensor;          (* place_holder.hpp:17-21 data_ *)
  own : nat -> option tensor;              (* an operator's forward buffer *)
  ownb : nat -> bool -> option tensor;     (* an operator's backward buffers *)
  training : bool;                         (* config.hpp: learning_phase == 1 *)
  ran : list nat                           (* not in the code: the operators whose forward action ran, latest first *)
}.

Definition set_hp s h := St h (cache s) (objs s) (vobjs s) (vars s) (holders s) (own s) (ownb s) (training s) (ran s).
Definition set_cache s c := St (hp s) c (objs s) (vobjs s) (vars s) (holders s) (own s) (ownb s) (training s) (ran s).
Definition set_objs s o := St (hp s) (cache s) o (vobjs s) (vars s) (holders s) (own s) (ownb s) (training s) (ran s).
Definition set_vobjs s o := St (hp s) (cache s) (objs s) o (vars s) (holders s) (own s) (ownb s) (training s) (ran s).
Definition set_vars s v := St (hp s) (cache s) (objs s) (vobjs s) v (holders s) (own s) (ownb s) (training s) (ran s).
Definition set_holders s v := St (hp s) (cache s) (objs s) (vobjs s) (vars s) v (own s) (ownb s) (training s) (ran s).
Definition set_own s v := St (hp s) (cache s) (objs s) (vobjs s) (vars s) (holders s) v (ownb s) (training s) (ran s).
Definition set_ownb s v := St (hp s) (cache s) (objs s) (vobjs s) (vars s) (holders s) (own s) v (training s) (ran s).
Definition set_training s v := St (hp s) (cache s) (objs s) (vobjs s) (vars s) (holders s) (own s) (ownb s) v (ran s).
Definition set_ran s v := St (hp s) (cache s) (objs s) (vobjs s) (vars s) (holders s) (own s) (ownb s) (training s) v.

Definition fupd {T} (f : nat -> T) (n : nat) (v : T) : nat -> T := fun m => if m =? n then v else f m.
Definition slot_eqb (a b : slot) : bool :=
  match a, b with
  | None, None => true
  | Some (n, x), Some (m, y) => (n =? m) && Bool.eqb x y
  | _, _ => false
  end.
Definition supd {T} (f : slot -> T) (s : slot) (v : T) : slot -> T := fun s' => if slot_eqb s' s then v else f s'.

Definition G (T : Type) := st -> outcome (T * st).
Definition gret {T} (v : T) : G T := fun s => Ok (v, s).
Definition gbind {S T} (m : G S) (f : S -> G T) : G T :=
  fun s => match m s with Ok (v, s') => f v s' | Abort => Abort | UB => UB end.
Notation "'do' x <- m ; f" := (gbind m (fun x => f)) (at level 200, x name, m at level 100, f at level 200).

(** a tensor function of TensorModel.v on the graph's heap *)
Definition heaply {T} (m : M (A:=A) T) : G T :=
  fun s => match m (hp s) with Ok (v, h) => Ok (v, set_hp s h) | Abort => Abort | UB => UB end.

Definition get {T} (f : st -> T) : G T := fun s => Ok (f s, s).
Definition modify (f : st -> st) : G unit := fun s => Ok (tt, f s).

(** what a tensor shows in a heap; None is the empty tensor *)
Definition val_of (h : list (list A)) (t : tensor) : val := (shape t, nth (ref t) h []).
Definition val_opt (h : list (list A)) (t : option tensor) : val := match t with Some t => val_of h t | None => ([], []) end.

(** session.hpp:181-187 query_forward_cache and the test output_data_.empty() (operation.hpp:78-80, 171-173) *)
Definition query (n : nat) : G (option tensor) :=
  fun s => Ok (match cache s n with
               | Some t => match nth (ref t) (hp s) [] with [] => None | _ => Some t end
               | None => None
               end, s).

(** session.hpp:189-192 update_forward_cache *)
Definition update (n : nat) (t : tensor) : G unit := modify (fun s => set_cache s (fupd (cache s) n (Some t))).

Definition put_in1 (k : slot) (t : option tensor) : G unit :=
  modify (fun s => set_objs s (supd (objs s) k (Obj t (in2 (objs s k)) (out (objs s k))))).
Definition put_in2 (k : slot) (t : option tensor) : G unit :=
  modify (fun s => set_objs s (supd (objs s) k (Obj (in1 (objs s k)) t (out (objs s k))))).
Definition put_out (k : slot) (t : option tensor) : G unit :=
  modify (fun s => set_objs s (supd (objs s) k (Obj (in1 (objs s k)) (in2 (objs s k)) t))).

Definition new_tensor (v : val) : G tensor := heaply (alloc (fst v) (snd v)).

(** context_cast<Tsor>( cache ), resize, and a loop that writes every element *)
Definition into_own (n : nat) (v : val) : G tensor :=
  fun s => match own s n with
           | Some t => let t' := mkT (fst v) (ref t) in
                       Ok (t', set_own (set_hp s (upd (hp s) (ref t) (snd v))) (fupd (own s) n (Some t')))
           | None => let t' := mkT (fst v) (length (hp s)) in
                     Ok (t', set_own (set_hp s (hp s ++ [snd v])) (fupd (own s) n (Some t')))
           end.
Definition into_ownb (n : nat) (side : bool) (v : val) : G tensor :=
  let put s t := fupd (ownb s) n (fun b => if Bool.eqb b side then Some t else ownb s n b) in
  fun s => match ownb s n side with
           | Some t => let t' := mkT (fst v) (ref t) in
                       Ok (t', set_ownb (set_hp s (upd (hp s) (ref t) (snd v))) (put s t'))
           | None => let t' := mkT (fst v) (length (hp s)) in
                     Ok (t', set_ownb (set_hp s (hp s ++ [snd v])) (put s t'))
           end.

Definition the {T} (o : option T) : G T := match o with Some v => gret v | None => fun _ => UB end.

(** the forward action of a unary operator *)
Definition un_forward (n : nat) (o : uop) (i : tensor) : G tensor :=
  match o with
  | UNew own f _ _ =>
      do h <- get hp;
      do v <- the (f (val_of h i));
      if own then into_own n v else new_tensor v
  | UView f => do s <- the (f (shape i)); gret (mkT s (ref i))
  end.

(** the forward action of a binary operator *)
Definition bin_forward (n : nat) (o : bop) (l r : tensor) : G tensor :=
  match o with
  | BPlus => heaply (zip_broadcast zero dbg add l r)
  | BNew own f _ _ =>
      do h <- get hp;
      do v <- the (f (val_of h l) (val_of h r));
      if own then into_own n v else new_tensor v
  end.

(** value.hpp:38-44 forward( refer ): ones_like( refer ), then *= data_ *)
Definition value_forward (c : A) (refer : tensor) : G tensor :=
  new_tensor (shape refer, repeat (mul one c) (prod (shape refer))).

(** variable.hpp:72-83 *)
Definition var_forward (k : slot) (v : nat) : G tensor :=
  do tr <- get training;
  do vs <- get (fun s => vars s v);
  if tr then
    do _ <- heaply (reset (vgrad vs) zero);
    do _ <- modify (fun s => set_vobjs s (supd (vobjs s) k (VObj false (trainable (vobjs s k)) (l1 (vobjs s k)) (l2 (vobjs s k)))));
    gret (vdata vs)
  else gret (vdata vs).

(** place_holder.hpp:60-66 *)
Definition hold_forward (p : nat) : G tensor :=
  do t <- get (fun s => holders s p);
  match t with
  | Some t => gret t
  | None => if dbg then fun _ => Abort else heaply new_empty
  end.

(** operation.hpp:75-88 and 168-197 *)
Fixpoint forward (k : slot) (e : expr) {struct e} : G tensor :=
  match e with
  | EVar v => var_forward k v
  | EHold p => hold_forward p
  | EConst t => gret t
  | EVal _ => fun _ => UB
  | EUn n o e1 =>
      do q <- query n;
      do _ <- put_out k q;
      match q with
      | Some t => gret t
      | None =>
          do i <- forward (Some (n, false)) e1;
          do _ <- put_in1 k (Some i);
          do t <- un_forward n o i;
          do _ <- put_out k (Some t);
          do _ <- update n t;
          do _ <- modify (fun s => set_ran s (n :: ran s));
          gret t
      end
  | EBin n o l r =>
      do q <- query n;
      do _ <- put_out k q;
      match q with
      | Some t => gret t
      | None =>
          do lr <- match l, r with
                   | EVal c, _ =>
                       do rt <- forward (Some (n, true)) r;
                       do _ <- put_in2 k (Some rt);
                       do lt <- value_forward c rt;
                       do _ <- put_in1 k (Some lt);
                       gret (lt, rt)
                   | _, EVal c =>
                       do lt <- forward (Some (n, false)) l;
                       do _ <- put_in1 k (Some lt);
                       do rt <- value_forward c lt;
                       do _ <- put_in2 k (Some rt);
                       gret (lt, rt)
                   | _, _ =>
                       do lt <- forward (Some (n, false)) l;
                       do _ <- put_in1 k (Some lt);
                       do rt <- forward (Some (n, true)) r;
                       do _ <- put_in2 k (Some rt);
                       gret (lt, rt)
                   end;
          do t <- bin_forward n o (fst lr) (snd lr);
          do _ <- put_out k (Some t);
          do _ <- update n t;
          do _ <- modify (fun s => set_ran s (n :: ran s));
          gret t
      end
  end.

(** session.hpp:58-63, 194-197: clear the cache, then forward on the root object *)
Definition run (e : expr) : G tensor :=
  do _ <- modify (fun s => set_ran (set_cache s (fun _ => None)) []);
  forward None e.

(** operation.hpp:538-551 grad_fun: sum over leading axes, then over every axis where the input has extent 1 *)
Fixpoint drop_leading (fuel : nat) (n : nat) (g : arr A) : outcome (arr A) :=
  if n <? length (ashape g) then
    match fuel with
    | 0 => UB
    | S fuel' => obind (sum_axis zero dbg add g (Some 0) false) (drop_leading fuel' n)
    end
  else Ok g.
Fixpoint sum_ones (s : list nat) (axis : nat) (g : arr A) : outcome (arr A) :=
  match s with
  | [] => Ok g
  | d :: s' => if d =? 1 then obind (sum_axis zero dbg add g (Some axis) true) (sum_ones s' (S axis)) else sum_ones s' (S axis) g
  end.
Definition unbroadcast (s : list nat) (g : val) : option val :=
  match obind (drop_leading (length (fst g)) (length s) (Arr (fst g) (snd g))) (sum_ones s 0) with
  | Ok a => Some (ashape a, adata a)
  | _ => None
  end.

Definition un_backward (n : nat) (o : uop) (i y : option tensor) (g : tensor) : G tensor :=
  do h <- get hp;
  match o with
  | UNew _ _ m b =>
      do v <- the (b (val_opt h i) (val_opt h y) (val_of h g));
      match m with
      | IntoNew => new_tensor v
      | IntoOwn => into_ownb n false v
      | IntoGrad => do _ <- heaply (store g (snd v)); gret (mkT (fst v) (ref g))
      end
  | UView _ => gret (mkT (fst (val_opt h i)) (ref g))
  end.

Definition bin_backward (n : nat) (o : bop) (i j y : option tensor) (g : tensor) : G (tensor * tensor) :=
  do h <- get hp;
  match o with
  | BPlus =>
      do gl <- the (unbroadcast (fst (val_opt h i)) (val_of h g));
      do tl <- new_tensor gl;
      do gr <- the (unbroadcast (fst (val_opt h j)) (val_of h g));
      do tr <- new_tensor gr;
      gret (tl, tr)
  | BNew _ _ bown b =>
      do p <- the (b (val_opt h i) (val_opt h j) (val_opt h y) (val_of h g));
      if bown then
        do tl <- into_ownb n false (fst p);
        do tr <- into_ownb n true (snd p);
        gret (tl, tr)
      else
        do tl <- new_tensor (fst p);
        do tr <- new_tensor (snd p);
        gret (tl, tr)
  end.

(** variable.hpp:95-111: what one copy's regularisers add to the gradient of an element d *)
Definition l1_term (o : vobj) (d g : A) : A := if leb eps (l1 o) then add g (if leb zero d then l1 o else opp (l1 o)) else g.
Definition l2_term (o : vobj) (d g : A) : A := if leb eps (l2 o) then add g (mul (mul (add one one) d) (l2 o)) else g.

(** variable.hpp:85-112 *)
Definition var_backward (k : slot) (v : nat) (g : tensor) : G unit :=
  do o <- get (fun s => vobjs s k);
  if negb (trainable o) then gret tt
  else
    do vs <- get (fun s => vars s v);
    do gt <- (if list_eqb (shape (vgrad vs)) (shape (vdata vs)) then gret (vgrad vs)
              else heaply (resize zero (vgrad vs) (shape (vdata vs))));
    do _ <- modify (fun s => set_vars s (fupd (vars s) v (VState (vdata vs) gt)));
    do _ <- heaply (zip_inplace dbg add gt g);
    if synced o then gret tt
    else
      do h <- get hp;
      do _ <- heaply (store gt (map2 (fun d x => l2_term o d (l1_term o d x)) (nth (ref (vdata vs)) h []) (nth (ref gt) h [])));
      modify (fun s => set_vobjs s (supd (vobjs s) k (VObj true (trainable o) (l1 o) (l2 o)))).

(** operation.hpp:90-94 and 202-207 *)
Fixpoint backward (k : slot) (e : expr) (g : tensor) {struct e} : G unit :=
  match e with
  | EVar v => var_backward k v g
  | EHold _ | EConst _ | EVal _ => gret tt
  | EUn n o e1 =>
      do b <- get (fun s => objs s k);
      do g1 <- un_backward n o (in1 b) (out b) g;
      backward (Some (n, false)) e1 g1
  | EBin n o l r =>
      do b <- get (fun s => objs s k);
      do gs <- bin_backward n o (in1 b) (in2 b) (out b) g;
      do _ <- backward (Some (n, false)) l (fst gs);
      backward (Some (n, true)) r (snd gs)
  end.

End Graph.
Arguments expr : clear implicits.
Arguments st : clear implicits.
Arguments uop : clear implicits.
Arguments bop : clear implicits.
Arguments val : clear implicits.
