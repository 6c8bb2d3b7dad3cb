(** Model of the composition of models: model.hpp:42-71 replace_placeholder_with_expression and 376-380 model::operator(), over the
    graphs of GraphModel.v.

    At the pinned commit these functions name members (ex.op_, ex.lhs_op_, ex.forward_action_, ...) that have since been moved into the
    operators' shared state (operation.hpp:57-64, 147-155), so that instantiating them for an operator does not compile; they are modelled as
    reading the members through state_.

    The rebuilt operators take copies of the original's actions.  The actions keep their buffers behind std::shared_ptr, so that a rebuilt
    operator uses the very buffers of the original.  GraphModel.v names an operator's buffers by its identifier; here [buf] gives, for every
    operator, the name of the buffers that its actions use, and the passes below are those of GraphModel.v with these names.  The
    initial value of [buf] is the identity.

    Simplification: an action whose input lives in its own buffer (a model composed with itself) is outside the model of actions in
    GraphModel.v; the theorems exclude it. *)
From Coq Require Import List Arith Lia Bool PeanoNat.
From Verif Require Import ListBase TensorModel ArrayModel GraphModel.
Import ListNotations.

Section Compose.
Context {A : Type} (zero one : A) (add mul : A -> A -> A) (opp : A -> A) (leb : A -> A -> bool) (eps : A).
Variable dbg : bool.
Notation "'do' x <- m ; f" := (gbind m (fun x => f)) (at level 200, x name, m at level 100, f at level 200).

(** model.hpp:42-71.  [n] is the next identifier (utils/id.hpp:21-27); an operator takes its identifier after its operands have been
    rebuilt.  [rl]: the order in which the two operands are rebuilt is up to the compiler.  The placeholder argument is not
    used: every placeholder is replaced (line 52). *)
Fixpoint replace (rl : bool) (e y : expr A) (n : nat) (buf : nat -> nat) : expr A * nat * (nat -> nat) :=
  match e with
  | EVar _ | EConst _ | EVal _ => (e, n, buf)
  | EHold _ => (y, n, buf)
  | EUn m o x =>
      let '(x', n1, b1) := replace rl x y n buf in
      (EUn n1 o x', S n1, fupd b1 n1 (buf m))
  | EBin m o l r =>
      if rl then
        let '(r', n1, b1) := replace rl r y n buf in
        let '(l', n2, b2) := replace rl l y n1 b1 in
        (EBin n2 o l' r', S n2, fupd b2 n2 (buf m))
      else
        let '(l', n1, b1) := replace rl l y n buf in
        let '(r', n2, b2) := replace rl r y n1 b1 in
        (EBin n2 o l' r', S n2, fupd b2 n2 (buf m))
  end.

(** operation.hpp:75-88 and 168-197, the actions using the buffers named by [buf] *)
Variable buf : nat -> nat.
Fixpoint forward_in (k : slot) (e : expr A) {struct e} : G tensor :=
  match e with
  | EVar v => var_forward zero k v
  | EHold p => hold_forward dbg p
  | EConst t => gret t
  | EVal _ => fun _ => UB
  | EUn n o e1 =>
      do q <- query n;
      do _ <- put_out k q;
      match q with
      | Some t => gret t
      | None =>
          do i <- forward_in (Some (n, false)) e1;
          do _ <- put_in1 k (Some i);
          do t <- un_forward (buf n) o i;
          do _ <- put_out k (Some t);
          do _ <- update n t;
          do _ <- modify (fun s => set_ran s (n :: ran s));
          gret t
      end
  | EBin n o l r =>
      do q <- query n;
      do _ <- put_out k q;
      match q with
      | Some t => gret t
      | None =>
          do lr <- match l, r with
                   | EVal c, _ =>
                       do rt <- forward_in (Some (n, true)) r;
                       do _ <- put_in2 k (Some rt);
                       do lt <- value_forward one mul c rt;
                       do _ <- put_in1 k (Some lt);
                       gret (lt, rt)
                   | _, EVal c =>
                       do lt <- forward_in (Some (n, false)) l;
                       do _ <- put_in1 k (Some lt);
                       do rt <- value_forward one mul c lt;
                       do _ <- put_in2 k (Some rt);
                       gret (lt, rt)
                   | _, _ =>
                       do lt <- forward_in (Some (n, false)) l;
                       do _ <- put_in1 k (Some lt);
                       do rt <- forward_in (Some (n, true)) r;
                       do _ <- put_in2 k (Some rt);
                       gret (lt, rt)
                   end;
          do t <- bin_forward zero add dbg (buf n) o (fst lr) (snd lr);
          do _ <- put_out k (Some t);
          do _ <- update n t;
          do _ <- modify (fun s => set_ran s (n :: ran s));
          gret t
      end
  end.

(** session.hpp:58-63, 194-197 *)
Definition run_in (e : expr A) : G tensor :=
  do _ <- modify (fun s => set_ran (set_cache s (fun _ => None)) []);
  forward_in None e.

(** operation.hpp:90-94 and 202-207 *)
Fixpoint backward_in (k : slot) (e : expr A) (g : tensor) {struct e} : G unit :=
  match e with
  | EVar v => var_backward zero one add mul opp leb eps dbg k v g
  | EHold _ | EConst _ | EVal _ => gret tt
  | EUn n o e1 =>
      do b <- get (fun s => objs s k);
      do g1 <- un_backward (buf n) o (in1 b) (out b) g;
      backward_in (Some (n, false)) e1 g1
  | EBin n o l r =>
      do b <- get (fun s => objs s k);
      do gs <- bin_backward zero add dbg (buf n) o (in1 b) (in2 b) (out b) g;
      do _ <- backward_in (Some (n, false)) l (fst gs);
      backward_in (Some (n, true)) r (snd gs)
  end.

End Compose.
