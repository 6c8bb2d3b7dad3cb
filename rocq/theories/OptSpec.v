(** Specification vocabulary for the optimisers: what one step does to one element of a variable. *)
From Coq Require Import List Arith Lia Bool PeanoNat Reals.
From Coquelicot Require Import Hierarchy Derive.
From Verif Require Import ListBase TensorModel GraphModel GraphSpec CalcSpec GradProps OptModel.
Import ListNotations.
Local Open Scope nat_scope.

(** how many auxiliary tensors an optimiser creates for a variable that has none, and how many it uses *)
Definition created (a : algo) : nat := match a with Sgd _ _ _ | Adagrad _ | Rmsprop _ _ => 1 | Adadelta _ | Adam _ _ => 2 | Descent _ => 0 end.
Definition needed (a : algo) : nat := match a with Sgd _ _ _ | Adagrad _ | Rmsprop _ _ | Adadelta _ => 1 | Adam _ _ => 2 | Descent _ => 0 end.

(** Step number it (from 0) at learning rate lr: an element x with gradient g and auxiliary elements c becomes ... *)
Definition move (a : algo) (eps lr : R) (it : nat) (c : list R) (x g : R) : list R * R :=
  let m := nth 0 c 0%R in
  let s := nth 1 c 0%R in
  (match a with
   | Sgd mu _ nesterov =>
       let m' := mu * m - lr * g in
       (upd c 0 m', if nesterov then x + m' else x + (mu * m' - lr * g))
   | Adagrad _ =>
       let m' := m + g * g in
       (upd c 0 m', x - lr * g / (eps + sqrt m'))
   | Rmsprop rho _ =>
       let m' := if Nat.eqb it 0 then g * g else rho * m + (1 - rho) * (g * g) in
       (upd c 0 m', x - lr * g / (eps + sqrt m'))
   | Adadelta rho =>
       let m' := rho * m + (1 - rho) * (g * g) in
       let g' := lr * sqrt ((m' + eps) / (m' + eps)) * g in
       (upd c 0 (rho * m' + (1 - rho) * (g' * g')), x - g')
   | Adam b1 b2 =>
       let m' := b1 * m + (1 - b1) * g in
       let s' := b2 * s + (1 - b2) * (g * g) in
       (upd (upd c 0 m') 1 s',
        if Nat.ltb 1 it then x - lr * sqrt (1 - b2 ^ (it + 1)) / (1 - b1 ^ (it + 1)) * m' / (eps + sqrt s') else x - lr * g)
   | Descent _ => (c, x - lr * g)
   end)%R.

(** the storages of a variable: gradient, elements, auxiliary tensors *)
Definition foot (w : world) (v : nat) : list nat :=
  ref (vgrad (vars (gr w) v)) :: ref (vdata (vars (gr w) v)) :: map ref (ctx w v).

Definition elements (w : world) (t : tensor) : list R := nth (ref t) (hp (gr w)) [].
Definition weights (w : world) (v : nat) : list R := elements w (vdata (vars (gr w) v)).
Definition gradient (w : world) (v : nat) : list R := elements w (vgrad (vars (gr w) v)).
Definition count (w : world) (v : nat) : nat := prod (shape (vdata (vars (gr w) v))).

(** element p of each auxiliary tensor of v; what it is when they have just been created *)
Definition memory (w : world) (v p : nat) : list R := map (fun t => nth p (elements w t) 0%R) (ctx w v).
Definition memory_or_new (a : algo) (w : world) (v p : nat) : list R :=
  match ctx w v with [] => repeat 0%R (created a) | _ => memory w v p end.

(** a variable's tensors as the library makes them: own storages, all of the variable's shape *)
Record tidy (w : world) (v : nat) : Prop := {
  t_shape : shape (vgrad (vars (gr w) v)) = shape (vdata (vars (gr w) v));
  t_ctx : forall t, In t (ctx w v) -> shape t = shape (vdata (vars (gr w) v));
  t_live : forall r, In r (foot w v) -> r < length (hp (gr w)) /\ length (nth r (hp (gr w)) []) = count w v;
  t_own : NoDup (foot w v)
}.

(** the session: every variable once, tensors tidy, nothing shared between variables *)
Record orderly (sess : list (nat * bool)) (w : world) : Prop := {
  o_once : NoDup (map fst sess);
  o_tidy : forall v b, In (v, b) sess -> tidy w v;
  o_apart : forall v b v' b', In (v, b) sess -> In (v', b') sess -> v <> v' -> forall r, In r (foot w v) -> ~ In r (foot w v')
}.

(** an optimiser finds the auxiliary tensors it needs: none yet, or enough of them *)
Definition stocked (a : algo) (w : world) (v : nat) : Prop := ctx w v = [] \/ needed a <= length (ctx w v).

(** one step's effect on a variable *)
Record moved (a : algo) (eps lr : R) (it : nat) (w w' : world) (v : nat) : Prop := {
  m_len : length (weights w' v) = count w v;
  m_move : forall p, p < count w v ->
    (memory w' v p, nth p (weights w' v) 0%R) =
    move a eps lr it (memory_or_new a w v p) (nth p (weights w v) 0%R) (nth p (gradient w v) 0%R);
  m_grad : gradient w' v = repeat 0%R (count w v);
  m_ctx : length (ctx w' v) = match ctx w v with [] => created a | l => length l end
}.

(** the state after binding a batch: place_holder.hpp bind, the last binding of a place holder counts *)
Fixpoint bound (feed : list (nat * val R)) (s : st R) : st R :=
  match feed with
  | [] => s
  | (p, x) :: feed' => bound feed' (set_holders (set_hp s (hp s ++ [snd x])) (fupd (holders s) p (Some (mkT (fst x) (length (hp s))))))
  end.

(** A session ready to train e: the leaves' storages are nobody else's, every variable of e is in the session (its constructor
    registers it: variable.hpp:61-62), and the variables' tensors are not shared with constants or bound tensors. *)
Record ready (sess : list (nat * bool)) (e : expr R) (w : world) (who : nat -> owner) : Prop := {
  r_sep : separate e (gr w) who;
  r_ord : orderly sess w;
  r_vars : forall k v, At e k (EVar v) -> exists b, In (v, b) sess;
  r_leaf : forall v b r, In (v, b) sess -> In r (ref (vdata (vars (gr w) v)) :: map ref (ctx w v)) -> who r = OLeaf;
  r_idle : forall v b, In (v, b) sess -> (forall k, ~ At e k (EVar v)) -> who (ref (vgrad (vars (gr w) v))) = OLeaf;
  r_const : forall k t, At e k (EConst t) -> ref t < length (hp (gr w)) /\ forall v b, In (v, b) sess -> ~ In (ref t) (foot w v);
  r_hold : forall k p t, At e k (EHold p) -> holders (gr w) p = Some t ->
             ref t < length (hp (gr w)) /\ forall v b, In (v, b) sess -> ~ In (ref t) (foot w v);
  r_train : training (gr w) = true
}.

(** the loss: the value of e, a tensor of one element *)
Definition loss (E : env R) (e : expr R) : R := match evalR E e with Some y => nth 0 (snd y) 0%R | None => 0%R end.

(** g is the gradient of element p of variable v, s being the state in which the loss is run and old the gradient before:
    the derivative of the loss plus the regularisers' cost, if every occurrence of v in e is trainable (and no absolute value is
    differentiated at 0); nothing, if every occurrence is frozen; what was there before, if v does not occur. *)
Record slope (eps : R) (e : expr R) (s : st R) (v p : nat) (old g : R) : Prop := {
  sl_live : forall k, At e k (EVar v) -> (forall k', At e k' (EVar v) -> trainable (vobjs s k') = true) ->
    (nth p (data_of s v) 0%R <> 0%R \/ forall k', At e k' (EVar v) -> (l1 (vobjs s k') < eps)%R) ->
    is_derive (fun x : R => (loss (nudge (env_of s) v p x) e + cost eps (vobjs s) v (uses None e) x)%R) (nth p (data_of s v) 0%R) g;
  sl_frozen : forall k, At e k (EVar v) -> (forall k', At e k' (EVar v) -> trainable (vobjs s k') = false) -> g = 0%R;
  sl_absent : (forall k, ~ At e k (EVar v)) -> g = old
}.

(** one batch: world w, place holders bound to feed, optimiser o *)
Record advanced (eps : R) (sess : list (nat * bool)) (e : expr R) (o : opt) (feed : list (nat * val R)) (w w' : world) : Prop := {
  a_vars : forall v, vars (gr w') v = vars (gr w) v;
  a_flags : forall k, trainable (vobjs (gr w') k) = trainable (vobjs (gr w) k) /\ l1 (vobjs (gr w') k) = l1 (vobjs (gr w) k) /\ l2 (vobjs (gr w') k) = l2 (vobjs (gr w) k);
  a_move : forall v, In (v, true) sess ->
    length (weights w' v) = count w v /\ gradient w' v = repeat 0%R (count w v) /\
    forall p, p < count w v -> exists g,
      slope eps e (bound feed (gr w)) v p (nth p (gradient w v) 0%R) g /\
      (memory w' v p, nth p (weights w' v) 0%R) =
      move (alg o) eps (next_rate o) (steps o) (memory_or_new (alg o) w v p) (nth p (weights w v) 0%R) g;
  a_ctx : forall v, In (v, true) sess -> length (ctx w' v) = match ctx w v with [] => created (alg o) | l => length l end;
  a_still : forall v, In (v, false) sess -> weights w' v = weights w v /\ ctx w' v = ctx w v /\ forall t, In t (ctx w v) -> elements w' t = elements w t;
  a_const : forall k t, At e k (EConst t) -> elements w' t = elements w t
}.

(** the optimiser after n steps *)
Fixpoint after (o : opt) (n : nat) : opt :=
  match n with 0 => o | S n' => let o' := after o n' in Opt (alg o') (next_rate o') (S (steps o')) end.
