(** C93: the assign operator. *)
From Coq Require Import List Arith Lia Bool PeanoNat ZArith.
From Verif Require Import ListBase TensorModel TensorSpec TensorProofs AssignModel AssignSpec AssignProofs.
Import ListNotations.

(** One assignment, of any sizes: the elements of the left operand become those of every tensor that shares the variable's storage, all
    other tensors stay, and the result is the left operand.  The variable's own shape stays: it still says how many elements
    there are only if their number has not changed. *)
Theorem C93_assign : forall (A : Type) (zero : A) (l v : tensor) (h : list (list A)),
  well_formed h l -> well_formed h v -> shape l <> [] ->
  exists h', assign_action zero l v h = Ok (l, h') /\
    (forall u, contents h' u = if ref u =? ref v then contents h l else contents h u) /\
    well_formed h' l /\
    (well_formed h' v <-> prod (shape l) = prod (shape v)).
Proof.
  intros A zero l v h (d & Hd & Ld) (e & He & Le) Hs.
  assert (Hv : ref v < length h) by (apply nth_error_Some; now rewrite He).
  exists (upd h (ref v) d). split; [|split; [|split]].
  - now apply (assign_step zero l v h d e).
  - intros u. unfold contents. destruct (ref u =? ref v) eqn:E.
    + apply Nat.eqb_eq in E. rewrite E, nth_error_upd_same by assumption. now symmetry.
    + apply Nat.eqb_neq in E. apply nth_error_upd_other. intros X. apply E. now symmetry.
  - exists d. split; [|assumption]. destruct (Nat.eq_dec (ref l) (ref v)) as [E|E].
    + rewrite E. now apply nth_error_upd_same.
    + rewrite nth_error_upd_other by (intros X; apply E; now symmetry). assumption.
  - unfold well_formed. rewrite nth_error_upd_same by assumption. split.
    + intros (d' & E & L). injection E as <-. lia.
    + intros E. exists d. split; [reflexivity|lia].
Qed.
Print Assumptions C93_assign.

(** Running an expression whose assignments fit, over variables with storages of their own: the result and what every variable holds
    afterwards are those of the reading in which a variable is looked at when the operator it is an operand of runs.  Storages of
    no variable stay. *)
Theorem C93_run : forall (A : Type) (zero : A) (vars : list tensor) (e : expr (A:=A)) sh (s : nat -> list A) (h : list (list A)),
  NoDup (map ref vars) ->
  (forall x t, nth_error vars x = Some t -> contents h t = Some (s x) /\ well_formed h t) ->
  fits (map shape vars) e sh ->
  exists t h', forward zero vars e h = Ok (t, h') /\ shape t = sh /\ well_formed h' t /\
    contents h' t = Some (worth (snd (late e s)) (fst (late e s))) /\
    (forall x v, nth_error vars x = Some v -> contents h' v = Some (snd (late e s) x) /\ well_formed h' v) /\
    (forall u, ref u < length h -> ~ In (ref u) (map ref vars) -> contents h' u = contents h u).
Proof.
  intros A zero vars e sh s h N H F.
  assert (R : agrees vars h s).
  { intros x t Ht. destruct (H x t Ht) as [C (d & Hd & L)]. unfold contents in C. split; [assumption|]. congruence. }
  destruct (forward_late zero vars N e h s sh R F) as (t & h' & E & Sh & St & R' & L & K).
  destruct (stands_worth vars h' _ t _ R' St) as [W1 W2].
  exists t, h'. split; [assumption|]. split; [assumption|]. split; [eexists; split; eassumption|]. split; [assumption|]. split.
  - intros x v Hv. destruct (R' x v Hv) as [C1 C2]. split; [assumption|]. eexists; split; eassumption.
  - intros u Hu Hn. now apply K.
Qed.
Print Assumptions C93_run.

(** If no variable that is assigned to is also an operand, the result is what the expression without its assignments is worth, and
    every variable holds what was assigned to it last, or what it held before. *)
Theorem C93_separate : forall (A : Type) (zero : A) (vars : list tensor) (e : expr (A:=A)) sh (s : nat -> list A) (h : list (list A)),
  NoDup (map ref vars) ->
  (forall x t, nth_error vars x = Some t -> contents h t = Some (s x) /\ well_formed h t) ->
  fits (map shape vars) e sh -> (forall x, In x (used e) -> ~ In x (assigned e)) ->
  exists t h', forward zero vars e h = Ok (t, h') /\ contents h' t = Some (value e s) /\
    forall x v, nth_error vars x = Some v -> contents h' v = Some (match final e x with Some e' => value e' s | None => s x end).
Proof.
  intros A zero vars e sh s h N H F D.
  destruct (C93_run A zero vars e sh s h N H F) as (t & h' & E & _ & _ & C & V & _).
  destruct (late_value zero e s D) as [L P]. exists t, h'. split; [assumption|]. rewrite C, L. split; [reflexivity|].
  intros x v Hv. destruct (V x v Hv) as [V1 _]. now rewrite V1, P.
Qed.
Print Assumptions C93_separate.

(** Without that condition the mathematical reading is wrong: in f( v, assign( w, v ) ) the first operand, although read first, is
    already what w holds; in f( assign( w, v ), v ) as well. *)
Theorem C93_read_before_refuted : forall (A : Type) (zero : A) (f : A -> A -> A) (v w : tensor) (h : list (list A)) dv dw,
  contents h v = Some dv -> contents h w = Some dw -> well_formed h v -> well_formed h w -> ref v <> ref w ->
  shape v = shape w -> shape w <> [] ->
  forall e, e = EOp f (EVar 0) (EAssign (EVar 1) 0) \/ e = EOp f (EAssign (EVar 1) 0) (EVar 0) ->
  exists t h', forward zero [v; w] e h = Ok (t, h') /\ contents h' t = Some (map2 f dw dw).
Proof.
  intros A zero f v w h dv dw Cv Cw Wv Ww N S0 S1 e He.
  assert (F : fits (map shape [v; w]) e (shape w)).
  { assert (F0 : fits (map shape [v; w]) (EVar (A:=A) 0) (shape w)) by (constructor; cbn; now rewrite S0).
    assert (F1 : fits (map shape [v; w]) (EAssign (EVar (A:=A) 1) 0) (shape w)).
    { apply fits_assign with (sx := shape v); [constructor; reflexivity|assumption|reflexivity|now rewrite S0]. }
    destruct He as [-> | ->]; now constructor. }
  assert (U : NoDup (map ref [v; w])).
  { cbn. constructor; [|constructor; [intros []|constructor]]. intros [X|[]]. apply N. now symmetry. }
  destruct (C93_run A zero [v; w] e (shape w) (fun x => if x =? 0 then dv else dw) h U) as (t & h' & E & _ & _ & C & _).
  - intros x t Ht. destruct x as [|[|x]]; cbn in Ht; [injection Ht as <-; now split|injection Ht as <-; now split|destruct x; discriminate].
  - exact F.
  - exists t, h'. split; [assumption|]. destruct He as [-> | ->]; exact C.
Qed.
Print Assumptions C93_read_before_refuted.

(** Beside the theorems: v = (1, 2), w = (5, 7). *)
Module Case.
Definition v := mkT [2] 0.
Definition w := mkT [1; 2] 1.
Definition h : list (list Z) := [[1; 2]; [5; 7]]%Z.
Definition add := Z.add.

(** w's elements go to v, whose shape stays; the result is w *)
Example assigns : forward 0%Z [v; w] (EAssign (EVar 1) 0) h = Ok (w, [[5; 7]; [5; 7]]%Z).
Proof. reflexivity. Qed.

(** v + (v <- w) with a u of v's shape: 10 and 14, not 6 and 9 *)
Example late_read : forward 0%Z [v; mkT [2] 1] (EOp add (EVar 0) (EAssign (EVar 1) 0)) h
                    = Ok (mkT [2] 2, [[5; 7]; [5; 7]; [10; 14]]%Z).
Proof. reflexivity. Qed.

(** nested assignments to variables that are no operands: both hold the sum *)
Definition h4 : list (list Z) := [[1; 2]; [5; 7]; [0; 0]; [0; 0]]%Z.
Definition nested : expr := EAssign (EAssign (EOp add (EVar 0) (EVar 1)) 2) 3.
Example fits_nested : fits (A:=Z) (map shape [mkT [2] 0; mkT [2] 1; mkT [2; 1] 2; mkT [2] 3]) nested [2].
Proof.
  apply fits_assign with (sx := [2]); [|discriminate|reflexivity|reflexivity].
  apply fits_assign with (sx := [2; 1]); [|discriminate|reflexivity|reflexivity].
  constructor; constructor; reflexivity.
Qed.
Example nested_run : exists t h', forward 0%Z [mkT [2] 0; mkT [2] 1; mkT [2; 1] 2; mkT [2] 3] nested h4 = Ok (t, h') /\
  contents h' (mkT [2; 1] 2) = Some [6; 9]%Z /\ contents h' (mkT [2] 3) = Some [6; 9]%Z /\ contents h' t = Some [6; 9]%Z.
Proof. eexists; eexists. repeat split; reflexivity. Qed.
Example nested_separate : forall x, In x (used nested) -> ~ In x (assigned nested).
Proof. cbn. intros x [<-|[<-|[]]] [X|[X|[]]]; discriminate. Qed.

(** three elements into a variable of two: the variable says [2] and has three *)
Example resized : forward 0%Z [v; mkT [3] 1] (EAssign (EVar 1) 0) [[1; 2]; [5; 7; 9]]%Z = Ok (mkT [3] 1, [[5; 7; 9]; [5; 7; 9]]%Z) /\
  ~ well_formed [[5; 7; 9]; [5; 7; 9]]%Z v.
Proof. split; [reflexivity|]. intros (d & E & L). injection E as <-. discriminate L. Qed.
End Case.
