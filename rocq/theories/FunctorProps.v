(** C67: applying one layer object in several places. *)
From Coq Require Import List Arith Lia Bool PeanoNat.
From Verif Require Import ListBase TensorModel FunctorModel FunctorSpec FunctorProofs.
Import ListNotations.
Local Open Scope nat_scope.

(** No layer object overwrites a result that is still to be read (in particular: every layer object is applied once): running
    the expression gives its mathematical value, whatever was run before, and no tensor outside the layers' buffers changes. *)
Theorem C67_forward : forall (A : Type) (e : ex A) s v,
  good s -> apart s (operands e) -> safe e -> value (hp s) e = Some v ->
  exists t s', forward e s = Ok (t, s') /\ show (hp s') t = v /\ good s' /\
    forall t', apart s [t'] -> show (hp s') t' = show (hp s) t' /\ apart s' [t'].
Proof.
  intros A e s v G P S V. destruct (forward_safe e s v G P S V) as (t & s' & E & V' & G' & F' & _).
  exists t, s'. split; [ assumption | ]. split; [ assumption | ]. split; [ assumption | ].
  intros t' H. split; [ | now apply (apart_frame (uses e) s) ].
  destruct (H t' (or_introl eq_refl)) as (R & N). apply (show_frame (uses e)); [ assumption | assumption | ].
  intros k b _. apply N.
Qed.
Print Assumptions C67_forward.

(** Every layer object is applied at most once: in addition every operator object has kept its operands and its result, so
    back-propagation starts from the right values. *)
Theorem C67_saved : forall (A : Type) (e : ex A) s v,
  good s -> apart s (operands e) -> NoDup (uses e) -> value (hp s) e = Some v ->
  exists t s' new, forward e s = Ok (t, s') /\ show (hp s') t = v /\
    saved s' = saved s ++ new /\ Forall2 (keeps (hp s')) new (values (hp s) e).
Proof.
  intros A e s v G P D V.
  destruct (forward_saved e s v G P D V) as (t & s' & new & E & V' & _ & _ & _ & X & K & _).
  exists t, s', new. auto.
Qed.
Print Assumptions C67_saved.

(** A result that the user holds shows its value until its layer object is applied again; after that it shows, in the old
    shape, the elements of the new result. *)
Theorem C67_held : forall (A : Type) k o (e1 e2 : ex A) s v1 v2,
  good s -> apart s (operands (Un k o e1)) -> apart s (operands e2) -> safe (Un k o e1) -> safe e2 ->
  value (hp s) (Un k o e1) = Some v1 -> value (hp s) e2 = Some v2 ->
  exists t1 s1 t2 s2, forward (Un k o e1) s = Ok (t1, s1) /\ show (hp s1) t1 = v1 /\
    forward e2 s1 = Ok (t2, s2) /\ show (hp s2) t2 = v2 /\
    (~ List.In k (uses e2) -> show (hp s2) t1 = v1) /\
    (made_by e2 k -> show (hp s2) t1 = (fst v1, snd v2)).
Proof.
  intros A k o e1 e2 s v1 v2 G P1 P2 S1 S2 V1 V2.
  destruct (forward_safe (Un k o e1) s v1 G P1 S1 V1) as (t1 & s1 & E1 & W1 & G1 & F1 & (R1 & O1 & M1)).
  destruct (forward_safe e2 s1 v2 G1) as (t2 & s2 & E2 & W2 & G2 & F2 & (R2 & O2 & M2)).
  { now apply (apart_frame (uses (Un k o e1)) s). }
  { assumption. }
  { now rewrite (value_frame (uses (Un k o e1)) s s1 e2 F1 P2). }
  exists t1, s1, t2, s2. split; [ assumption | ]. split; [ assumption | ]. split; [ assumption | ]. split; [ assumption | ].
  split.
  - intro N. rewrite <- W1. apply (show_frame (uses e2)); [ assumption | assumption | ].
    intros k' b I E Q. apply N. rewrite (O1 k' b E Q). assumption.
  - intro M. pose proof (M2 k M) as B2. pose proof (M1 k eq_refl) as B1.
    assert (Q : ref t2 = ref t1).
    { destruct e2 as [ t | k' o' e' | g l r ]; cbn [made_by] in M; [ destruct M | subst k' | destruct M ].
      cbn [forward] in E2. cbn [safe value operands] in S2, V2, P2. destruct S2 as (S2 & N2).
      destruct (value (hp s) e') as [ w | ] eqn:W; [ | discriminate ].
      destruct (forward_safe e' s1 w G1) as (i & si & Ei & Wi & Gi & Fi & (Ri & Oi & Mi)).
      { now apply (apart_frame (uses (Un k o e1)) s). }
      { assumption. }
      { now rewrite (value_frame (uses (Un k o e1)) s s1 e' F1 P2). }
      rewrite Ei in E2. unfold un_step in E2. rewrite Wi, V2 in E2.
      destruct (forward_keeps_buf e' s1 i si Ei k t1 B1) as (b & Eb & Qb). rewrite Eb in E2.
      destruct (Nat.eqb_spec (ref b) (ref i)) as [ X | X ]; [ now destruct (N2 (Oi k b Eb X)) | ].
      injection E2 as <- _. exact Qb. }
    unfold show. rewrite <- Q, <- W1, <- W2. reflexivity.
Qed.
Print Assumptions C67_held.

(** One layer object in both operands of a binary operator: the operator is given the elements of the right result twice (the
    left ones under the left shape). *)
Theorem C67_overwritten : forall (A : Type) k o o' (a b : ex A) g s va vb,
  good s -> apart s (operands a) -> apart s (operands b) -> safe (Un k o a) -> safe (Un k o' b) ->
  value (hp s) (Un k o a) = Some va -> value (hp s) (Un k o' b) = Some vb ->
  match g (fst va, snd vb) vb with
  | Some v => exists t s', forward (Bin g (Un k o a) (Un k o' b)) s = Ok (t, s') /\ show (hp s') t = v
  | None => forward (Bin g (Un k o a) (Un k o' b)) s = UB
  end.
Proof.
  intros A k o o' a b g s va vb G Pa Pb Sa Sb Va Vb.
  destruct (C67_held A k o a (Un k o' b) s va vb G Pa Pb Sa Sb Va Vb)
    as (t1 & s1 & t2 & s2 & E1 & W1 & E2 & W2 & _ & H).
  specialize (H eq_refl).
  cbn [forward] in E1, E2. cbn [forward].
  destruct (g (fst va, snd vb) vb) as [ v | ] eqn:Gv.
  - eexists. eexists. split.
    + rewrite E1, E2, H, W2, Gv. reflexivity.
    + unfold show. cbn [save hp ref shape]. rewrite nth_snoc_new. now destruct v.
  - rewrite E1, E2, H, W2, Gv. reflexivity.
Qed.
Print Assumptions C67_overwritten.

(** A layer object applied directly to its own result: undefined behaviour when the size changes, else what the loop makes of
    its own output. *)
Theorem C67_nested : forall (A : Type) k o o' (e : ex A) s w v,
  good s -> apart s (operands e) -> safe (Un k o' e) -> value (hp s) (Un k o' e) = Some w -> act o w = Some v ->
  (length (snd w) <> length (snd v) -> forward (Un k o (Un k o' e)) s = UB) /\
  (length (snd w) = length (snd v) ->
     match inplace o w with
     | Some d => exists t s', forward (Un k o (Un k o' e)) s = Ok (t, s') /\ show (hp s') t = (fst v, d)
     | None => forward (Un k o (Un k o' e)) s = UB
     end).
Proof.
  intros A k o o' e s w v G P S W V.
  destruct (forward_safe (Un k o' e) s w G P S W) as (t & s1 & E & X & G1 & F & (R & O & M)).
  pose proof (M k eq_refl) as B. remember (Un k o' e) as e' eqn:He. cbn [forward]. rewrite E. unfold un_step.
  rewrite X, V, B, Nat.eqb_refl.
  assert (L : length (nth (ref t) (hp s1) []) = length (snd w)) by (rewrite <- X; reflexivity).
  rewrite L. split; intro H.
  - destruct (Nat.eqb_spec (length (snd w)) (length (snd v))); [ contradiction | reflexivity ].
  - rewrite H, Nat.eqb_refl. destruct (inplace o w) as [ d | ]; [ | reflexivity ].
    eexists. eexists. split; [ reflexivity | ]. unfold show. cbn [save hp ref shape]. now rewrite nth_upd_eq.
Qed.
Print Assumptions C67_nested.

(** reduce_sum over all elements, a cropping and an addition, on numbers *)
Module Case.
Definition total : action nat :=
  Action (fun v => Some ([1], [fold_right Nat.add 0 (snd v)])) (fun v => Some [fold_right Nat.add 0 (snd v)]).
Definition crop : action nat :=                     (* cropping: without the first element *)
  Action (fun v => Some ([length (snd v) - 1], tl (snd v))) (fun v => Some (snd v)).
Definition plus (a b : val nat) : option (val nat) := Some (fst a, map (fun p => fst p + snd p) (combine (snd a) (snd b))).
Definition start : st nat := St [[1; 2; 3]; [10; 20; 30]; [5]] (fun _ => None) [].
Definition x := In (A := nat) (mkT [3] 0).
Definition y := In (A := nat) (mkT [3] 1).
Definition c := In (A := nat) (mkT [1] 2).

Lemma start_good : good start.
Proof. split; intros; discriminate. Qed.

Lemma start_apart : forall t, ref t < 3 -> apart start [t].
Proof. intros t H t' [ <- | [] ]. split; [ exact H | discriminate ]. Qed.

(* C67_forward, C67_saved: two layer objects *)
Example two_objects :
  let e := Bin plus (Un 0 total x) (Un 1 total y) in
  good start /\ apart start (operands e) /\ safe e /\ NoDup (uses e) /\ value (hp start) e = Some ([1], [66]).
Proof.
  cbv zeta. split; [ exact start_good | ]. split; [ | split; [ | split ] ].
  - intros t [ <- | [ <- | [] ] ]; (split; [ cbn; lia | discriminate ]).
  - cbn. split; [ split; [ trivial | tauto ] | ]. split; [ split; [ trivial | tauto ] | ]. intros k <- [ H | [] ]. discriminate.
  - cbn. constructor; [ intros [ H | [] ]; discriminate | constructor; [ intros [] | constructor ] ].
  - reflexivity.
Qed.

(* C67_overwritten: one layer object for both, 60 + 60 instead of 6 + 60 *)
Example one_object :
  exists t s', forward (Bin plus (Un 0 total x) (Un 0 total y)) start = Ok (t, s') /\ show (hp s') t = ([1], [120]).
Proof. eexists. eexists. split; reflexivity. Qed.

(* C67_nested *)
Example nested : forward (Un 0 crop (Un 0 crop x)) start = UB /\ value (hp start) (Un 0 crop (Un 0 crop x)) = Some ([1], [3]).
Proof. split; reflexivity. Qed.
Example nested_same_size :
  exists t s', forward (Un 0 total (Un 0 total x)) start = Ok (t, s') /\ show (hp s') t = ([1], [6]).
Proof. eexists. eexists. split; reflexivity. Qed.

(* C67_held: a result kept while the layer object is applied to something else *)
Example held :
  exists t1 s1 t2 s2, forward (Un 0 total x) start = Ok (t1, s1) /\ show (hp s1) t1 = ([1], [6]) /\
    forward (Un 0 total y) s1 = Ok (t2, s2) /\ show (hp s2) t1 = ([1], [60]).
Proof. eexists. eexists. eexists. eexists. split; [ reflexivity | ]. split; [ reflexivity | ]. split; reflexivity. Qed.
End Case.

(** "Applying a layer object is a function": refuted, although every layer and operator involved is defined on its operand. *)
Theorem C67_refuted : exists (e : ex nat) s v t s',
  good s /\ apart s (operands e) /\ value (hp s) e = Some v /\ forward e s = Ok (t, s') /\ show (hp s') t <> v.
Proof.
  exists (Bin Case.plus (Un 0 Case.total Case.x) (Un 0 Case.total Case.y)), Case.start.
  eexists. eexists. eexists. split; [ exact Case.start_good | ]. split; [ | split; [ | split ] ].
  - intros t [ <- | [ <- | [] ] ]; (split; [ cbn; lia | discriminate ]).
  - reflexivity.
  - reflexivity.
  - discriminate.
Qed.
Print Assumptions C67_refuted.

(** The weaker condition of C67_forward is not enough for back-propagation: there is an expression whose value is right and
    one of whose operator objects has kept another result than its own. *)
Theorem C67_saved_refuted : exists (e : ex nat) s v t s' new,
  good s /\ apart s (operands e) /\ safe e /\ value (hp s) e = Some v /\ forward e s = Ok (t, s') /\ show (hp s') t = v /\
  saved s' = saved s ++ new /\ ~ Forall2 (keeps (hp s')) new (values (hp s) e).
Proof.
  exists (Un 0 Case.total (Bin Case.plus (Un 0 Case.total Case.x) Case.c)), Case.start.
  eexists. eexists. eexists. eexists. split; [ exact Case.start_good | ].
  split; [ | split; [ | split; [ | split; [ | split; [ | split ] ] ] ] ].
  - intros t [ <- | [ <- | [] ] ]; (split; [ cbn; lia | discriminate ]).
  - cbn. split; [ | tauto ]. split; [ split; [ trivial | tauto ] | ]. split; [ trivial | ]. intros k <- [].
  - reflexivity.
  - reflexivity.
  - reflexivity.
  - reflexivity.
  - cbn. intro H. inversion H as [ | p q ps qs (K1 & K2) T ]; subst. discriminate K2.
Qed.
Print Assumptions C67_saved_refuted.
