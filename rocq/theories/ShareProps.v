(** Property C28: operators that occur more than once, in the backward pass. *)
From Coq Require Import List Arith Lia Bool PeanoNat ZArith.
From Verif Require Import ListBase TensorModel TensorSpec TensorProofs TensorProofs2 GraphModel GraphSpec GraphProofs GraphProofs2
  GraphProofs3 GraphProofs4 GraphProps GradSpec GradProofs.
Import ListNotations.

Section Share.
Context {A : Type} (zero one : A) (add mul : A -> A -> A).
Variable dbg : bool.
Notation forward := (forward zero one add mul dbg).
Notation run := (run zero one add mul dbg).

(** the object in slot k has an input tensor *)
Definition has_input (s : st A) (k : slot) : Prop := in1 (objs s k) <> None.

(** s' comes from s by running the operators in L, each in its slot *)
Definition ran_in (e0 : expr A) (s s' : st A) (L : list (nat * slot)) : Prop :=
  ran s' = map fst L ++ ran s /\
  (forall k, has_input s' k <-> has_input s k \/ In k (map snd L)) /\
  Forall (fun p => exists x, At e0 (snd p) x /\ node_id x = Some (fst p)) L.

Lemma ran_in_same e0 s s' : ran s' = ran s -> (forall k, in1 (objs s' k) = in1 (objs s k)) -> ran_in e0 s s' [].
Proof.
  intros R O. split; [exact R|]. split; [|constructor]. intros k. unfold has_input. rewrite O. cbn. tauto.
Qed.

Lemma ran_in_trans e0 s1 s2 s3 L1 L2 : ran_in e0 s1 s2 L1 -> ran_in e0 s2 s3 L2 -> ran_in e0 s1 s3 (L2 ++ L1).
Proof.
  intros (R1 & O1 & F1) (R2 & O2 & F2). split; [rewrite R2, R1, map_app, app_assoc; reflexivity|]. split; [|now apply Forall_app].
  intros k. rewrite O2, O1, map_app, in_app_iff. tauto.
Qed.

Lemma ran_in_quiet_l e0 s1 s2 s3 L : ran s2 = ran s1 -> (forall k, in1 (objs s2 k) = in1 (objs s1 k)) -> ran_in e0 s2 s3 L -> ran_in e0 s1 s3 L.
Proof. intros R O H. rewrite <- (app_nil_r L). exact (ran_in_trans e0 s1 s2 s3 [] L (ran_in_same e0 s1 s2 R O) H). Qed.

Definition quiet {T} (m : G (A:=A) T) : Prop := forall s v s', m s = Ok (v, s') -> ran s' = ran s /\ objs s' = objs s.

Lemma quiet_ret {T} (v : T) : quiet (gret v). Proof. intros s w s' [= <- <-]. auto. Qed.
Lemma quiet_get {T} (f : st A -> T) : quiet (get f). Proof. intros s w s' [= <- <-]. auto. Qed.
Lemma quiet_heaply {T} (m : M (A:=A) T) : quiet (heaply m).
Proof. intros s v s' H. unfold heaply in H. destruct (m (hp s)) as [[w h]| |]; try discriminate. injection H as <- <-. auto. Qed.
Lemma quiet_the {T} (o : option T) : quiet (the (A:=A) o).
Proof. destruct o; [apply quiet_ret|]. intros s v s'. discriminate. Qed.
Lemma quiet_bind {S T} (m : G (A:=A) S) (f : S -> G (A:=A) T) : quiet m -> (forall v, quiet (f v)) -> quiet (gbind m f).
Proof.
  intros Hm Hf s v s' H. unfold gbind in H. destruct (m s) as [[w s1]| |] eqn:E; try discriminate.
  destruct (Hm _ _ _ E), (Hf _ _ _ _ H). split; congruence.
Qed.
Lemma quiet_own n v : quiet (into_own (A:=A) n v).
Proof. intros s t s' H. unfold into_own in H. destruct (own s n); injection H as <- <-; auto. Qed.
Lemma quiet_un n o i : quiet (un_forward (A:=A) n o i).
Proof.
  destruct o as [ow f m b|f]; cbn [un_forward].
  - apply quiet_bind; [apply quiet_get|]. intros h. apply quiet_bind; [apply quiet_the|]. intros v. destruct ow; [apply quiet_own|apply quiet_heaply].
  - apply quiet_bind; [apply quiet_the|]. intros v. apply quiet_ret.
Qed.
Lemma quiet_bin n o l r : quiet (bin_forward zero add dbg n o l r).
Proof.
  destruct o as [|ow f bo b]; cbn [bin_forward]; [apply quiet_heaply|].
  apply quiet_bind; [apply quiet_get|]. intros h. apply quiet_bind; [apply quiet_the|]. intros v. destruct ow; [apply quiet_own|apply quiet_heaply].
Qed.
Lemma quiet_var k v : quiet (var_forward zero k v).
Proof.
  unfold var_forward. apply quiet_bind; [apply quiet_get|]. intros tr. apply quiet_bind; [apply quiet_get|]. intros vs. destruct tr; [|apply quiet_ret].
  apply quiet_bind; [apply quiet_heaply|]. intros _. apply quiet_bind; [|intros; apply quiet_ret]. intros s t s' [= <- <-]. auto.
Qed.
Lemma quiet_hold p : quiet (hold_forward dbg p).
Proof.
  unfold hold_forward. apply quiet_bind; [apply quiet_get|]. intros [t|]; [apply quiet_ret|]. destruct dbg; [|apply quiet_heaply]. intros s v s'. discriminate.
Qed.

Lemma bind_ok {S T} (m : G (A:=A) S) (f : S -> G (A:=A) T) s v s' : gbind m f s = Ok (v, s') -> exists w s1, m s = Ok (w, s1) /\ f w s1 = Ok (v, s').
Proof. unfold gbind. destruct (m s) as [[w s1]| |]; try discriminate. eauto. Qed.

Lemma supd_in1 (f : slot -> obj) k o k' : in1 (supd f k o k') = if slot_eqb k' k then in1 o else in1 (f k').
Proof. unfold supd. now destruct (slot_eqb k' k). Qed.

Lemma forward_ran e0 e : forall k s t s', At e0 k e -> forward k e s = Ok (t, s') -> exists L, ran_in e0 s s' L.
Proof.
  assert (Q : forall T (m : G (A:=A) T) s v s', quiet m -> m s = Ok (v, s') -> exists L, ran_in e0 s s' L).
  { intros T m s v s' Hm E. destruct (Hm _ _ _ E) as [R O]. exists []. apply ran_in_same; [assumption|]. intros k. now rewrite O. }
  assert (PO : forall k q s u s', put_out (A:=A) k q s = Ok (u, s') -> ran s' = ran s /\ forall k', in1 (objs s' k') = in1 (objs s k')).
  { intros k q s u s' [= <- <-]. split; [reflexivity|]. intros k'. cbn [set_objs objs]. rewrite supd_in1. destruct (slot_eqb_spec k' k) as [->|]; reflexivity. }
  assert (PI2 : forall k q s u s', put_in2 (A:=A) k q s = Ok (u, s') -> ran s' = ran s /\ forall k', in1 (objs s' k') = in1 (objs s k')).
  { intros k q s u s' [= <- <-]. split; [reflexivity|]. intros k'. cbn [set_objs objs]. rewrite supd_in1. destruct (slot_eqb_spec k' k) as [->|]; reflexivity. }
  assert (PI1 : forall k t s u s', put_in1 (A:=A) k (Some t) s = Ok (u, s') -> ran s' = ran s /\ forall k', has_input s' k' <-> has_input s k' \/ k' = k).
  { intros k q s u s' [= <- <-]. split; [reflexivity|]. intros k'. unfold has_input. cbn [set_objs objs]. rewrite supd_in1. destruct (slot_eqb_spec k' k) as [->|N]; cbn; [|tauto].
    split; [auto|discriminate]. }
  assert (QR : forall n s q s', query (A:=A) n s = Ok (q, s') -> s' = s) by (intros n s q s' [= _ <-]; reflexivity).
  (* the tail: the action, output, cache, record *)
  assert (TL : forall k n s1 t s' (act : G (A:=A) tensor), quiet act ->
    gbind act (fun t => gbind (put_out k (Some t)) (fun _ => gbind (update n t) (fun _ => gbind (modify (fun s => set_ran s (n :: ran s))) (fun _ => gret t)))) s1 = Ok (t, s') ->
    ran s' = n :: ran s1 /\ forall k', in1 (objs s' k') = in1 (objs s1 k')).
  { intros k n s1 t s' act Qa E. apply bind_ok in E as (t1 & s2 & E1 & E). apply bind_ok in E as (u & s3 & E2 & E).
    apply bind_ok in E as (u' & s4 & E3 & E). apply bind_ok in E as (u'' & s5 & E4 & E).
    destruct (Qa _ _ _ E1) as [R2 O2]. destruct (PO _ _ _ _ _ E2) as [R3 O3]. injection E3 as _ <-. injection E4 as _ <-. injection E as _ <-.
    cbn [set_ran set_cache ran objs]. split; [congruence|]. intros k'. now rewrite O3, O2. }
  (* the operands have run, the input of slot k is recorded *)
  set (pre := fun k s s3 => exists L, ran s3 = map fst L ++ ran s /\ (forall k', has_input s3 k' <-> has_input s k' \/ In k' (map snd L) \/ k' = k) /\
                Forall (fun p => exists x, At e0 (snd p) x /\ node_id x = Some (fst p)) L).
  assert (FIN : forall k x n s s3 s', At e0 k x -> node_id x = Some n -> pre k s s3 -> ran s' = n :: ran s3 -> (forall k', in1 (objs s' k') = in1 (objs s3 k')) ->
    exists L, ran_in e0 s s' L).
  { intros k x n s s3 s' Hx Hn (L & R & O & F) R' O'. exists ((n, k) :: L). split; [cbn; now rewrite R', R|]. split; [|constructor; [eauto|assumption]].
    intros k'. unfold has_input at 1. rewrite O'. fold (has_input s3 k'). rewrite O. cbn [map snd In]. intuition congruence. }
  induction e as [v|p|c|c|n o x IH|n o l IHl r IHr]; intros k s t s' H E; cbn [GraphModel.forward] in E.
  - exact (Q _ _ _ _ _ (quiet_var k v) E).
  - exact (Q _ _ _ _ _ (quiet_hold p) E).
  - exact (Q _ _ _ _ _ (quiet_ret c) E).
  - discriminate E.
  - apply bind_ok in E as (q & s1 & E1 & E). apply QR in E1. subst s1. apply bind_ok in E as (u & s2 & E2 & E). destruct (PO _ _ _ _ _ E2) as [R2 O2].
    destruct q as [c|]. { injection E as <- <-. exists []. now apply ran_in_same. }
    apply bind_ok in E as (i & s3 & E3 & E). destruct (IH _ _ _ _ (At_un e0 k n o x H) E3) as [L HL].
    apply bind_ok in E as (u' & s4 & E4 & E). destruct (PI1 _ _ _ _ _ E4) as [R4 O4].
    pose proof (ran_in_quiet_l e0 s s2 s3 L R2 O2 HL) as (R & O & F).
    destruct (TL k n s4 t s' (un_forward n o i) (quiet_un n o i) E) as [R5 O5].
    apply (FIN k (EUn n o x) n s s4 s' H eq_refl); [|exact R5|exact O5].
    exists L. split; [congruence|]. split; [|exact F]. intros k'. rewrite O4, O. tauto.
  - apply bind_ok in E as (q & s1 & E1 & E). apply QR in E1. subst s1. apply bind_ok in E as (u & s2 & E2 & E). destruct (PO _ _ _ _ _ E2) as [R2 O2].
    destruct q as [c|]. { injection E as <- <-. exists []. now apply ran_in_same. }
    apply bind_ok in E as (lr & s3 & E3 & E).
    destruct (TL k n s3 t s' (bin_forward zero add dbg n o (fst lr) (snd lr)) (quiet_bin n o (fst lr) (snd lr)) E) as [R5 O5].
    apply (FIN k (EBin n o l r) n s s3 s' H eq_refl); [|exact R5|exact O5]. clear E R5 O5.
    assert (IL := fun s t s' => IHl _ s t s' (At_left e0 k n o l r H)). assert (IR := fun s t s' => IHr _ s t s' (At_right e0 k n o l r H)). clear IHl IHr.
    assert (G1 : forall c, gbind (forward (Some (n, true)) r) (fun rt => gbind (put_in2 k (Some rt)) (fun _ =>
                gbind (value_forward one mul c rt) (fun lt => gbind (put_in1 k (Some lt)) (fun _ => gret (lt, rt))))) s2 = Ok (lr, s3) -> pre k s s3).
    { intros c E. apply bind_ok in E as (rt & sa & Ea & E). apply bind_ok in E as (ub & sb & Eb & E). apply bind_ok in E as (lt & sc & Ec & E).
      apply bind_ok in E as (ud & sd & Ed & E). injection E as _ <-. destruct (IR _ _ _ Ea) as [L HL]. destruct (PI2 _ _ _ _ _ Eb) as [Rb Ob].
      destruct (quiet_heaply _ _ _ _ Ec) as [Rc Oc]. destruct (PI1 _ _ _ _ _ Ed) as [Rd Od].
      pose proof (ran_in_quiet_l e0 s s2 sa L R2 O2 HL) as (R & O & F). exists L. split; [congruence|]. split; [|exact F]. intros k'. rewrite Od.
      unfold has_input at 1. rewrite Oc, Ob. fold (has_input sa k'). rewrite O. tauto. }
    assert (G2 : forall c, gbind (forward (Some (n, false)) l) (fun lt => gbind (put_in1 k (Some lt)) (fun _ =>
                gbind (value_forward one mul c lt) (fun rt => gbind (put_in2 k (Some rt)) (fun _ => gret (lt, rt))))) s2 = Ok (lr, s3) -> pre k s s3).
    { intros c E. apply bind_ok in E as (lt & sa & Ea & E). apply bind_ok in E as (ub & sb & Eb & E). apply bind_ok in E as (rt & sc & Ec & E).
      apply bind_ok in E as (ud & sd & Ed & E). injection E as _ <-. destruct (IL _ _ _ Ea) as [L HL]. destruct (PI1 _ _ _ _ _ Eb) as [Rb Ob].
      destruct (quiet_heaply _ _ _ _ Ec) as [Rc Oc]. destruct (PI2 _ _ _ _ _ Ed) as [Rd Od].
      pose proof (ran_in_quiet_l e0 s s2 sa L R2 O2 HL) as (R & O & F). exists L. split; [congruence|]. split; [|exact F]. intros k'.
      unfold has_input at 1. rewrite Od, Oc. fold (has_input sb k'). rewrite Ob, O. tauto. }
    assert (G3 : gbind (forward (Some (n, false)) l) (fun lt => gbind (put_in1 k (Some lt)) (fun _ =>
                gbind (forward (Some (n, true)) r) (fun rt => gbind (put_in2 k (Some rt)) (fun _ => gret (lt, rt))))) s2 = Ok (lr, s3) -> pre k s s3).
    { intros E. apply bind_ok in E as (lt & sa & Ea & E). apply bind_ok in E as (ub & sb & Eb & E). apply bind_ok in E as (rt & sc & Ec & E).
      apply bind_ok in E as (ud & sd & Ed & E). injection E as _ <-. destruct (IL _ _ _ Ea) as [L HL]. destruct (PI1 _ _ _ _ _ Eb) as [Rb Ob].
      destruct (IR _ _ _ Ec) as (L' & Rc & Oc & Fc). destruct (PI2 _ _ _ _ _ Ed) as [Rd Od].
      pose proof (ran_in_quiet_l e0 s s2 sa L R2 O2 HL) as (R & O & F). exists (L' ++ L).
      split; [rewrite Rd, Rc, Rb, R, map_app, app_assoc; reflexivity|]. split; [|now apply Forall_app]. intros k'.
      unfold has_input at 1. rewrite Od. fold (has_input sc k'). rewrite Oc, Ob, O, map_app, in_app_iff. tauto. }
    clear - E3 G1 G2 G3.
    destruct l; try (apply (G1 _ E3)); destruct r; first [exact (G3 E3)|exact (G2 _ E3)].
Qed.

(** a slot holds one expression *)
Lemma slot_one (e : expr A) k x y : consistent e -> At e k x -> At e k y -> x = y.
Proof.
  intros C Hx Hy. inversion Hx as [Hr|kx n o x' Px|kx n o l r Px|kx n o l r Px]; subst; inversion Hy as [Hr'|ky n' o' y' Py|ky n' o' l' r' Py|ky n' o' l' r' Py]; subst;
    try congruence; match goal with
    | P : At e ?k1 ?a, Q : At e ?k2 ?b |- _ => assert (Z : a = b) by (apply (C k1 k2 a b n P Q); reflexivity); congruence
    end.
Qed.

(** C28: after the first run of a graph, of all the copies of an operator exactly one has an input: the one that ran.  The
    backward actions of the other copies are called with an empty input. *)
Theorem C28_one_copy_has_input e s who : (forall c, e <> EVal c) -> consistent e -> runnable zero one add mul e s -> separate e s who ->
  (forall k, ~ has_input s k) ->
  exists t s', run e s = Ok (t, s') /\
    (forall k1 k2 x, At e k1 x -> At e k2 x -> node_id x <> None -> has_input s' k1 -> has_input s' k2 -> k1 = k2) /\
    (forall n, In n (ids e) -> exists k x, At e k x /\ node_id x = Some n /\ has_input s' k).
Proof.
  intros V C Rn S H0. destruct (C25_run_value zero one add mul dbg e s who V C Rn S) as (t & s' & R & _ & ND & RI & _).
  exists t, s'. split; [exact R|]. pose proof R as R'. unfold GraphModel.run in R'. apply bind_ok in R' as (u & s1 & E1 & E2). injection E1 as _ <-.
  destruct (forward_ran e e None _ _ _ (At_root e) E2) as (L & RL & OL & FL). cbn [set_ran ran] in RL. rewrite app_nil_r in RL.
  rewrite Forall_forall in FL.
  assert (IN : forall k x n, At e k x -> node_id x = Some n -> has_input s' k -> In (n, k) L).
  { intros k x n Hx Hn Hi. apply OL in Hi. destruct Hi as [Hi|Hi]; [now apply H0 in Hi|]. apply in_map_iff in Hi as ([m k'] & <- & Hin). cbn [snd] in *.
    destruct (FL _ Hin) as (y & Hy & Hm). cbn [fst snd] in *. rewrite (slot_one e k' y x C Hy Hx) in Hm. assert (m = n) by congruence. now subst. }
  split.
  - intros k1 k2 x H1 H2 Hn I1 I2. destruct (node_id x) as [n|] eqn:En; [|easy]. specialize (IN k1 x n H1 En I1) as P1. specialize (IN k2 x n H2 En I2) as P2.
    rewrite RL in ND. clear - ND P1 P2. induction L as [|[m k] L IH]; [destruct P1|]. cbn [map fst] in ND. inversion ND as [|? ? N1 N2]; subst.
    destruct P1 as [Q1|P1], P2 as [Q2|P2]; auto.
    + congruence.
    + destruct N1. assert (m = n) by congruence. subst m. change n with (fst (n, k2)). now apply in_map.
    + destruct N1. assert (m = n) by congruence. subst m. change n with (fst (n, k1)). now apply in_map.
  - intros n Hn. apply RI in Hn. rewrite RL in Hn. apply in_map_iff in Hn as ([m k] & <- & Hin). destruct (FL _ Hin) as (x & Hx & Hm). cbn [fst snd] in *.
    exists k, x. split; [exact Hx|]. split; [exact Hm|]. apply OL. right. change k with (snd (m, k)). now apply in_map.
Qed.

End Share.
Print Assumptions C28_one_copy_has_input.

(** So with y = x*x the gradient of y*y is never computed: the second copy of y propagates through an empty input. *)
Module ExS.
Open Scope Z_scope.
(** square with the backward action of operation.hpp:1046-1053, and an element-wise product *)
Definition sq : uop Z := UNew false (fun v => Some (fst v, map (fun a => a * a) (snd v))) IntoNew
  (fun i _ g => if Nat.eqb (length (snd i)) (length (snd g)) then Some (fst i, map2 (fun a b => a * b * 2) (snd i) (snd g)) else None).
Definition times : bop Z := BNew false (fun a b => Some (fst a, map2 Z.mul (snd a) (snd b))) false
  (fun a b _ g => Some ((fst a, map2 Z.mul (snd b) (snd g)), (fst b, map2 Z.mul (snd a) (snd g)))).
Definition y : expr Z := EUn 0 sq (EVar 0).
Definition e : expr Z := EBin 1 times y y.
Definition s : st Z :=
  St [[1; 2; 3]; [0; 0; 0]] (fun _ => None) (fun _ => Obj None None None) (fun _ => VObj true true 0 0)
     (fun _ => VState (mkT [3%nat] 0) (mkT [3%nat] 1)) (fun _ => None) (fun _ => None) (fun _ _ => None) true [].
Definition who (r : nat) : owner := match r with 1 => OGrad 0 | _ => OLeaf end%nat.
Lemma e_consistent : consistent e.
Proof. intros k1 k2 a b n H1 H2. Ex.at_cases H1; Ex.at_cases H2; cbn; congruence. Qed.
Lemma e_runnable : runnable 0 1 Z.add Z.mul e s.
Proof.
  split.
  - intros k x H _. Ex.at_cases H; (eexists; split; [reflexivity|]; split; [reflexivity|discriminate]).
  - intros k n l r H. apply At_all in H. cbn in H. repeat (destruct H as [H|H]; [discriminate H|]). destruct H.
Qed.
Lemma e_separate : separate e s who.
Proof.
  split; [|split; [|split; [|split]]].
  - intros k v H. apply At_all in H. cbn in H.
    repeat (destruct H as [H|H]; [try discriminate H; injection H as <- <-; cbn; repeat split; lia|]). destruct H.
  - discriminate.
  - intros k t H. apply At_all in H. cbn in H. repeat (destruct H as [H|H]; [discriminate H|]). destruct H.
  - discriminate.
  - discriminate.
Qed.
End ExS.

Theorem C28_shared_gradient_refuted : exists (e : expr Z) s who t s' g, (forall c, e <> EVal c) /\ consistent e /\ runnable 0%Z 1%Z Z.add Z.mul e s /\ separate e s who /\
  run 0%Z 1%Z Z.add Z.mul true e s = Ok (t, s') /\ val_of (hp s') t = ([3], [1; 16; 81]%Z) /\
  (* the copy on the left is right, the one on the right gets nothing *)
  in1 (objs s' (Some (1, false))) = Some (mkT [3] 0) /\ in1 (objs s' (Some (1, true))) = None /\
  forall dbg, backs 0%Z 1%Z Z.add Z.mul Z.opp Z.leb 1%Z dbg e [g] s' = UB.
Proof.
  exists ExS.e, ExS.s, ExS.who.
  destruct (run 0%Z 1%Z Z.add Z.mul true ExS.e ExS.s) as [[t s']| |] eqn:E; [|vm_compute in E; discriminate E|vm_compute in E; discriminate E].
  exists t, s', ([3], [1; 1; 1]%Z). split; [discriminate|]. split; [exact ExS.e_consistent|]. split; [exact ExS.e_runnable|]. split; [exact ExS.e_separate|].
  split; [reflexivity|]. vm_compute in E. injection E as <- <-. split; [reflexivity|]. split; [reflexivity|]. split; [reflexivity|].
  intros []; vm_compute; reflexivity.
Qed.
Print Assumptions C28_shared_gradient_refuted.

(** The two theorems meet: the graph of the witness satisfies the hypotheses of the first. *)
Example C28_case : exists t s', run 0%Z 1%Z Z.add Z.mul true ExS.e ExS.s = Ok (t, s') /\
  (forall k1 k2 x, At ExS.e k1 x -> At ExS.e k2 x -> node_id x <> None -> has_input s' k1 -> has_input s' k2 -> k1 = k2).
Proof.
  destruct (C28_one_copy_has_input 0%Z 1%Z Z.add Z.mul true ExS.e ExS.s ExS.who ltac:(discriminate) ExS.e_consistent ExS.e_runnable ExS.e_separate) as (t & s' & R & H & _).
  { intros k H. now apply H. }
  eauto.
Qed.
