(** C40: identifiers and placeholders. *)
From Coq Require Import List Arith NArith ZArith Bool PeanoNat Lia.
From Verif Require Import ListBase TensorModel TextSpec HolderModel HolderSpec HolderProofs.
Import ListNotations.
Local Open Scope nat_scope.

(** C40.  After any history, a newly constructed placeholder gets the number of nodes constructed before as its identifier, and
    no object, nor any placeholder the session has recorded, has that identifier already. *)
Theorem C40_fresh : forall (T : Type) (t_shape : T -> list N) none es w hint w',
  run t_shape none start es = Ok w -> step t_shape none w (New hint) = Ok w' ->
  ident w' (length (handles w)) = Some (made es) /\ length (handles w') = S (length (handles w)) /\
  (forall h, In h (handles w) \/ In h (recorded w) -> id_ h <> made es) /\
  (forall i, i < length (handles w) -> ident w' i = ident w i).
Proof.
  intros T t_shape none es w hint w' Hr Hs. destruct (run_sound t_shape none es start w (sound_start) Hr) as [S N].
  cbn [next start] in N. rewrite Z.add_0_l in N.
  assert (exists hh, w' = World (next w + 1) (handles w ++ [Handle (next w) (length (states w))])
              (states w ++ [HState none hh]) (recorded w)) as (hh & ->).
  { cbn [step] in Hs. unfold construct, generate_uid in Hs. destruct hint as [[|c l]|]; [discriminate| |];
      (destruct (next w =? 2 ^ 31 - 1)%Z; [discriminate|]); injection Hs as <-; eexists; reflexivity. }
  unfold ident. cbn [handles]. split; [|split; [|split]].
  - rewrite nth_error_app2, Nat.sub_diag by lia. cbn. now rewrite N.
  - rewrite app_length. cbn [length]. lia.
  - intros h Hh. assert (In h (known w)) as Hk by (apply in_or_app; tauto). pose proof (s_range w S h Hk) as [Hlt _]. lia.
  - intros i Hi. now rewrite nth_error_app1.
Qed.
Print Assumptions C40_fresh.

(** C40.  After any history, two objects have the same identifier exactly when they are copies of the same placeholder, that is, share their state. *)
Theorem C40_identity : forall (T : Type) (t_shape : T -> list N) none es w a b,
  run t_shape none start es = Ok w -> In a (handles w) -> In b (handles w) ->
  (holder_eq a b = true <-> state_ a = state_ b).
Proof.
  intros T t_shape none es w a b Hr Ha Hb. destruct (run_sound t_shape none es start w (sound_start) Hr) as [S _].
  unfold holder_eq. rewrite Z.eqb_eq. apply (s_same w S); apply in_or_app; left; assumption.
Qed.
Print Assumptions C40_identity.

(** C40.  Identifiers last for 2^31 - 1 nodes: a program that constructs more has undefined behaviour, and only such programs run out. *)
Theorem C40_capacity : forall (T : Type) (t_shape : T -> list N) none es,
  (forall w, run t_shape none start es = Ok w -> (made es <= 2 ^ 31 - 1)%Z /\ next w = made es) /\
  ((2 ^ 31 - 1 < made es)%Z -> run t_shape none start es = UB) /\
  (forall w, run t_shape none start es = Ok w -> (made es < 2 ^ 31 - 1)%Z -> exists w', step t_shape none w Other = Ok w').
Proof.
  intros T t_shape none es.
  assert (forall w, run t_shape none start es = Ok w -> (made es <= 2 ^ 31 - 1)%Z /\ next w = made es) as G.
  { intros w Hr. destruct (run_sound t_shape none es start w (sound_start) Hr) as [S N]. cbn [next start] in N.
    pose proof (s_next w S). split; lia. }
  split; [exact G|]. split.
  - intros Hm. assert (forall (es : list event) w, run t_shape none w es <> Abort) as NA.
    { clear. induction es as [|e es IH]; intros w; cbn [run]; [discriminate|].
      destruct (step t_shape none w e) as [w1| |] eqn:E; [apply IH| |discriminate]. exfalso.
      destruct e; cbn [step] in E; unfold construct, generate_uid in E;
        repeat match type of E with context [match ?x with _ => _ end] => destruct x end; discriminate E. }
    destruct (run t_shape none start es) as [w| |] eqn:E; [|exfalso; exact (NA _ _ E)|reflexivity].
    destruct (G w eq_refl). lia.
  - intros w Hr Hm. destruct (G w Hr) as [_ N]. cbn [step]. unfold generate_uid.
    destruct (Z.eqb_spec (next w) (2 ^ 31 - 1)); [lia|]. eexists. reflexivity.
Qed.
Print Assumptions C40_capacity.

(** C40.  A placeholder yields the tensor bound last, through whichever of its copies it was bound and through whichever it is read: after
    any history, a binding, and any further events that do not bind or reset that placeholder nor end the session. *)
Theorem C40_last_bound : forall (T : Type) t_empty (t_shape : T -> list N) none dbg es1 w1 e i x id w2 es2 w3 j,
  run t_shape none start es1 = Ok w1 -> (e = Rebind i x \/ e = Bind i x) -> ident w1 i = Some id ->
  step t_shape none w1 e = Ok w2 -> run t_shape none w2 es2 = Ok w3 -> leaves_alone t_shape none id w2 es2 ->
  ident w3 j = Some id -> (dbg = false \/ t_empty x = false) ->
  forward t_empty dbg w3 j = Ok x /\ (t_empty x = false -> shape t_empty t_shape w3 j = Ok (t_shape x)).
Proof.
  intros T t_empty t_shape none dbg es1 w1 e i x id w2 es2 w3 j H1 He Hi H2 H3 Hq Hj Hd.
  destruct (run_sound t_shape none es1 start w1 (sound_start) H1) as [S1 _].
  unfold ident in Hi. destruct (nth_error (handles w1) i) as [[id' s]|] eqn:Eh; [|discriminate]. cbn in Hi. injection Hi as ->.
  pose proof (holds_bind t_shape none w1 e i w2 id x s S1 Eh H2 He) as Hb.
  pose proof (sound_step t_shape none w1 e w2 S1 H2) as S2.
  assert (id < next w2)%Z as Hid.
  { rewrite (made_step t_shape none w1 e w2 H2).
    pose proof (s_range w1 S1 (Handle id s) ltac:(apply in_or_app; left; exact (nth_error_In _ _ Eh))) as [Hr _]. cbn [id_] in Hr.
    destruct He as [-> | ->]; lia. }
  pose proof (holds_run t_shape none es2 w2 w3 id x S2 H3 Hq Hid Hb) as Hh.
  split; [exact (holds_forward t_empty dbg w3 j id x Hj Hh Hd)|].
  intros Hx. unfold ident in Hj. unfold shape. destruct (nth_error (handles w3) j) as [h|] eqn:Ej; [|discriminate]. injection Hj as Hj.
  destruct (Hh h) as [hint ->]; [apply in_or_app; left; exact (nth_error_In _ _ Ej)|exact Hj|]. cbn [data_]. now rewrite Hx.
Qed.
Print Assumptions C40_last_bound.

(** C40.  Binding or resetting one placeholder changes no other. *)
Theorem C40_frame : forall (T : Type) t_empty (t_shape : T -> list N) none dbg es w e i w' j,
  run t_shape none start es = Ok w -> (exists x, e = Rebind i x \/ e = Bind i x) \/ e = Reset i \/ (exists s, e = Hint i s) ->
  step t_shape none w e = Ok w' -> ident w j <> ident w i ->
  forward t_empty dbg w' j = forward t_empty dbg w j /\ shape t_empty t_shape w' j = shape t_empty t_shape w j.
Proof.
  intros T t_empty t_shape none dbg es w e i w' j Hr He Hs Hj.
  destruct (run_sound t_shape none es start w (sound_start) Hr) as [S _].
  assert (exists h st, nth_error (handles w) i = Some h /\ handles w' = handles w /\ states w' = upd (states w) (state_ h) st) as (h & st & Eh & Ew & Es).
  { destruct He as [[x [-> | ->]]|[-> | [s ->]]]; cbn [step] in Hs; (destruct (nth_error (handles w) i) as [h|] eqn:Eh; [|discriminate]); exists h.
    - injection Hs as <-. eexists. split; [reflexivity|]. split; reflexivity.
    - injection Hs as <-. eexists. split; [reflexivity|]. split; reflexivity.
    - injection Hs as <-. eexists. split; [reflexivity|]. split; reflexivity.
    - destruct (nth_error (states w) (state_ h)); [|discriminate]. injection Hs as <-. eexists. split; [reflexivity|]. split; reflexivity. }
  unfold forward, shape. rewrite Ew, Es. unfold ident in Hj. rewrite Eh in Hj.
  destruct (nth_error (handles w) j) as [h'|] eqn:Ej; [|split; reflexivity].
  rewrite nth_error_upd_other; [split; reflexivity|]. intros E. apply Hj. cbn [option_map]. f_equal.
  apply (s_same w S); [apply in_or_app; left; exact (nth_error_In _ _ Ej)|apply in_or_app; left; exact (nth_error_In _ _ Eh)|congruence].
Qed.
Print Assumptions C40_frame.

(** C40.  The end of a session empties exactly the placeholders bound through it (session::bind, not rebind) since it began, in all their copies. *)
Theorem C40_session_end : forall (T : Type) t_empty (t_shape : T -> list N) none dbg es w w' j id,
  run t_shape none start es = Ok w -> step t_shape none w Close = Ok w' -> ident w j = Some id ->
  ident w' j = Some id /\
  (In id (bound t_shape none [] start es) ->
     forward t_empty dbg w' j = (if dbg && t_empty none then Abort else Ok none) /\
     (t_empty none = true -> shape t_empty t_shape w' j = Ok [minus_one])) /\
  (~ In id (bound t_shape none [] start es) ->
     forward t_empty dbg w' j = forward t_empty dbg w j /\ shape t_empty t_shape w' j = shape t_empty t_shape w j).
Proof.
  intros T t_empty t_shape none dbg es w w' j id Hr Hs Hj. destruct (run_sound t_shape none es start w (sound_start) Hr) as [S _].
  rewrite <- (recorded_run t_shape none es start w Hr : _ = bound t_shape none [] start es).
  cbn [step] in Hs. injection Hs as <-. destruct (resets_fields none (recorded w) w) as (A & B & C & D).
  unfold ident, forward, shape in *. cbn [handles recorded states]. rewrite B. destruct (nth_error (handles w) j) as [h|] eqn:Ej; [|discriminate].
  injection Hj as Hj. assert (In h (known w)) as Hk by (apply in_or_app; left; exact (nth_error_In _ _ Ej)).
  pose proof (s_range w S h Hk) as [_ Hl]. rewrite resets_states by exact Hl. cbn [option_map]. rewrite Hj.
  assert (existsb (fun a => state_ a =? state_ h) (recorded w) = true <-> In id (map id_ (recorded w))) as Hx.
  { rewrite existsb_exists, in_map_iff. split.
    - intros (a & Ha & E). apply Nat.eqb_eq in E. exists a. split; [|exact Ha]. rewrite <- Hj.
      apply (s_same w S); [apply in_or_app; right; exact Ha|exact Hk|exact E].
    - intros (a & E & Ha). exists a. split; [exact Ha|]. apply Nat.eqb_eq.
      apply (s_same w S); [apply in_or_app; right; exact Ha|exact Hk|congruence]. }
  split; [reflexivity|]. split.
  - intros Hin. apply Hx in Hin. rewrite Hin. split; [reflexivity|]. intros Hn. cbn [data_ hint_]. rewrite Hn. reflexivity.
  - intros Hin. destruct (existsb (fun a => state_ a =? state_ h) (recorded w)); [|split; reflexivity]. exfalso. apply Hin, Hx. reflexivity.
Qed.
Print Assumptions C40_session_end.

(** C40.  A copy is the same placeholder as the original, and an assigned object becomes the one assigned from; no other object is
    affected, and nothing that any object held is. *)
Theorem C40_copy_assign : forall (T : Type) t_empty (t_shape : T -> list N) none dbg es w,
  run t_shape none start es = Ok w ->
  (forall i w', step t_shape none w (Copy i) = Ok w' ->
     length (handles w') = S (length (handles w)) /\
     ident w' (length (handles w)) = ident w i /\ forward t_empty dbg w' (length (handles w)) = forward t_empty dbg w i /\
     (forall k, k < length (handles w) -> ident w' k = ident w k /\ forward t_empty dbg w' k = forward t_empty dbg w k /\
        shape t_empty t_shape w' k = shape t_empty t_shape w k)) /\
  (forall i j w', step t_shape none w (Assign i j) = Ok w' ->
     length (handles w') = length (handles w) /\
     ident w' i = ident w j /\ forward t_empty dbg w' i = forward t_empty dbg w j /\
     (forall k, k <> i -> ident w' k = ident w k /\ forward t_empty dbg w' k = forward t_empty dbg w k /\
        shape t_empty t_shape w' k = shape t_empty t_shape w k)).
Proof.
  intros T t_empty t_shape none dbg es w _. split.
  - intros i w' H. cbn [step] in H. destruct (nth_error (handles w) i) as [h|] eqn:Ei; [|discriminate]. injection H as <-.
    unfold ident, forward, shape. cbn [handles states]. rewrite Ei. rewrite nth_error_app2, Nat.sub_diag by lia. cbn [nth_error].
    split; [rewrite app_length; cbn [length]; lia|]. split; [reflexivity|]. split; [reflexivity|].
    intros k Hk. rewrite nth_error_app1 by exact Hk. auto.
  - intros i j w' H. cbn [step] in H. destruct (nth_error (handles w) i) as [h|] eqn:Ei; [|discriminate].
    destruct (nth_error (handles w) j) as [h'|] eqn:Ej; [|discriminate]. injection H as <-.
    unfold ident, forward, shape. cbn [handles states]. rewrite Ej, nth_error_upd_same by (apply nth_error_Some; congruence).
    split; [apply upd_length|]. split; [reflexivity|]. split; [reflexivity|].
    intros k Hk. rewrite nth_error_upd_other by congruence. auto.
Qed.
Print Assumptions C40_copy_assign.

(** C40.  The comparisons are those of the identifiers, except that > is <. *)
Theorem C40_greater_refuted : forall a b,
  (holder_lt a b = true <-> (id_ a < id_ b)%Z) /\ (holder_le a b = true <-> (id_ a <= id_ b)%Z) /\
  (holder_ge a b = true <-> (id_ a >= id_ b)%Z) /\ (holder_ne a b = true <-> id_ a <> id_ b) /\
  (holder_gt a b = true <-> (id_ a < id_ b)%Z) /\
  (id_ a <> id_ b -> ~ (holder_gt a b = true <-> (id_ a > id_ b)%Z)).
Proof.
  intros a b. unfold holder_lt, holder_le, holder_ge, holder_gt, holder_ne.
  rewrite Z.ltb_lt, !Z.leb_le, negb_true_iff, Z.eqb_neq. intuition lia.
Qed.
Print Assumptions C40_greater_refuted.

(** C40.  A session that has remembered any sequence of variables has each identifier once, with the first variable remembered under it; this
    is the session that C23 saves and restores. *)
Theorem C40_remember : forall (V : Type) (vid : V -> nat) vs, let m := fold_left (remember vid) vs [] in
  NoDup (map fst m) /\ (forall id, In id (map fst m) <-> In id (map vid vs)) /\
  (forall id, value_of m id = find (fun v => vid v =? id) vs).
Proof.
  intros V vid vs.
  assert (forall vs m0, NoDup (map fst m0) -> let m := fold_left (remember vid) vs m0 in
    NoDup (map fst m) /\ (forall id, In id (map fst m) <-> In id (map fst m0) \/ In id (map vid vs)) /\
    (forall id, value_of m id = match value_of m0 id with Some v => Some v | None => find (fun v => vid v =? id) vs end)) as G.
  { clear vs. induction vs as [|v vs IH]; intros m0 Hn; cbn [fold_left map find].
    - split; [exact Hn|]. split; [intros id; cbn [In]; tauto|]. intros id. destruct (value_of m0 id); reflexivity.
    - assert (existsb (fun e => fst e =? vid v) m0 = true <-> In (vid v) (map fst m0)) as Hx.
      { rewrite existsb_exists, in_map_iff. split; intros (e & A & B); exists e; [apply Nat.eqb_eq in B|]; split; auto. apply Nat.eqb_eq. exact A. }
      assert (forall (m : list (nat * V)) id, In id (map fst m) <-> value_of m id <> None) as Hv.
      { induction m as [|[k u] m IHm]; intros id; cbn [map fst In value_of]; [split; [easy|congruence]|].
        destruct (Nat.eqb_spec k id) as [->|Hi]; [split; [discriminate|now left]|].
        rewrite <- IHm. split; [intros [->|H]; [congruence|exact H]|now right]. }
      unfold remember at 2 4 6. destruct (existsb (fun e => fst e =? vid v) m0) eqn:Ex.
      + destruct (IH m0 Hn) as (A & B & C). split; [exact A|]. split.
        * intros id. rewrite B. cbn [In]. assert (In (vid v) (map fst m0)) as H by (apply Hx; reflexivity).
          intuition congruence.
        * intros id. rewrite C. destruct (Nat.eqb_spec (vid v) id) as [<-|]; [|reflexivity].
          assert (In (vid v) (map fst m0)) as H by (apply Hx; reflexivity). apply Hv in H. destruct (value_of m0 (vid v)); [reflexivity|congruence].
      + assert (~ In (vid v) (map fst m0)) as Hni. { intros H. apply Hx in H. congruence. }
        destruct (IH (m0 ++ [(vid v, v)])) as (A & B & C).
        { rewrite map_app. cbn [map fst]. clear -Hn Hni. induction (map fst m0) as [|k l IHl]; cbn [app].
          - constructor; [intros []|constructor].
          - inversion Hn as [|? ? Hk Hl]; subst. constructor.
            + rewrite in_app_iff. cbn [In]. intros [H|[H|[]]]; [exact (Hk H)|]. apply Hni. left. congruence.
            + apply IHl; [exact Hl|]. intros H. apply Hni. right. exact H. }
        split; [exact A|]. split.
        * intros id. rewrite B, map_app, in_app_iff. cbn [map fst In]. tauto.
        * intros id. rewrite C.
          assert (value_of (m0 ++ [(vid v, v)]) id = match value_of m0 id with Some u => Some u | None => if vid v =? id then Some v else None end) as ->.
          { clear. induction m0 as [|[k u] m0 IHm]; cbn [app value_of]; [reflexivity|]. destruct (k =? id); [reflexivity|exact IHm]. }
          destruct (value_of m0 id); [reflexivity|]. destruct (vid v =? id); reflexivity. }
  intros m. destruct (G vs [] (NoDup_nil _)) as (A & B & C). split; [exact A|]. split; [|exact C].
  intros id. pose proof (B id) as Hb. cbn [map In] in Hb. fold m in Hb. tauto.
Qed.
Print Assumptions C40_remember.

(** A history meeting the hypotheses: tensors are lists of numbers. *)
Module Case.
Definition empty (x : list nat) : bool := match x with [] => true | _ => false end.
Definition extent (x : list nat) : list N := [N.of_nat (length x)].
Definition before : list (event (T := list nat)) := [Other; New None; New (Some [3%N]); Other; Copy 0; Bind 1 [9]].
Definition later : list (event (T := list nat)) := [New None; Assign 3 2; Bind 1 [4; 4]; Reset 1; Hint 0 [8%N]].
Definition world_of (o : outcome (@world (list nat))) : @world (list nat) := match o with Ok w => w | _ => start end.
Definition w1 := world_of (run extent [] start before).
Definition w2 := world_of (step extent [] w1 (Bind 2 [1; 2; 3])).
Definition w3 := world_of (run extent [] w2 later).
Example history : run extent [] start before = Ok w1 /\ ident w1 2 = Some 1%Z /\ step extent [] w1 (Bind 2 [1; 2; 3]) = Ok w2 /\
  run extent [] w2 later = Ok w3 /\ ident w3 3 = Some 1%Z /\ ident w3 0 = Some 1%Z.
Proof. repeat split; reflexivity. Qed.
Example undisturbed : leaves_alone extent [] 1 w2 later.
Proof. cbn. repeat split; try discriminate; auto. Qed.
Example read_back : forward empty true w3 3 = Ok [1; 2; 3] /\ forward empty true w3 0 = Ok [1; 2; 3] /\ forward empty true w3 1 = Abort.
Proof. repeat split; reflexivity. Qed.
Example ended_those : bound extent [] [] start (before ++ [Bind 2 [1; 2; 3]] ++ later) = [2; 1; 2]%Z.
Proof. reflexivity. Qed.
Example ended : exists w', step extent [] w3 Close = Ok w' /\ forward empty false w' 3 = Ok [].
Proof. eexists. split; reflexivity. Qed.
Example remembered : fold_left (remember (fun v : nat * bool => fst v)) [(7, true); (2, false); (7, false)] [] = [(7, (7, true)); (2, (2, false))].
Proof. reflexivity. Qed.
End Case.
