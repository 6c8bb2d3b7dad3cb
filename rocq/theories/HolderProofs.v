(** Invariant of placeholders. *)
From Coq Require Import List Arith NArith ZArith Bool PeanoNat Lia.
From Verif Require Import ListBase TensorModel HolderModel HolderSpec.
Import ListNotations.
Local Open Scope nat_scope.

Section Holder.
Context {T : Type} (t_shape : T -> list N) (none : T).
Notation world := (@world T).
Notation step := (step t_shape none).
Notation run := (run t_shape none).

Definition known (w : world) : list handle := handles w ++ recorded w.

Record sound (w : world) : Prop := {
  s_range : forall h, In h (known w) -> (0 <= id_ h < next w)%Z /\ state_ h < length (states w);
  s_same : forall a b, In a (known w) -> In b (known w) -> (id_ a = id_ b <-> state_ a = state_ b);
  s_next : (0 <= next w <= 2 ^ 31 - 1)%Z
}.

Lemma sound_start : sound start.
Proof. split; cbn; [intros h []|intros a b []|lia]. Qed.

(** changing a state, or forgetting objects, keeps the invariant *)
Lemma sound_sub : forall w w', sound w -> next w' = next w -> length (states w') = length (states w) ->
  incl (known w') (known w) -> sound w'.
Proof.
  intros w w' [Hr Hs Hn] En El Hi. split.
  - intros h Hh. rewrite En, El. apply Hr, Hi, Hh.
  - intros a b Ha Hb. apply Hs; apply Hi; assumption.
  - rewrite En. exact Hn.
Qed.

Lemma set_state_fields : forall (w : world) k s, next (set_state w k s) = next w /\ handles (set_state w k s) = handles w /\
  recorded (set_state w k s) = recorded w /\ length (states (set_state w k s)) = length (states w).
Proof. intros. unfold set_state. cbn. rewrite upd_length. auto. Qed.

Lemma resets_fields : forall hs (w : world), let w' := fold_left (reset_it none) hs w in
  next w' = next w /\ handles w' = handles w /\ recorded w' = recorded w /\ length (states w') = length (states w).
Proof.
  induction hs as [|h hs IH]; intros w; cbn [fold_left]; [auto|]. cbn zeta in *.
  destruct (IH (reset_it none w h)) as (A & B & C & D). destruct (set_state_fields w (state_ h) (HState none [minus_one])) as (A' & B' & C' & D').
  unfold reset_it in *. rewrite A, B, C, D. auto.
Qed.

Lemma in_upd : forall {A} (l : list A) i v x, In x (upd l i v) -> x = v \/ In x l.
Proof.
  induction l as [|y l IH]; intros i v x H; [destruct i; destruct H|].
  destruct i as [|i]; cbn in H.
  - destruct H as [H|H]; [left; congruence|right; right; exact H].
  - destruct H as [H|H]; [right; left; exact H|]. destruct (IH i v x H); [left|right; right]; assumption.
Qed.

Lemma sound_step : forall w e w', sound w -> step w e = Ok w' -> sound w'.
Proof.
  intros w e w' Hw He. destruct e as [|hint|i|i j|i x|i x|i|i s|]; cbn [HolderModel.step] in He.
  - unfold generate_uid in He. destruct (Z.eqb_spec (next w) (2 ^ 31 - 1)) as [|Hne]; [discriminate|]. injection He as <-.
    destruct Hw as [Hr Hs Hn]. split; cbn [next states]; [|exact Hs|lia].
    intros h Hh. change (In h (known w)) in Hh. specialize (Hr h Hh). lia.
  - unfold construct in He. unfold generate_uid in He.
    assert (exists hh, (next w <> 2 ^ 31 - 1)%Z /\ w' = World (next w + 1) (handles w ++ [Handle (next w) (length (states w))])
              (states w ++ [HState none hh]) (recorded w)) as (hh & Hne & ->).
    { destruct hint as [[|c l]|]; [discriminate| |]; (destruct (Z.eqb_spec (next w) (2 ^ 31 - 1)) as [|Hne]; [discriminate|]);
        injection He as <-; eexists; (split; [exact Hne|reflexivity]). }
    clear He. destruct Hw as [Hr Hs Hn].
    set (n := Handle (next w) (length (states w))).
    assert (forall h, In h (known (World (next w + 1) (handles w ++ [n]) (states w ++ [HState none hh]) (recorded w))) -> h = n \/ In h (known w)) as Hin.
    { intros h Hh. unfold known in *. cbn [handles recorded] in Hh. rewrite !in_app_iff in *. cbn [In] in Hh. intuition congruence. }
    split; cbn [next states].
    + intros h Hh. rewrite app_length. cbn [length]. destruct (Hin h Hh) as [->|Ho]; [subst n; cbn [id_ state_]; lia|].
      specialize (Hr h Ho). lia.
    + intros a b Ha Hb. destruct (Hin a Ha) as [->|Ha'], (Hin b Hb) as [->|Hb'].
      * tauto.
      * specialize (Hr b Hb'). subst n. cbn [id_ state_]. lia.
      * specialize (Hr a Ha'). subst n. cbn [id_ state_]. lia.
      * exact (Hs a b Ha' Hb').
    + lia.
  - destruct (nth_error (handles w) i) as [h|] eqn:Eh; [|discriminate]. injection He as <-. apply nth_error_In in Eh.
    apply (sound_sub w); [exact Hw|reflexivity|reflexivity|]. intros a Ha. unfold known in *. cbn [handles recorded] in Ha.
    rewrite !in_app_iff in *. cbn [In] in Ha. intuition congruence.
  - destruct (nth_error (handles w) i) as [h0|]; [|discriminate]. destruct (nth_error (handles w) j) as [h|] eqn:Eh; [|discriminate].
    injection He as <-. apply nth_error_In in Eh.
    apply (sound_sub w); [exact Hw|reflexivity|reflexivity|]. intros a Ha. unfold known in *. cbn [handles recorded] in Ha.
    rewrite !in_app_iff in *. destruct Ha as [Ha|Ha]; [|right; exact Ha]. left.
    apply in_upd in Ha. destruct Ha as [->|Ha]; assumption.
  - destruct (nth_error (handles w) i) as [h|]; [|discriminate]. injection He as <-. unfold bind_to.
    apply (sound_sub w); [exact Hw|reflexivity|apply upd_length|intros a Ha; exact Ha].
  - destruct (nth_error (handles w) i) as [h|] eqn:Eh; [|discriminate]. injection He as <-. apply nth_error_In in Eh.
    apply (sound_sub w); [exact Hw|reflexivity|apply upd_length|]. intros a Ha. unfold known in *.
    cbn [handles recorded bind_to set_state] in Ha. rewrite !in_app_iff in *. cbn [In] in Ha. intuition congruence.
  - destruct (nth_error (handles w) i) as [h|]; [|discriminate]. injection He as <-.
    apply (sound_sub w); [exact Hw|reflexivity|apply upd_length|intros a Ha; exact Ha].
  - destruct (nth_error (handles w) i) as [h|]; [|discriminate]. destruct (nth_error (states w) (state_ h)); [|discriminate]. injection He as <-.
    apply (sound_sub w); [exact Hw|reflexivity|apply upd_length|intros a Ha; exact Ha].
  - injection He as <-. destruct (resets_fields (recorded w) w) as (A & B & C & D).
    apply (sound_sub w); [exact Hw|exact A|exact D|]. unfold known. cbn [handles recorded]. rewrite B, app_nil_r.
    intros a Ha. apply in_or_app. left. exact Ha.
Qed.

Lemma made_step : forall w e w', step w e = Ok w' -> next w' = (next w + match e with Other | New _ => 1 | _ => 0 end)%Z.
Proof.
  intros w e w' He. destruct e as [|hint|i|i j|i x|i x|i|i s|]; cbn [HolderModel.step] in He.
  - unfold generate_uid in He. destruct (next w =? 2 ^ 31 - 1)%Z; [discriminate|]. injection He as <-. reflexivity.
  - unfold construct, generate_uid in He. destruct hint as [[|c l]|]; [discriminate| |];
      (destruct (next w =? 2 ^ 31 - 1)%Z; [discriminate|]); injection He as <-; reflexivity.
  - destruct (nth_error (handles w) i); [|discriminate]. injection He as <-. cbn [next]. lia.
  - destruct (nth_error (handles w) i); [|discriminate]. destruct (nth_error (handles w) j); [|discriminate]. injection He as <-. cbn [next]. lia.
  - destruct (nth_error (handles w) i); [|discriminate]. injection He as <-. cbn. lia.
  - destruct (nth_error (handles w) i); [|discriminate]. injection He as <-. cbn. lia.
  - destruct (nth_error (handles w) i); [|discriminate]. injection He as <-. cbn. lia.
  - destruct (nth_error (handles w) i) as [h|]; [|discriminate]. destruct (nth_error (states w) (state_ h)); [|discriminate].
    injection He as <-. cbn. lia.
  - injection He as <-. destruct (resets_fields (recorded w) w) as (A & _). cbn [next]. rewrite A. lia.
Qed.

Lemma run_sound : forall es w w', sound w -> run w es = Ok w' -> sound w' /\ next w' = (next w + made es)%Z.
Proof.
  induction es as [|e es IH]; intros w w' Hw H; cbn [HolderModel.run made] in *.
  - injection H as <-. split; [exact Hw|lia].
  - destruct (step w e) as [w1| |] eqn:E1; try discriminate H. destruct (IH w1 w' (sound_step w e w1 Hw E1) H) as [S N].
    split; [exact S|]. rewrite N, (made_step w e w1 E1). lia.
Qed.

Lemma recorded_run : forall es w w', run w es = Ok w' -> map id_ (recorded w') = bound t_shape none (map id_ (recorded w)) w es.
Proof.
  induction es as [|e es IH]; intros w w' H; cbn [HolderModel.run bound] in *; [injection H as <-; reflexivity|].
  destruct (step w e) as [w1| |] eqn:E1; try discriminate H. rewrite (IH w1 w' H). f_equal.
  destruct e as [|hint|i|i j|i x|i x|i|i s|]; cbn [HolderModel.step] in E1.
  - unfold generate_uid in E1. destruct (next w =? 2 ^ 31 - 1)%Z; [discriminate|]. injection E1 as <-. reflexivity.
  - unfold construct, generate_uid in E1. destruct hint as [[|c l]|]; [discriminate| |];
      (destruct (next w =? 2 ^ 31 - 1)%Z; [discriminate|]; injection E1 as <-; reflexivity).
  - destruct (nth_error (handles w) i); [|discriminate]. injection E1 as <-. reflexivity.
  - destruct (nth_error (handles w) i); [|discriminate]. destruct (nth_error (handles w) j); [|discriminate]. injection E1 as <-. reflexivity.
  - destruct (nth_error (handles w) i); [|discriminate]. injection E1 as <-. reflexivity.
  - unfold ident. destruct (nth_error (handles w) i); [|discriminate]. injection E1 as <-. cbn [recorded option_map]. rewrite map_app. reflexivity.
  - destruct (nth_error (handles w) i); [|discriminate]. injection E1 as <-. reflexivity.
  - destruct (nth_error (handles w) i); [|discriminate]. destruct (nth_error (states w) _); [|discriminate]. injection E1 as <-. reflexivity.
  - injection E1 as <-. reflexivity.
Qed.

Lemma run_app : forall a b w, run w (a ++ b) = match run w a with Ok w' => run w' b | Abort => Abort | UB => UB end.
Proof.
  induction a as [|e a IH]; intros b w; cbn [app HolderModel.run]; [reflexivity|].
  destruct (step w e); auto.
Qed.

(** ** What a placeholder holds *)

Definition holds (w : world) (id : Z) (x : T) : Prop :=
  forall h, In h (known w) -> id_ h = id -> exists hint, nth_error (states w) (state_ h) = Some (HState x hint).

Lemma nth_error_put : forall {A} (l : list A) i v j, nth_error (upd l i v) j =
  if (i =? j) && (i <? length l) then Some v else nth_error l j.
Proof.
  intros A l i v j. destruct (Nat.eqb_spec i j) as [->|Hij]; [|exact (nth_error_upd_other l i j v Hij)].
  destruct (Nat.ltb_spec j (length l)) as [H|H]; [exact (nth_error_upd_same l j v H)|rewrite upd_out by exact H; reflexivity].
Qed.

Lemma holds_step : forall w e w' id x, sound w -> step w e = Ok w' ->
  match e with Rebind i _ | Bind i _ | Reset i => ident w i <> Some id | Close => False | _ => True end ->
  (id < next w)%Z -> holds w id x -> holds w' id x.
Proof.
  intros w e w' id x Hw He Hq Hid Hh.
  assert (forall i h s, nth_error (handles w) i = Some h -> ident w i <> Some id ->
            forall a, In a (known w) -> id_ a = id -> exists hint, nth_error (upd (states w) (state_ h) s) (state_ a) = Some (HState x hint)) as Hset.
  { intros i h s Eh Hi a Ha Ea. destruct (Hh a Ha Ea) as [hint Es]. exists hint. rewrite nth_error_put.
    destruct (Nat.eqb_spec (state_ h) (state_ a)) as [E|]; [|exact Es]. exfalso. apply Hi. unfold ident. rewrite Eh. cbn [option_map].
    f_equal. rewrite <- Ea. apply (s_same w Hw); [|exact Ha|exact E]. apply in_or_app. left. exact (nth_error_In _ _ Eh). }
  destruct e as [|hint|i|i j|i y|i y|i|i s|]; cbn [HolderModel.step] in He.
  - unfold generate_uid in He. destruct (next w =? 2 ^ 31 - 1)%Z; [discriminate|]. injection He as <-. exact Hh.
  - assert (exists hh, w' = World (next w + 1) (handles w ++ [Handle (next w) (length (states w))])
              (states w ++ [HState none hh]) (recorded w)) as (hh & ->).
    { unfold construct, generate_uid in He. destruct hint as [[|c l]|]; [discriminate| |];
        (destruct (Z.eqb_spec (next w) (2 ^ 31 - 1)) as [|Hne]; [discriminate|]); injection He as <-; eexists; reflexivity. }
    intros a Ha Ea. unfold known in Ha. cbn [handles recorded states] in *. rewrite !in_app_iff in Ha. cbn [In] in Ha.
    assert (In a (known w)) as Ha'.
    { unfold known. rewrite in_app_iff. destruct Ha as [[Ha|[Ha|[]]]|Ha]; auto. subst a. cbn [id_] in Ea. lia. }
    destruct (Hh a Ha' Ea) as [hint' Es]. exists hint'. rewrite nth_error_app1 by (apply (s_range w Hw a Ha')). exact Es.
  - destruct (nth_error (handles w) i) as [h|] eqn:Eh; [|discriminate]. injection He as <-. apply nth_error_In in Eh.
    intros a Ha Ea. apply Hh; [|exact Ea]. unfold known in *. cbn [handles recorded] in Ha.
    rewrite !in_app_iff in *. cbn [In] in Ha. intuition congruence.
  - destruct (nth_error (handles w) i) as [h0|]; [|discriminate]. destruct (nth_error (handles w) j) as [h|] eqn:Eh; [|discriminate].
    injection He as <-. apply nth_error_In in Eh. intros a Ha Ea. apply Hh; [|exact Ea]. unfold known in *. cbn [handles recorded] in Ha.
    rewrite !in_app_iff in *. destruct Ha as [Ha|Ha]; [|right; exact Ha]. left.
    apply in_upd in Ha. destruct Ha as [->|Ha]; assumption.
  - destruct (nth_error (handles w) i) as [h|] eqn:Eh; [|discriminate]. injection He as <-. intros a Ha Ea. exact (Hset i h _ Eh Hq a Ha Ea).
  - destruct (nth_error (handles w) i) as [h|] eqn:Eh; [|discriminate]. injection He as <-. intros a Ha Ea.
    apply (Hset i h _ Eh Hq a); [|exact Ea]. unfold known in *. cbn [handles recorded bind_to set_state] in Ha.
    apply nth_error_In in Eh. rewrite !in_app_iff in *. cbn [In] in Ha. intuition congruence.
  - destruct (nth_error (handles w) i) as [h|] eqn:Eh; [|discriminate]. injection He as <-. intros a Ha Ea. exact (Hset i h _ Eh Hq a Ha Ea).
  - destruct (nth_error (handles w) i) as [h|] eqn:Eh; [|discriminate]. destruct (nth_error (states w) (state_ h)) as [st|] eqn:Est; [|discriminate].
    injection He as <-. intros a Ha Ea. change (In a (known w)) in Ha. destruct (Hh a Ha Ea) as [hint Es].
    cbn [states set_state]. rewrite nth_error_put. destruct (Nat.eqb_spec (state_ h) (state_ a)) as [E|]; [|exists hint; exact Es].
    rewrite E, Es in Est. injection Est as <-. destruct (state_ h <? length (states w)) eqn:El.
    + exists s. reflexivity.
    + exists hint. exact Es.
  - destruct Hq.
Qed.

Lemma holds_run : forall es w w' id x, sound w -> run w es = Ok w' -> leaves_alone t_shape none id w es ->
  (id < next w)%Z -> holds w id x -> holds w' id x.
Proof.
  induction es as [|e es IH]; intros w w' id x Hw H Hq Hid Hh; cbn [HolderModel.run leaves_alone] in *.
  - injection H as <-. exact Hh.
  - destruct Hq as [Hq1 Hq2]. destruct (step w e) as [w1| |] eqn:E1; try discriminate H.
    apply (IH w1 w' id x (sound_step w e w1 Hw E1) H Hq2); [|exact (holds_step w e w1 id x Hw E1 Hq1 Hid Hh)].
    rewrite (made_step w e w1 E1). destruct e; lia.
Qed.

Lemma holds_bind : forall w e i w' id y s, sound w -> nth_error (handles w) i = Some (Handle id s) ->
  step w e = Ok w' -> (e = Rebind i y \/ e = Bind i y) -> holds w' id y.
Proof.
  intros w e i w' id y s Hw Hi He Hy a Ha Ea.
  assert (states w' = upd (states w) s (HState y (t_shape y)) /\ incl (known w') (known w)) as [Es Hk].
  { destruct Hy as [-> | ->]; cbn [HolderModel.step] in He; rewrite Hi in He; injection He as <-; split; try reflexivity.
    - intros b Hb. exact Hb.
    - intros b Hb. unfold known in *. cbn [handles recorded bind_to set_state] in Hb. apply nth_error_In in Hi.
      rewrite !in_app_iff in *. cbn [In] in Hb. intuition congruence. }
  apply Hk in Ha. assert (In (Handle id s) (known w)) as Hin by (apply in_or_app; left; exact (nth_error_In _ _ Hi)).
  assert (state_ a = s) as ->. { symmetry. apply (s_same w Hw _ a Hin Ha). cbn [id_]. congruence. }
  exists (t_shape y). rewrite Es, nth_error_put, Nat.eqb_refl.
  destruct (Nat.ltb_spec s (length (states w))) as [_|Hl]; [reflexivity|].
  destruct (s_range w Hw _ Hin) as [_ Hs]. cbn [state_] in Hs. lia.
Qed.

Lemma holds_forward : forall (t_empty : T -> bool) dbg w i id x, ident w i = Some id -> holds w id x -> (dbg = false \/ t_empty x = false) ->
  forward t_empty dbg w i = Ok x.
Proof.
  intros t_empty dbg w i id x Hi Hh Hd. unfold ident in Hi. unfold forward. destruct (nth_error (handles w) i) as [h|] eqn:Eh; [|discriminate].
  injection Hi as Hi. destruct (Hh h) as [hint ->]; [apply in_or_app; left; exact (nth_error_In _ _ Eh)|exact Hi|].
  cbn [data_]. destruct Hd as [-> | ->]; [reflexivity|]. rewrite andb_false_r. reflexivity.
Qed.

(** ** The end of the session *)

Lemma resets_states : forall hs (w : world) k, k < length (states w) ->
  nth_error (states (fold_left (reset_it none) hs w)) k =
  if existsb (fun h => state_ h =? k) hs then Some (HState none [minus_one]) else nth_error (states w) k.
Proof.
  induction hs as [|h hs IH]; intros w k Hk; cbn [fold_left existsb]; [reflexivity|].
  rewrite IH by (unfold reset_it; cbn [states set_state]; rewrite upd_length; exact Hk).
  unfold reset_it. cbn [states set_state]. rewrite nth_error_put.
  destruct (existsb (fun h => state_ h =? k) hs); [rewrite orb_true_r; reflexivity|]. rewrite orb_false_r.
  destruct (Nat.eqb_spec (state_ h) k) as [->|]; [|reflexivity].
  destruct (Nat.ltb_spec k (length (states w))); [reflexivity|lia].
Qed.

End Holder.
