From Coq Require Import List Arith Lia Bool PeanoNat.
From Verif Require Import ListBase TensorModel TensorSpec TensorProofs TensorProofs2 AliasModel.
Import ListNotations.

Section Alias.
Context {A : Type} (zero : A) (dbg : bool).
Notation state := (state A).
Notation op := (op A).
Notation step := (step zero dbg).
Notation exec := (exec zero dbg).

(** ** effect of one step *)

Lemma lookup_ok (s : state) x t : lookup s x = Ok t -> nth_error (env s) x = Some t.
Proof. unfold lookup. destruct (nth_error (env s) x); congruence. Qed.

(** what a step may do: the environment grows by at most one name; the heap grows; a storage changes only if it belongs to
    the written name; a name's binding changes only if it is the written name *)
Definition frame (s s' : state) (o : op) : Prop :=
  (forall y, written o <> Some y -> y < length (env s) -> nth_error (env s') y = nth_error (env s) y) /\
  (length (env s) <= length (env s')) /\
  (length (hp s) <= length (hp s')) /\
  (forall r, r < length (hp s) -> (forall x t, written o = Some x -> nth_error (env s) x = Some t -> ref t <> r) ->
             nth_error (hp s') r = nth_error (hp s) r).

Lemma map_inplace_inv f t (h h' : list (list A)) u :
  map_inplace f t h = Ok (u, h') -> exists d, nth_error h (ref t) = Some d /\ h' = upd h (ref t) (map f d).
Proof.
  unfold map_inplace, bind, data, store. destruct (nth_error h (ref t)) eqn:E; [|discriminate].
  intros H. injection H as _ <-. eauto.
Qed.

Lemma set_elem_inv t i v (h h' : list (list A)) u :
  set_elem t i v h = Ok (u, h') ->
  exists d, nth_error h (ref t) = Some d /\ i < length d /\ h' = upd h (ref t) (upd d i v).
Proof.
  unfold set_elem, bind, data, store. destruct (nth_error h (ref t)) eqn:E; [|discriminate].
  destruct (Nat.ltb_spec i (length l)); [|discriminate]. intros H'. injection H' as _ <-. eauto.
Qed.

Lemma zip_inplace_inv f t o (h h' : list (list A)) u :
  zip_inplace dbg f t o h = Ok (u, h') -> exists d, ref t < length h /\ h' = upd h (ref t) d.
Proof.
  unfold zip_inplace, bind, data, store, better_assert.
  destruct (list_eqb _ _); [|destruct dbg; [discriminate|]];
    (destruct (nth_error h (ref t)) eqn:E; [|discriminate]); (destruct (nth_error h (ref o)); [|discriminate]);
    (destruct (_ <=? _); [|discriminate]); intros H; injection H as _ <-; eexists; (split; [|reflexivity]);
    apply nth_error_Some; congruence.
Qed.

Lemma resize_inv t s (h h' : list (list A)) t' :
  resize zero t s h = Ok (t', h') -> ref t' = ref t /\ shape t' = s /\ ref t < length h /\
    (h' = h \/ h' = upd h (ref t) (zeros zero (prod s))).
Proof.
  unfold resize, bind, data, store, ret. destruct (nth_error h (ref t)) eqn:E; [|discriminate].
  assert (ref t < length h) by (apply nth_error_Some; congruence).
  destruct (_ =? _); intros HH; injection HH as <- <-; cbn; auto.
Qed.

Lemma deep_copy_inv t (h h' : list (list A)) t' :
  deep_copy zero t h = Ok (t', h') ->
  exists d d', nth_error h (ref t) = Some d /\ h' = h ++ [d'] /\ t' = mkT (shape t) (length h) /\
               d' = d ++ skipn (length d) (zeros zero (prod (shape t))).
Proof.
  unfold deep_copy, bind, data, copy_front, alloc, ret. destruct (nth_error h (ref t)) eqn:E; [|discriminate].
  destruct (_ <=? _); [|discriminate]. intros HH. injection HH as <- <-. eauto 8.
Qed.

Lemma frame_same_env (s : state) h' o x t :
  written o = Some x -> nth_error (env s) x = Some t -> length (hp s) <= length h' ->
  (forall r, r < length (hp s) -> ref t <> r -> nth_error h' r = nth_error (hp s) r) ->
  frame s (mkS (env s) h') o.
Proof.
  intros Hw Ht Hl Hr. split; [auto|]. split; [auto|]. split; [exact Hl|]. intros r Hrl Hx. apply Hr; [assumption|].
  now apply (Hx x t).
Qed.

Lemma step_frame s o s' : step s o = Ok s' -> frame s s' o.
Proof.
  intros H. destruct o; unfold step, run_m, obind in H; cbn [env hp] in H.
  - destruct (lookup s x) eqn:L; try discriminate. injection H as <-. split; [|split; [|split]]; cbn [env hp]; auto.
    + intros y _ Hy. now rewrite nth_error_app1.
    + rewrite app_length. lia.
  - destruct (lookup s x) eqn:L; try discriminate. destruct (deep_copy zero v (hp s)) as [[t' h']| |] eqn:E; try discriminate.
    injection H as <-. apply deep_copy_inv in E. destruct E as (d & d' & Hd & -> & -> & _).
    split; [|split; [|split]]; cbn [env hp].
    + intros y _ Hy. now rewrite nth_error_app1.
    + rewrite app_length. lia.
    + rewrite app_length. lia.
    + intros r Hr _. now rewrite nth_error_app1.
  - destruct (lookup s d) eqn:L; try discriminate. destruct (lookup s x) eqn:L2; try discriminate. injection H as <-.
    split; [|split; [|split]]; cbn [env hp written]; auto.
    + intros y Hy _. apply nth_error_upd_other. congruence.
    + now rewrite upd_length.
  - destruct (lookup s x) eqn:L; try discriminate. destruct (set_elem v0 i v (hp s)) as [[u h']| |] eqn:E; try discriminate.
    injection H as <-. apply set_elem_inv in E. destruct E as (d & Hd & _ & ->).
    apply (frame_same_env s _ _ x v0); [reflexivity|now apply lookup_ok|now rewrite upd_length|].
    intros r _ Hr. now apply nth_error_upd_other.
  - destruct (lookup s x) eqn:L; try discriminate. destruct (map_inplace f v (hp s)) as [[u h']| |] eqn:E; try discriminate.
    injection H as <-. apply map_inplace_inv in E. destruct E as (d & Hd & ->).
    apply (frame_same_env s _ _ x v); [reflexivity|now apply lookup_ok|now rewrite upd_length|].
    intros r _ Hr. now apply nth_error_upd_other.
  - destruct (lookup s x) eqn:L; try discriminate. destruct (lookup s y) eqn:L2; try discriminate.
    destruct (zip_inplace dbg f v v0 (hp s)) as [[u h']| |] eqn:E; try discriminate.
    injection H as <-. apply zip_inplace_inv in E. destruct E as (d & Hd & ->).
    apply (frame_same_env s _ _ x v); [reflexivity|now apply lookup_ok|now rewrite upd_length|].
    intros r _ Hr. now apply nth_error_upd_other.
  - destruct (lookup s x) eqn:L; try discriminate. destruct (resize zero v s0 (hp s)) as [[t' h']| |] eqn:E; try discriminate.
    injection H as <-. apply resize_inv in E. destruct E as (E1 & E2 & E3 & E4).
    assert (Hh : length (hp s) = length h' /\ forall r, ref v <> r -> nth_error h' r = nth_error (hp s) r).
    { destruct E4 as [->| ->]; [auto|]. rewrite upd_length. split; [reflexivity|]. intros r Hr. now apply nth_error_upd_other. }
    destruct Hh as [H1 H2]. split; [|split; [|split]]; cbn [env hp written].
    + intros y Hy _. apply nth_error_upd_other. congruence.
    + now rewrite upd_length.
    + lia.
    + intros r Hr Hx. apply H2. apply (Hx x v); [reflexivity|now apply lookup_ok].
Qed.

(** ** bindings *)

(** the storages reachable through names in a step: a new or re-bound name refers either to a new storage or to the storage
    of the aliased name; other names keep their storage *)
Lemma step_refs s o s' y t' :
  step s o = Ok s' -> nth_error (env s') y = Some t' ->
  (exists t, nth_error (env s) y = Some t /\ ref t' = ref t) \/
  (length (hp s) <= ref t') \/
  (exists x t, aliased o = Some x /\ nth_error (env s) x = Some t /\ ref t' = ref t).
Proof.
  intros H Hy. destruct o; unfold step, run_m, obind in H; cbn [env hp] in H.
  - destruct (lookup s x) eqn:L; try discriminate. injection H as <-. cbn [env] in Hy.
    destruct (Nat.lt_ge_cases y (length (env s))) as [Hlt|Hge].
    + rewrite nth_error_app1 in Hy by assumption. left. eauto.
    + rewrite nth_error_app2 in Hy by assumption. destruct (y - length (env s)) as [|[|]]; try discriminate. injection Hy as <-.
      right; right. exists x, v. apply lookup_ok in L. auto.
  - destruct (lookup s x) eqn:L; try discriminate. destruct (deep_copy zero v (hp s)) as [[u h']| |] eqn:E; try discriminate.
    injection H as <-. apply deep_copy_inv in E. destruct E as (d & d' & Hd & -> & -> & _). cbn [env] in Hy.
    destruct (Nat.lt_ge_cases y (length (env s))) as [Hlt|Hge].
    + rewrite nth_error_app1 in Hy by assumption. left. eauto.
    + rewrite nth_error_app2 in Hy by assumption. destruct (y - length (env s)) as [|[|]]; try discriminate. injection Hy as <-.
      right; left. cbn. lia.
  - destruct (lookup s d) eqn:L; try discriminate. destruct (lookup s x) eqn:L2; try discriminate. injection H as <-. cbn [env] in Hy.
    destruct (Nat.eq_dec d y) as [->|N].
    + assert (y < length (env s)) by (apply nth_error_Some; apply lookup_ok in L; congruence).
      rewrite nth_error_upd_same in Hy by assumption. injection Hy as <-. right; right. exists x, v0. apply lookup_ok in L2. auto.
    + rewrite nth_error_upd_other in Hy by assumption. left. eauto.
  - destruct (lookup s x) eqn:L; try discriminate. destruct (set_elem v0 i v (hp s)) as [[u h']| |] eqn:E; try discriminate.
    injection H as <-. left. eauto.
  - destruct (lookup s x) eqn:L; try discriminate. destruct (map_inplace f v (hp s)) as [[u h']| |] eqn:E; try discriminate.
    injection H as <-. left. eauto.
  - destruct (lookup s x) eqn:L; try discriminate. destruct (lookup s y0) eqn:L2; try discriminate.
    destruct (zip_inplace dbg f v v0 (hp s)) as [[u h']| |] eqn:E; try discriminate. injection H as <-. left. eauto.
  - destruct (lookup s x) eqn:L; try discriminate. destruct (resize zero v s0 (hp s)) as [[u h']| |] eqn:E; try discriminate.
    injection H as <-. apply resize_inv in E. destruct E as (E1 & E2 & E3 & E4). cbn [env] in Hy.
    apply lookup_ok in L. destruct (Nat.eq_dec x y) as [->|N].
    + rewrite nth_error_upd_same in Hy by (apply nth_error_Some; congruence). injection Hy as <-. left. eauto.
    + rewrite nth_error_upd_other in Hy by assumption. left. eauto.
Qed.

(** a name keeps its storage unless it is re-bound *)
Lemma step_keeps s o s' y t :
  step s o = Ok s' -> nth_error (env s) y = Some t -> rebound o <> Some y ->
  exists t', nth_error (env s') y = Some t' /\ ref t' = ref t.
Proof.
  intros H Hy Hr. assert (Hlt : y < length (env s)) by (apply nth_error_Some; congruence).
  destruct o; unfold step, run_m, obind in H; cbn [env hp rebound] in *.
  - destruct (lookup s x) eqn:L; try discriminate. injection H as <-. exists t. cbn. now rewrite nth_error_app1.
  - destruct (lookup s x) eqn:L; try discriminate. destruct (deep_copy zero v (hp s)) as [[u h']| |] eqn:E; try discriminate.
    injection H as <-. exists t. cbn. now rewrite nth_error_app1.
  - destruct (lookup s d) eqn:L; try discriminate. destruct (lookup s x) eqn:L2; try discriminate. injection H as <-.
    exists t. cbn [env]. rewrite nth_error_upd_other by congruence. auto.
  - destruct (lookup s x) eqn:L; try discriminate. destruct (set_elem v0 i v (hp s)) as [[u h']| |] eqn:E; try discriminate.
    injection H as <-. eauto.
  - destruct (lookup s x) eqn:L; try discriminate. destruct (map_inplace f v (hp s)) as [[u h']| |] eqn:E; try discriminate.
    injection H as <-. eauto.
  - destruct (lookup s x) eqn:L; try discriminate. destruct (lookup s y0) eqn:L2; try discriminate.
    destruct (zip_inplace dbg f v v0 (hp s)) as [[u h']| |] eqn:E; try discriminate. injection H as <-. eauto.
  - destruct (lookup s x) eqn:L; try discriminate. destruct (resize zero v s0 (hp s)) as [[u h']| |] eqn:E; try discriminate.
    injection H as <-. apply resize_inv in E. destruct E as (E1 & E2 & E3 & E4). cbn [env]. apply lookup_ok in L.
    destruct (Nat.eq_dec x y) as [->|N].
    + exists u. rewrite nth_error_upd_same by assumption. split; [reflexivity|]. congruence.
    + exists t. rewrite nth_error_upd_other by assumption. auto.
Qed.

Lemma exec_keeps p : forall s s' y t,
  exec s p = Ok s' -> nth_error (env s) y = Some t -> Forall (fun o => rebound o <> Some y) p ->
  exists t', nth_error (env s') y = Some t' /\ ref t' = ref t.
Proof.
  induction p as [|o p IH]; intros s s' y t H Hy F; cbn [AliasModel.exec] in H.
  - injection H as <-. eauto.
  - destruct (step s o) as [s1| |] eqn:E; try discriminate. cbn [obind] in H. inversion F; subst.
    destruct (step_keeps _ _ _ _ _ E Hy) as (t1 & Ht1 & R1); [assumption|].
    destruct (IH _ _ _ _ H Ht1) as (t2 & Ht2 & R2); [assumption|]. exists t2. split; [assumption|congruence].
Qed.

Lemma lookup_env_step s o s' : step s o = Ok s' -> length (env s) <= length (env s').
Proof. intros H. apply step_frame in H. apply H. Qed.

(** ** the storage of name y is exclusively y's *)
Definition private (s : state) (y : nat) (r : nat) : Prop :=
  forall z t, nth_error (env s) z = Some t -> ref t = r -> z = y.

Lemma exec_private p : forall s s' y t d,
  exec s p = Ok s' -> nth_error (env s) y = Some t -> nth_error (hp s) (ref t) = Some d -> private s y (ref t) ->
  Forall (fun o => written o <> Some y /\ aliased o <> Some y) p ->
  nth_error (env s') y = Some t /\ nth_error (hp s') (ref t) = Some d.
Proof.
  induction p as [|o p IH]; intros s s' y t d H Hy Hd P F; cbn [AliasModel.exec] in H.
  - injection H as <-. auto.
  - destruct (step s o) as [s1| |] eqn:E; try discriminate. cbn [obind] in H. inversion F as [|? ? [Fw Fa] F']; subst.
    destruct (step_frame _ _ _ E) as (F1 & F2 & F3 & F4).
    assert (Hlt : y < length (env s)) by (apply nth_error_Some; congruence).
    assert (Hr : ref t < length (hp s)) by (apply nth_error_Some; congruence).
    assert (Hy1 : nth_error (env s1) y = Some t) by (rewrite F1; auto).
    assert (Hd1 : nth_error (hp s1) (ref t) = Some d).
    { rewrite F4; [assumption|assumption|]. intros x u Hw Hu Er. apply Fw. rewrite Hw. f_equal. exact (P x u Hu Er). }
    apply (IH s1 s' y t d H Hy1 Hd1); [|assumption].
    intros z u Hz Er. destruct (step_refs _ _ _ _ _ E Hz) as [(u0 & Hu0 & Eu)|[Hge|(x & u0 & Ha & Hu0 & Eu)]].
    + apply (P z u0 Hu0). congruence.
    + lia.
    + exfalso. apply Fa. rewrite Ha. f_equal. apply (P x u0 Hu0). congruence.
Qed.

(** ** writes confined to new names *)
Definition old_safe (s : state) (n0 h0 : nat) : Prop :=
  forall z t, nth_error (env s) z = Some t -> n0 <= z -> h0 <= ref t.

Lemma exec_new_only p : forall s s' n0 h0,
  exec s p = Ok s' -> n0 <= length (env s) -> h0 <= length (hp s) -> old_safe s n0 h0 ->
  Forall (fun o => (forall x, written o = Some x -> n0 <= x) /\ (forall x, aliased o = Some x -> n0 <= x)) p ->
  (forall y, y < n0 -> nth_error (env s') y = nth_error (env s) y) /\
  (forall r, r < h0 -> nth_error (hp s') r = nth_error (hp s) r).
Proof.
  induction p as [|o p IH]; intros s s' n0 h0 H Hn Hh OS F; cbn [AliasModel.exec] in H.
  - injection H as <-. auto.
  - destruct (step s o) as [s1| |] eqn:E; try discriminate. cbn [obind] in H. inversion F as [|? ? [Fw Fa] F']; subst.
    destruct (step_frame _ _ _ E) as (F1 & F2 & F3 & F4).
    assert (OS1 : old_safe s1 n0 h0).
    { intros z u Hz Hzn. destruct (step_refs _ _ _ _ _ E Hz) as [(u0 & Hu0 & Eu)|[Hge|(x & u0 & Ha & Hu0 & Eu)]].
      - rewrite Eu. now apply (OS z u0).
      - lia.
      - rewrite Eu. apply (OS x u0); [assumption|]. now apply Fa. }
    destruct (IH s1 s' n0 h0 H ltac:(lia) ltac:(lia) OS1 F') as [G1 G2]. split.
    + intros y Hy. rewrite (G1 y Hy). apply F1; [|lia]. intros Hw. specialize (Fw y Hw). lia.
    + intros r Hr. rewrite (G2 r Hr). apply F4; [lia|]. intros x u Hw Hu Er. specialize (Fw x Hw).
      specialize (OS x u Hu Fw). lia.
Qed.

Lemma seen_inv (s : state) x sh d : seen s x = Some (sh, d) ->
  exists t, nth_error (env s) x = Some t /\ shape t = sh /\ nth_error (hp s) (ref t) = Some d.
Proof.
  unfold seen. destruct (nth_error (env s) x) as [t|]; [|discriminate]. destruct (nth_error (hp s) (ref t)) eqn:E; [|discriminate].
  intros H. injection H as <- <-. eauto.
Qed.

Lemma seen_intro (s : state) x t d : nth_error (env s) x = Some t -> nth_error (hp s) (ref t) = Some d -> seen s x = Some (shape t, d).
Proof. intros H1 H2. unfold seen. now rewrite H1, H2. Qed.

Lemma step_deep_copy s x sh d :
  seen s x = Some (sh, d) -> length d = prod sh ->
  step s (DeepCopy x) = Ok (mkS (env s ++ [mkT sh (length (hp s))]) (hp s ++ [d])).
Proof.
  intros H Hl. apply seen_inv in H. destruct H as (t & Ht & <- & Hd).
  unfold step, lookup. rewrite Ht. cbn [obind]. unfold run_m. rewrite (deep_copy_ok zero t (hp s) d Hd Hl). reflexivity.
Qed.

Lemma step_copy s x sh d :
  seen s x = Some (sh, d) -> exists t, nth_error (env s) x = Some t /\ step s (Copy x) = Ok (mkS (env s ++ [t]) (hp s)).
Proof.
  intros H. apply seen_inv in H. destruct H as (t & Ht & _ & _). exists t. split; [assumption|].
  unfold step, lookup. rewrite Ht. reflexivity.
Qed.

(** C13, sharing *)
Theorem copy_shares s x sh d s1 p s2 :
  seen s x = Some (sh, d) -> step s (Copy x) = Ok s1 -> exec s1 p = Ok s2 ->
  Forall (fun o => rebound o <> Some x /\ rebound o <> Some (length (env s))) p ->
  seen s1 (length (env s)) = Some (sh, d) /\
  option_map snd (seen s2 x) = option_map snd (seen s2 (length (env s))).
Proof.
  intros Hs H1 H2 F. destruct (step_copy s x sh d Hs) as (t & Ht & E). rewrite E in H1. injection H1 as <-.
  apply seen_inv in Hs. destruct Hs as (t0 & Ht0 & <- & Hd). assert (t0 = t) by congruence. subst t0.
  assert (Hx1 : nth_error (env s ++ [t]) x = Some t) by (rewrite nth_error_app1; [assumption|apply nth_error_Some; congruence]).
  assert (Hy1 : nth_error (env s ++ [t]) (length (env s)) = Some t) by (rewrite nth_error_app2 by lia; now rewrite Nat.sub_diag).
  split.
  - apply (seen_intro (mkS (env s ++ [t]) (hp s)) _ t d Hy1 Hd).
  - destruct (exec_keeps p (mkS (env s ++ [t]) (hp s)) s2 x t H2 Hx1) as (tx & Hx2 & Rx).
    { eapply Forall_impl; [|exact F]. cbn. tauto. }
    destruct (exec_keeps p (mkS (env s ++ [t]) (hp s)) s2 (length (env s)) t H2 Hy1) as (ty & Hy2 & Ry).
    { eapply Forall_impl; [|exact F]. cbn. tauto. }
    unfold seen. rewrite Hx2, Hy2, Rx, Ry. destruct (nth_error (hp s2) (ref t)); reflexivity.
Qed.

(** C13, independence in both directions *)
Theorem deep_copy_independent s x sh d s1 p s2 :
  live s -> seen s x = Some (sh, d) -> length d = prod sh -> step s (DeepCopy x) = Ok s1 -> exec s1 p = Ok s2 ->
  let y := length (env s) in
  seen s1 y = Some (sh, d) /\
  (Forall (fun o => written o <> Some y /\ aliased o <> Some y) p -> seen s2 y = Some (sh, d)) /\
  (Forall (fun o => (forall z, written o = Some z -> y <= z) /\ (forall z, aliased o = Some z -> y <= z)) p ->
   forall z, z < y -> seen s2 z = seen s z).
Proof.
  intros LV Hs Hl H1 H2 y. rewrite (step_deep_copy s x sh d Hs Hl) in H1. injection H1 as <-.
  set (t := mkT sh (length (hp s))) in *.
  assert (Hy1 : nth_error (env s ++ [t]) y = Some t) by (unfold y; rewrite nth_error_app2 by lia; now rewrite Nat.sub_diag).
  assert (Hd1 : nth_error (hp s ++ [d]) (ref t) = Some d) by (cbn [ref t]; apply nth_error_alloc).
  split; [exact (seen_intro (mkS (env s ++ [t]) (hp s ++ [d])) y t d Hy1 Hd1)|]. split.
  - intros F. destruct (exec_private p (mkS (env s ++ [t]) (hp s ++ [d])) s2 y t d H2 Hy1 Hd1) as [G1 G2]; [|assumption|].
    + intros z u Hz Er. cbn [env] in Hz. destruct (Nat.lt_ge_cases z (length (env s))) as [Hlt|Hge].
      * rewrite nth_error_app1 in Hz by assumption. unfold live in LV. rewrite Forall_forall in LV.
        specialize (LV u (nth_error_In _ _ Hz)). cbn [ref t] in Er. lia.
      * assert (z < length (env s ++ [t])) by (apply nth_error_Some; congruence). rewrite app_length in H. cbn in H. unfold y. lia.
    + exact (seen_intro s2 y t d G1 G2).
  - intros F z Hz.
    destruct (exec_new_only p (mkS (env s ++ [t]) (hp s ++ [d])) s2 y (length (hp s)) H2) as [G1 G2].
    + cbn [env]. rewrite app_length. unfold y. lia.
    + cbn [hp]. rewrite app_length. lia.
    + intros z' u Hz' Hge. cbn [env hp] in *.
      assert (z' < length (env s ++ [t])) by (apply nth_error_Some; congruence). rewrite app_length in H. cbn in H.
      assert (z' = y) by (unfold y in *; lia). subst z'. rewrite Hy1 in Hz'. injection Hz' as <-. cbn. lia.
    + exact F.
    + unfold seen. rewrite (G1 z Hz). cbn [env hp] in *. rewrite nth_error_app1 by assumption.
      destruct (nth_error (env s) z) as [u|] eqn:Eu; [|reflexivity].
      unfold live in LV. rewrite Forall_forall in LV. specialize (LV u (nth_error_In _ _ Eu)).
      rewrite (G2 _ LV). now rewrite nth_error_app1.
Qed.

(** a write through either of two sharing names is seen through the other *)
Theorem write_through s x y tx ty i v d :
  nth_error (env s) x = Some tx -> nth_error (env s) y = Some ty -> ref tx = ref ty ->
  nth_error (hp s) (ref tx) = Some d -> i < length d ->
  exists s', step s (SetElem x i v) = Ok s' /\ option_map snd (seen s' y) = Some (upd d i v).
Proof.
  intros Hx Hy R Hd Hi. exists (mkS (env s) (upd (hp s) (ref tx) (upd d i v))). split.
  - unfold step, lookup. rewrite Hx. cbn [obind]. unfold run_m, set_elem, bind, data, store. rewrite Hd.
    destruct (Nat.ltb_spec i (length d)); [reflexivity|lia].
  - unfold seen. cbn [env hp]. rewrite Hy. rewrite <- R. rewrite nth_error_upd_same by (apply nth_error_Some; congruence). reflexivity.
Qed.

End Alias.

(** ** cyclic tiling against NumPy broadcasting (C17) *)

Lemma str1_le u U : Forall2 str1 u U -> 0 < prod U -> prod u <= prod U /\ (prod u = prod U -> u = U).
Proof.
  induction 1 as [|d D u U Hd F IH]; intros HP; [auto|]. rewrite !prod_cons in *.
  assert (HU : 0 < prod U) by nia. destruct (IH HU) as [IH1 IH2].
  assert (HD : 0 < D) by nia. destruct Hd as [->| ->].
  - split; [nia|]. intros E. f_equal. apply IH2. nia.
  - split; [nia|]. intros E. assert (prod u = prod U /\ D = 1) by nia. destruct H as [H ->]. now rewrite IH2.
Qed.

Lemma prod_pos_str1 u U : Forall2 str1 u U -> 0 < prod U -> 0 < prod u.
Proof.
  induction 1 as [|d D u U Hd F IH]; intros HP; [auto|]. rewrite !prod_cons in *.
  assert (0 < prod u) by (apply IH; nia). destruct Hd as [->| ->]; nia.
Qed.

Lemma tile_tail u U :
  Forall2 str1 u U -> 0 < prod U ->
  (forall idx, valid U idx -> offset U idx mod prod u = offset u (clamp u idx)) -> exists k, u = repeat 1 k ++ skipn k U.
Proof.
  intros F. induction F as [|x y u U Hx F IH]; intros HP H.
  - exists 0. reflexivity.
  - rewrite prod_cons in HP. assert (HU : 0 < prod U) by nia. assert (Hy : 0 < y) by nia.
    pose proof (prod_pos_str1 _ _ F HU) as Hu.
    assert (T : forall idx, valid U idx -> offset U idx mod (x * prod u) = offset u (clamp u idx)).
    { intros idx V. specialize (H (0 :: idx)). assert (V' : valid (y :: U) (0 :: idx)) by (constructor; assumption).
      specialize (H V'). cbn [offset clamp map2] in H. unfold clamp in H. cbn [map2 offset] in H. rewrite prod_cons in H.
      destruct (x =? 1); cbn in H; exact H. }
    assert (T' : forall idx, valid U idx -> offset U idx mod prod u = offset u (clamp u idx)).
    { intros idx V. pose proof (T idx V) as E. pose proof (valid_offset_lt _ _ (clamp_valid u U idx F V)) as L.
      assert (Hx0 : x <> 0) by (destruct Hx; lia).
      assert (Hu0 : prod u <> 0) by lia.
      pose proof (Nat.mod_mul_r (offset U idx) (prod u) x Hu0 Hx0) as MM.
      rewrite (Nat.mul_comm (prod u) x) in MM. rewrite E in MM. clear E.
      remember ((offset U idx / prod u) mod x) as q. destruct q as [|q]; [lia|]. exfalso.
      rewrite Nat.mul_succ_r in MM. lia. }
    destruct (IH HU T') as [k Ek].
    destruct (Nat.eq_dec x 1) as [->|Nx].
    + exists (S k). cbn [repeat app skipn]. now f_equal.
    + destruct Hx as [->|]; [|contradiction]. exists 0. cbn [repeat app skipn]. f_equal.
      destruct (str1_le _ _ F HU) as [L1 L2]. apply L2.
      destruct (Nat.eq_dec (prod u) (prod U)) as [|Ne]; [assumption|]. exfalso.
      set (idx := unoffset U (prod u)).
      assert (V : valid U idx) by (apply unoffset_valid; lia).
      assert (O : offset U idx = prod u) by (apply offset_unoffset; lia).
      pose proof (T idx V) as E. rewrite O in E. rewrite Nat.mod_small in E by nia.
      pose proof (valid_offset_lt _ _ (clamp_valid u U idx F V)). lia.
Qed.

Lemma tail_tile_app P q i1 i2 :
  length i1 = length P -> valid q i2 ->
  offset (P ++ q) (i1 ++ i2) mod prod (repeat 1 (length P) ++ q)
  = offset (repeat 1 (length P) ++ q) (clamp (repeat 1 (length P) ++ q) (i1 ++ i2)).
Proof.
  intros HL V2. rewrite offset_app by assumption. rewrite prod_app, prod_repeat_1, Nat.mul_1_l.
  rewrite clamp_app by (now rewrite repeat_length).
  rewrite offset_app by (rewrite clamp_length; rewrite repeat_length; lia).
  assert (Z : forall k l, offset (repeat 1 k) (clamp (repeat 1 k) l) = 0).
  { clear. induction k; intros [|i l]; cbn [repeat clamp map2 offset]; auto. unfold clamp in *. cbn [map2 offset]. rewrite IHk. reflexivity. }
  rewrite Z, clamp_self by assumption. pose proof (valid_offset_lt _ _ V2).
  rewrite Nat.add_comm, Nat.mod_add by lia. rewrite Nat.mod_small by assumption. reflexivity.
Qed.

Lemma tail_tile k u U :
  length u = length U -> u = repeat 1 k ++ skipn k U ->
  forall idx, valid U idx -> offset U idx mod prod u = offset u (clamp u idx).
Proof.
  intros HL E idx V. assert (Hk : k <= length U).
  { apply (f_equal (@length nat)) in E. rewrite app_length, repeat_length, skipn_length in E. lia. }
  pose proof (valid_length _ _ V) as VL.
  assert (LP : length (firstn k U) = k) by (rewrite firstn_length; lia).
  assert (LI : length (firstn k idx) = length (firstn k U)) by (rewrite !firstn_length; lia).
  assert (V2 : valid (skipn k U) (skipn k idx)).
  { rewrite <- (firstn_skipn k U), <- (firstn_skipn k idx) in V. apply valid_app in V; [|assumption]. apply V. }
  pose proof (tail_tile_app (firstn k U) (skipn k U) (firstn k idx) (skipn k idx) LI V2) as G.
  rewrite LP, !firstn_skipn, <- E in G. exact G.
Qed.
