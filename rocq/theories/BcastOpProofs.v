(** Proofs about the operator broadcast. *)
From Coq Require Import List Arith Lia Bool PeanoNat Reals Lra.
From Verif Require Import ListBase Loops TensorModel TensorSpec TensorProofs ArrayModel ArrayProofs LayerModel LayerSpec LayerProofs LayerProofs2 BcastOpModel.
Import ListNotations.
Local Open Scope nat_scope.

Lemma in_loop2 {A} R C (f : nat -> nat -> A) w : In w (loop2 R C f) <-> exists r c, r < R /\ c < C /\ w = f r c.
Proof.
  unfold loop2, tab2. rewrite in_flat_map. split.
  - intros (r & Hr & Hw). apply in_seq in Hr. unfold tab in Hw. apply in_map_iff in Hw. destruct Hw as (c & <- & Hc). apply in_seq in Hc.
    exists r, c. split; [ lia | ]. split; [ lia | reflexivity ].
  - intros (r & c & Hr & Hc & ->). exists r. split; [ apply in_seq; lia | ]. unfold tab. apply in_map_iff. exists c. split; [ reflexivity | apply in_seq; lia ].
Qed.

Lemma copy_inj n i j i' j' : j < n -> j' < n -> i * n + j = i' * n + j' -> i = i' /\ j = j'.
Proof.
  intros Hj Hj' E. assert (i = i') by (destruct (Nat.lt_trichotomy i i') as [ L | [ L | L ] ]; nia).
  subst. lia.
Qed.

(** the assignments of the copies *)
Lemma copies_at {A} f n (v : nat -> nat -> A) d k :
  n <> 0 -> f * n <= length d ->
  nth_error (writes (loop2 f n (fun i j => (i * n + j, v i j))) d) k =
  if k <? f * n then Some (v (k / n) (k mod n)) else nth_error d k.
Proof.
  intros Hn Hd. destruct (Nat.ltb_spec k (f * n)) as [ Hk | Hk ].
  - destruct (divmod_lt _ _ _ Hk) as (Hq & Hr & Ek). apply writes_at; [ lia | | ].
    + apply in_loop2. exists (k / n), (k mod n). split; [ assumption | ]. split; [ assumption | ]. now rewrite <- Ek.
    + intros w Hw E. apply in_loop2 in Hw. destruct Hw as (r & c & Hr' & Hc' & ->). cbn [fst snd] in *. rewrite Ek in E.
      destruct (copy_inj n r c (k / n) (k mod n) Hc' Hr E) as [ -> -> ]. reflexivity.
  - apply writes_other. intros w Hw. apply in_loop2 in Hw. destruct Hw as (r & c & Hr & Hc & ->). cbn [fst].
    assert ((r + 1) * n <= f * n) by (apply Nat.mul_le_mono_r; lia). lia.
Qed.

Lemma prod_pos_or s t : Forall2 str1 s t -> exists m, prod t = m * prod s.
Proof.
  induction 1 as [ | a b s t E F (m & IH) ]; [ exists 1; reflexivity | ]. rewrite !prod_cons, IH. destruct E as [ -> | -> ].
  - exists m. lia.
  - exists (b * m). lia.
Qed.

Lemma Stretches_prod s t : Stretches s t -> exists m, prod t = m * prod s.
Proof.
  intro St. apply Stretches_padded in St. destruct St as (_ & F). apply prod_pos_or in F. now rewrite prod_padded in F.
Qed.

Lemma filter_copies {A} f n (v : nat -> nat -> A) p : p < n ->
  map snd (filter (fun w => fst w =? p) (loop2 f n (fun i j => (j, v i j)))) = map (fun i => v i p) (seq 0 f).
Proof.
  intro Hp. unfold loop2, tab2. generalize 0 as a. induction f as [ | f IH ]; intro a; [ reflexivity | ]. cbn [seq flat_map map].
  rewrite filter_app, map_app, IH. change (v a p :: map (fun i => v i p) (seq (S a) f)) with ([ v a p ] ++ map (fun i => v i p) (seq (S a) f)). f_equal.
  unfold tab. clear IH. replace n with (p + S (n - S p)) at 1 by lia. rewrite seq_app, map_app, filter_app, map_app. cbn [seq map filter fst]. rewrite Nat.eqb_refl.
  assert (Z : forall l, (forall j, In j l -> j <> p) -> filter (fun w : nat * A => fst w =? p) (map (fun j => (j, v a j)) l) = []).
  { induction l as [ | j l IHl ]; intros Hl; [ reflexivity | ]. cbn [map filter fst]. rewrite (proj2 (Nat.eqb_neq _ _)) by (apply Hl; now left).
    apply IHl. intros j' Hj'. apply Hl. now right. }
  rewrite Z by (intros j Hj; apply in_seq in Hj; lia). cbn [map app]. rewrite Z by (intros j Hj; apply in_seq in Hj; lia). reflexivity.
Qed.
