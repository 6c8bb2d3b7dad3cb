(** Loop nests that fill an array, as the list of their assignments in program order. *)
From Coq Require Import List Arith Lia Bool PeanoNat ZArith Permutation.
From Verif Require Import ListBase.
Import ListNotations.

(** perform the assignments [(position, value)] one after the other *)
Definition writes {A} (ws : list (nat * A)) (d : list A) : list A :=
  fold_left (fun d w => upd d (fst w) (snd w)) ws d.

(** all positions of the assignments are inside an array of n elements *)
Definition in_bounds {A} (n : nat) (ws : list (nat * A)) : bool := forallb (fun w => fst w <? n) ws.

(** for r < R, c < C, k < K *)
Definition loop2 {A} (R C : nat) (f : nat -> nat -> A) : list A := tab2 R C f.
Definition loop3 {A} (R C K : nat) (f : nat -> nat -> nat -> A) : list A :=
  flat_map (fun r => loop2 C K (f r)) (seq 0 R).
Definition loop4 {A} (N R C K : nat) (f : nat -> nat -> nat -> nat -> A) : list A :=
  flat_map (fun n => loop3 R C K (f n)) (seq 0 N).

Lemma flat_map_tab {A} n m (g : nat -> list A) (d : A) :
  (forall i, i < n -> length (g i) = m) ->
  flat_map g (seq 0 n) = tab2 n m (fun i j => nth j (g i) d).
Proof.
  intros H. unfold tab2. rewrite !flat_map_concat_map. f_equal. apply map_ext_in. intros i Hi. apply in_seq in Hi.
  rewrite <- (H i) by lia. symmetry. apply tab_nth.
Qed.

Lemma loop3_length {A} R C K (f : nat -> nat -> nat -> A) : length (loop3 R C K f) = R * (C * K).
Proof.
  unfold loop3, loop2. generalize 0. induction R; intros s; [reflexivity|]. cbn [seq flat_map]. rewrite app_length, tab2_length, IHR. lia.
Qed.

Lemma loop3_tab {A} R C K (f : nat -> nat -> nat -> A) :
  loop3 R C K f = tab2 R (C * K) (fun r q => f r (q / K) (q mod K)).
Proof.
  unfold loop3, loop2, tab2 at 2. rewrite !flat_map_concat_map. f_equal. apply map_ext. intros r. apply tab2_tab.
Qed.

Lemma loop4_tab {A} N R C K (f : nat -> nat -> nat -> nat -> A) :
  loop4 N R C K f = tab2 N (R * (C * K)) (fun n q => f n (q / (C * K)) ((q mod (C * K)) / K) ((q mod (C * K)) mod K)).
Proof.
  unfold loop4, tab2. rewrite !flat_map_concat_map. f_equal. apply map_ext. intros n.
  rewrite loop3_tab, tab2_tab. reflexivity.
Qed.

Lemma nth_error_loop3 {A} R C K (f : nat -> nat -> nat -> A) r c k :
  r < R -> c < C -> k < K -> nth_error (loop3 R C K f) (r * (C * K) + (c * K + k)) = Some (f r c k).
Proof.
  intros. rewrite loop3_tab. rewrite nth_error_tab2 by nia. rewrite Nat.div_add_l, Nat.div_small by lia.
  rewrite (Nat.add_comm (c * K)), Nat.mod_add, Nat.mod_small by lia. do 2 f_equal. lia.
Qed.

Lemma nth_error_loop4 {A} N R C K (f : nat -> nat -> nat -> nat -> A) n r c k :
  n < N -> r < R -> c < C -> k < K ->
  nth_error (loop4 N R C K f) (n * (R * (C * K)) + (r * (C * K) + (c * K + k))) = Some (f n r c k).
Proof.
  intros. rewrite loop4_tab. assert (c * K + k < C * K) by nia. rewrite nth_error_tab2 by nia.
  rewrite Nat.div_add_l, (Nat.div_small (c * K + k)) by lia.
  rewrite (Nat.add_comm (r * _)), Nat.mod_add, (Nat.mod_small (c * K + k)) by lia.
  rewrite Nat.div_add_l, (Nat.div_small k) by lia. rewrite (Nat.add_comm (c * K)), Nat.mod_add, Nat.mod_small by lia.
  do 2 f_equal; lia.
Qed.

Lemma in_loop2 {A} R C (f : nat -> nat -> A) x :
  In x (loop2 R C f) <-> exists r c, r < R /\ c < C /\ x = f r c.
Proof.
  unfold loop2, tab2, tab. rewrite in_flat_map. split.
  - intros (r & Hr & Hx). apply in_map_iff in Hx. destruct Hx as (c & <- & Hc). apply in_seq in Hr, Hc. exists r, c. split; [lia|split; [lia|reflexivity]].
  - intros (r & c & Hr & Hc & ->). exists r. split; [apply in_seq; lia|]. apply in_map. apply in_seq. lia.
Qed.

Lemma in_loop3 {A} R C K (f : nat -> nat -> nat -> A) x :
  In x (loop3 R C K f) <-> exists r c k, r < R /\ c < C /\ k < K /\ x = f r c k.
Proof.
  unfold loop3. rewrite in_flat_map. split.
  - intros (r & Hr & Hx). apply in_loop2 in Hx. destruct Hx as (c & k & Hc & Hk & ->). apply in_seq in Hr. exists r, c, k. split; [lia|auto].
  - intros (r & c & k & Hr & Hc & Hk & ->). exists r. split; [apply in_seq; lia|]. apply in_loop2. eauto.
Qed.

Lemma in_loop4 {A} N R C K (f : nat -> nat -> nat -> nat -> A) x :
  In x (loop4 N R C K f) <-> exists n r c k, n < N /\ r < R /\ c < C /\ k < K /\ x = f n r c k.
Proof.
  unfold loop4. rewrite in_flat_map. split.
  - intros (n & Hn & Hx). apply in_loop3 in Hx. destruct Hx as (r & c & k & Hr & Hc & Hk & ->). apply in_seq in Hn. exists n, r, c, k. split; [lia|auto].
  - intros (n & r & c & k & Hn & Hr & Hc & Hk & ->). exists n. split; [apply in_seq; lia|]. apply in_loop3. eauto 8.
Qed.

(** ** assignments *)

Lemma writes_length {A} (ws : list (nat * A)) d : length (writes ws d) = length d.
Proof. unfold writes. revert d. induction ws; intros d; [reflexivity|]. cbn [fold_left]. now rewrite IHws, upd_length. Qed.

Lemma writes_cons {A} w (ws : list (nat * A)) d : writes (w :: ws) d = writes ws (upd d (fst w) (snd w)).
Proof. reflexivity. Qed.

Lemma writes_app {A} (v w : list (nat * A)) d : writes (v ++ w) d = writes w (writes v d).
Proof. unfold writes. apply fold_left_app. Qed.

(** a position that is not assigned keeps its value *)
Lemma writes_other {A} (ws : list (nat * A)) d p :
  (forall w, In w ws -> fst w <> p) -> nth_error (writes ws d) p = nth_error d p.
Proof.
  revert d. induction ws as [|w ws IH]; intros d H; [reflexivity|]. rewrite writes_cons, IH by (intros; apply H; now right).
  apply nth_error_upd_other. apply H. now left.
Qed.

(** if all assignments to p carry the same value v, and there is one, p ends up with v *)
Lemma writes_at {A} (ws : list (nat * A)) d p v :
  p < length d -> In (p, v) ws -> (forall w, In w ws -> fst w = p -> snd w = v) -> nth_error (writes ws d) p = Some v.
Proof.
  revert d. induction ws as [|w ws IH]; intros d Hp Hin H; [destruct Hin|]. rewrite writes_cons.
  destruct (in_dec Nat.eq_dec p (map fst ws)) as [HI|HN].
  - apply in_map_iff in HI. destruct HI as ((p', v') & E & HI). cbn in E. subst p'.
    assert (v' = v) by (apply (H (p, v')); [now right|reflexivity]). subst v'.
    apply IH; [now rewrite upd_length|assumption|]. intros; apply H; [now right|assumption].
  - rewrite writes_other.
    + destruct Hin as [->|Hin]; [|exfalso; apply HN; apply in_map_iff; now exists (p, v)].
      cbn [fst snd]. now apply nth_error_upd_same.
    + intros w' Hw' E. apply HN. apply in_map_iff. now exists w'.
Qed.

Lemma in_bounds_spec {A} n (ws : list (nat * A)) : in_bounds n ws = true <-> forall w, In w ws -> fst w < n.
Proof.
  unfold in_bounds. rewrite forallb_forall. split; intros H w Hw; specialize (H w Hw); [now apply Nat.ltb_lt|now apply Nat.ltb_lt].
Qed.
