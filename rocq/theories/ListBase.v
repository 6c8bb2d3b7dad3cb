(** List lemmas shared by the tensor, layer and graph models: tables over index ranges, list update, products of shapes,
    row-major offsets. *)
From Coq Require Import List Arith Lia Bool PeanoNat ZArith.
Import ListNotations.

(** [f 0; f 1; ...; f (n-1)] *)
Definition tab {A} (n : nat) (f : nat -> A) : list A := map f (seq 0 n).

(** row-major table of m rows and n columns *)
Definition tab2 {A} (m n : nat) (f : nat -> nat -> A) : list A := flat_map (fun i => tab n (f i)) (seq 0 m).

(** overwrite position i *)
Fixpoint upd {A} (l : list A) (i : nat) (v : A) : list A :=
  match l, i with
  | [], _ => []
  | _ :: t, O => v :: t
  | x :: t, S j => x :: upd t j v
  end.

Fixpoint map2 {A B C} (f : A -> B -> C) (l : list A) (m : list B) : list C :=
  match l, m with
  | x :: l', y :: m' => f x y :: map2 f l' m'
  | _, _ => []
  end.

(** product of the dimensions *)
Definition prod (s : list nat) : nat := fold_right Nat.mul 1 s.

Lemma tab_length {A} n (f : nat -> A) : length (tab n f) = n.
Proof. unfold tab. now rewrite map_length, seq_length. Qed.

Lemma nth_error_seq s n i : i < n -> nth_error (seq s n) i = Some (s + i).
Proof.
  revert s i. induction n as [|n IH]; intros s i H; [lia|]. destruct i; cbn [seq nth_error].
  - f_equal. lia.
  - rewrite IH by lia. f_equal. lia.
Qed.

Lemma nth_error_tab {A} n (f : nat -> A) i : i < n -> nth_error (tab n f) i = Some (f i).
Proof. intros H. unfold tab. rewrite nth_error_map, nth_error_seq by assumption. reflexivity. Qed.

Lemma tab_ext {A} n (f g : nat -> A) : (forall i, i < n -> f i = g i) -> tab n f = tab n g.
Proof. intros H. unfold tab. apply map_ext_in. intros a Ha. apply in_seq in Ha. apply H. lia. Qed.

Lemma nth_tab {A} n (f : nat -> A) i d : i < n -> nth i (tab n f) d = f i.
Proof. intros H. apply nth_error_nth. now apply nth_error_tab. Qed.

Lemma list_eq_nth {A} (l m : list A) :
  length l = length m -> (forall i, i < length l -> nth_error l i = nth_error m i) -> l = m.
Proof.
  revert m. induction l as [|x l IH]; intros [|y m] Hl H; cbn [length] in *; try lia; [reflexivity|].
  assert (E := H 0 ltac:(lia)). cbn in E. injection E as ->. f_equal. apply IH; [lia|].
  intros i Hi. apply (H (S i)). lia.
Qed.

Lemma list_eq_nth_d {A} (d : A) (l m : list A) :
  length l = length m -> (forall i, i < length l -> nth i l d = nth i m d) -> l = m.
Proof.
  revert m. induction l as [|x l IH]; intros [|y m] Hl H; cbn [length] in *; try lia; [reflexivity|].
  assert (E := H 0 ltac:(lia)). cbn in E. subst. f_equal. apply IH; [lia|].
  intros i Hi. apply (H (S i)). lia.
Qed.

Lemma tab_nth {A} (d : A) (l : list A) : tab (length l) (fun i => nth i l d) = l.
Proof.
  apply (list_eq_nth_d d); rewrite tab_length; [reflexivity|]. intros i Hi. now rewrite nth_tab.
Qed.

Lemma tab_S {A} n (f : nat -> A) : tab (S n) f = f 0 :: tab n (fun i => f (S i)).
Proof. unfold tab. cbn [seq map]. f_equal. rewrite <- seq_shift, map_map. reflexivity. Qed.

Lemma tab_snoc {A} n (f : nat -> A) : tab (S n) f = tab n f ++ [f n].
Proof. unfold tab. rewrite seq_S, map_app. reflexivity. Qed.


Lemma map_tab {A B} (g : A -> B) n f : map g (tab n f) = tab n (fun i => g (f i)).
Proof. unfold tab. now rewrite map_map. Qed.

Lemma tab2_S {A} m n (f : nat -> nat -> A) : tab2 (S m) n f = tab n (f 0) ++ tab2 m n (fun i => f (S i)).
Proof.
  unfold tab2. cbn [seq flat_map]. f_equal. rewrite <- seq_shift, flat_map_concat_map, flat_map_concat_map, map_map.
  reflexivity.
Qed.

Lemma tab2_length {A} m n (f : nat -> nat -> A) : length (tab2 m n f) = m * n.
Proof.
  revert f. induction m as [|m IH]; intros f; [reflexivity|]. rewrite tab2_S, app_length, tab_length, IH. lia.
Qed.

Lemma nth_error_tab2 {A} m n (f : nat -> nat -> A) i j :
  i < m -> j < n -> nth_error (tab2 m n f) (i * n + j) = Some (f i j).
Proof.
  revert f i. induction m as [|m IH]; intros f i Hi Hj; [lia|]. rewrite tab2_S. destruct i as [|i].
  - rewrite nth_error_app1 by (rewrite tab_length; lia). now rewrite nth_error_tab by lia.
  - rewrite nth_error_app2 by (rewrite tab_length; lia). rewrite tab_length.
    replace (S i * n + j - n) with (i * n + j) by lia. rewrite (IH (fun i => f (S i))) by lia. reflexivity.
Qed.

Lemma nth_tab2 {A} m n (f : nat -> nat -> A) i j d : i < m -> j < n -> nth (i * n + j) (tab2 m n f) d = f i j.
Proof. intros. apply nth_error_nth. now apply nth_error_tab2. Qed.

Lemma divmod_lt m n i : i < m * n -> i / n < m /\ i mod n < n /\ i = (i / n) * n + i mod n.
Proof.
  intros H. assert (n <> 0) by (intros ->; lia).
  assert (i / n < m) by (apply Nat.div_lt_upper_bound; lia).
  assert (i mod n < n) by now apply Nat.mod_upper_bound.
  pose proof (Nat.div_mod i n ltac:(assumption)). lia.
Qed.

Lemma tab2_tab {A} m n (f : nat -> nat -> A) : tab2 m n f = tab (m * n) (fun i => f (i / n) (i mod n)).
Proof.
  apply list_eq_nth; rewrite tab2_length; [now rewrite tab_length|]. intros i Hi.
  destruct (divmod_lt m n i Hi) as (H1 & H2 & H3). rewrite H3 at 1. rewrite nth_error_tab2, nth_error_tab by assumption.
  reflexivity.
Qed.

Lemma tab2_ext {A} m n (f g : nat -> nat -> A) :
  (forall i j, i < m -> j < n -> f i j = g i j) -> tab2 m n f = tab2 m n g.
Proof.
  intros H. rewrite !tab2_tab. apply tab_ext. intros i Hi. destruct (divmod_lt m n i Hi) as (? & ? & _). now apply H.
Qed.

Lemma tab_mul {A} m n (f : nat -> A) : tab (m * n) f = tab2 m n (fun i j => f (i * n + j)).
Proof.
  rewrite tab2_tab. apply tab_ext. intros i Hi. destruct (divmod_lt m n i Hi) as (? & ? & E). now rewrite <- E.
Qed.

Lemma upd_length {A} (l : list A) i v : length (upd l i v) = length l.
Proof. revert i. induction l; intros [|i]; cbn; auto. Qed.

Lemma nth_error_upd {A} (l : list A) i j v :
  nth_error (upd l i v) j = if Nat.eqb i j then (if j <? length l then Some v else None) else nth_error l j.
Proof.
  revert i j. induction l as [|x l IH]; intros i j.
  - cbn. destruct j; cbn; destruct (Nat.eqb i _); reflexivity.
  - destruct i as [|i], j as [|j]; cbn [upd nth_error Nat.eqb length]; try reflexivity.
    rewrite IH. destruct (Nat.eqb_spec i j); [|reflexivity]. cbn. reflexivity.
Qed.

Lemma nth_error_upd_same {A} (l : list A) i v : i < length l -> nth_error (upd l i v) i = Some v.
Proof. intros. rewrite nth_error_upd, Nat.eqb_refl. now destruct (Nat.ltb_spec i (length l)); [|lia]. Qed.

Lemma nth_error_upd_other {A} (l : list A) i j v : i <> j -> nth_error (upd l i v) j = nth_error l j.
Proof. intros. rewrite nth_error_upd. now destruct (Nat.eqb_spec i j). Qed.

Lemma nth_upd {A} (l : list A) i j v d :
  i < length l -> nth j (upd l i v) d = if Nat.eqb i j then v else nth j l d.
Proof.
  revert i j. induction l as [|x l IH]; intros i j H; cbn [length] in H; [lia|].
  destruct i as [|i], j as [|j]; cbn [upd nth Nat.eqb]; try reflexivity. apply IH. lia.
Qed.

Lemma upd_tab {A} n (f : nat -> A) i v : upd (tab n f) i v = tab n (fun j => if Nat.eqb i j then v else f j).
Proof.
  apply list_eq_nth; rewrite upd_length, !tab_length; [reflexivity|]. intros j Hj.
  rewrite nth_error_upd, tab_length. rewrite !nth_error_tab by assumption.
  destruct (Nat.eqb i j); [|reflexivity]. now destruct (Nat.ltb_spec j n); [|lia].
Qed.

Lemma upd_out {A} (l : list A) i v : length l <= i -> upd l i v = l.
Proof. revert i. induction l; intros [|i] H; cbn [upd length] in *; try lia; auto. f_equal. apply IHl. lia. Qed.

Lemma upd_app1 {A} (l m : list A) i v : i < length l -> upd (l ++ m) i v = upd l i v ++ m.
Proof. revert i. induction l; intros [|i] H; cbn in *; try lia; auto. f_equal. apply IHl. lia. Qed.

Lemma upd_self {A} (l : list A) i v : nth_error l i = Some v -> upd l i v = l.
Proof.
  revert i. induction l; intros [|i] H; cbn in *; try discriminate; [congruence|]. f_equal. now apply IHl.
Qed.

Lemma upd_upd {A} (l : list A) i v w : upd (upd l i v) i w = upd l i w.
Proof. revert i. induction l; intros [|i]; cbn; auto. f_equal. apply IHl. Qed.

Lemma map2_length {A B C} (f : A -> B -> C) l m : length (map2 f l m) = Nat.min (length l) (length m).
Proof. revert m. induction l; intros [|y m]; cbn; auto. Qed.

Lemma nth_error_map2 {A B C} (f : A -> B -> C) l m i x y :
  nth_error l i = Some x -> nth_error m i = Some y -> nth_error (map2 f l m) i = Some (f x y).
Proof.
  revert m i. induction l; intros [|z m] [|i]; cbn; try discriminate; intros; [congruence|]. now apply IHl.
Qed.

Lemma nth_map2 {A B C} (f : A -> B -> C) l m i d1 d2 d :
  i < length l -> i < length m -> nth i (map2 f l m) d = f (nth i l d1) (nth i m d2).
Proof.
  intros. apply nth_error_nth. apply nth_error_map2; apply nth_error_nth'; assumption.
Qed.

Lemma map2_tab {A B C} (f : A -> B -> C) n g h : map2 f (tab n g) (tab n h) = tab n (fun i => f (g i) (h i)).
Proof.
  revert g h. induction n; intros; [reflexivity|]. rewrite !tab_S. cbn [map2]. now rewrite IHn.
Qed.

Lemma prod_cons d s : prod (d :: s) = d * prod s.
Proof. reflexivity. Qed.

Lemma prod_app s t : prod (s ++ t) = prod s * prod t.
Proof. induction s; cbn [app]; rewrite ?prod_cons; [change (prod []) with 1; lia|]. rewrite IHs. apply Nat.mul_assoc. Qed.

Lemma prod_repeat_1 n : prod (repeat 1 n) = 1.
Proof. induction n; cbn [repeat]; [reflexivity|]. rewrite prod_cons. lia. Qed.

Lemma prod_rev s : prod (rev s) = prod s.
Proof. induction s; cbn [rev]; [reflexivity|]. rewrite prod_app, !prod_cons, IHs. change (prod []) with 1. nia. Qed.

(** ** multi-indices *)

(** row-major position of multi-index [idx] in an array of shape [s] *)
Fixpoint offset (s idx : list nat) : nat :=
  match s, idx with
  | _ :: s', i :: idx' => i * prod s' + offset s' idx'
  | _, _ => 0
  end.

(** [idx] is a valid multi-index of shape [s] *)
Definition valid (s idx : list nat) : Prop := Forall2 lt idx s.

Lemma valid_offset_lt s idx : valid s idx -> offset s idx < prod s.
Proof.
  unfold valid. revert idx. induction s as [|d s IH]; intros idx H; inversion H; subst; cbn [offset].
  - cbn. lia.
  - rewrite prod_cons. specialize (IH _ H4). nia.
Qed.

Lemma valid_length s idx : valid s idx -> length idx = length s.
Proof. intros H. induction H; cbn; auto. Qed.

(** multi-index of a position *)
Fixpoint unoffset (s : list nat) (p : nat) : list nat :=
  match s with
  | [] => []
  | _ :: s' => p / prod s' :: unoffset s' (p mod prod s')
  end.

Lemma unoffset_valid s p : p < prod s -> valid s (unoffset s p).
Proof.
  unfold valid. revert p. induction s as [|d s IH]; intros p H; cbn [unoffset]; [constructor|].
  rewrite prod_cons in H. destruct (divmod_lt d (prod s) p H) as (H1 & H2 & _). constructor; [assumption|]. now apply IH.
Qed.

Lemma offset_unoffset s p : p < prod s -> offset s (unoffset s p) = p.
Proof.
  revert p. induction s as [|d s IH]; intros p H; cbn [unoffset offset].
  - cbn in H. lia.
  - rewrite prod_cons in H. destruct (divmod_lt d (prod s) p H) as (H1 & H2 & H3). rewrite IH by assumption. lia.
Qed.

Lemma unoffset_offset s idx : valid s idx -> unoffset s (offset s idx) = idx.
Proof.
  unfold valid. revert idx. induction s as [|d s IH]; intros idx H; inversion H; subst; cbn [offset unoffset]; [reflexivity|].
  pose proof (valid_offset_lt _ _ H4).
  rewrite Nat.div_add_l by lia. rewrite (Nat.div_small (offset s l)) by assumption.
  rewrite (Nat.add_comm (_ * prod s)), Nat.mod_add by lia. rewrite Nat.mod_small by assumption. rewrite IH by assumption. f_equal. lia.
Qed.

Lemma offset_inj s i j : valid s i -> valid s j -> offset s i = offset s j -> i = j.
Proof. intros Hi Hj E. rewrite <- (unoffset_offset s i Hi), <- (unoffset_offset s j Hj). now rewrite E. Qed.

Lemma offset_app s1 s2 i1 i2 : length i1 = length s1 -> offset (s1 ++ s2) (i1 ++ i2) = offset s1 i1 * prod s2 + offset s2 i2.
Proof.
  revert i1. induction s1 as [|d s1 IH]; intros [|i i1] H; cbn [length app offset] in *; try lia.
  rewrite IH by lia. rewrite prod_app. lia.
Qed.

Lemma valid_app s1 s2 i1 i2 : length i1 = length s1 -> (valid (s1 ++ s2) (i1 ++ i2) <-> valid s1 i1 /\ valid s2 i2).
Proof.
  unfold valid. revert i1. induction s1 as [|d s1 IH]; intros [|i i1] H; cbn [length app] in *; try lia.
  - split; [intros; split; [constructor|assumption]|tauto].
  - split.
    + intros F. inversion F; subst. apply IH in H5; [|lia]. split; [constructor; tauto|tauto].
    + intros [F1 F2]. inversion F1; subst. constructor; [assumption|]. apply IH; [lia|]. tauto.
Qed.

Lemma tab_app {A} m n (f : nat -> A) : tab (m + n) f = tab m f ++ tab n (fun i => f (m + i)).
Proof.
  apply list_eq_nth; rewrite ?app_length, !tab_length; [reflexivity|]. intros i Hi. rewrite nth_error_tab by lia.
  destruct (Nat.lt_ge_cases i m).
  - rewrite nth_error_app1 by (rewrite tab_length; lia). now rewrite nth_error_tab.
  - rewrite nth_error_app2 by (rewrite tab_length; lia). rewrite tab_length, nth_error_tab by lia. do 2 f_equal. lia.
Qed.
