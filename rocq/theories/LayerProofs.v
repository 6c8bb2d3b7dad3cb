(** Lemmas about the layer operators: four-dimensional positions, accumulating loops, gathers and their adjoints. *)
From Coq Require Import List Arith Lia Bool PeanoNat ZArith Reals Lra Permutation.
From Verif Require Import ListBase Loops TensorModel TensorProofs ArrayModel ArrayProofs LayerModel LayerSpec.
Import ListNotations.

(** ** positions *)

Lemma pos4_offset N R C K n r c k : offset [N; R; C; K] [n; r; c; k] = pos4 R C K n r c k.
Proof. unfold pos4. cbn [offset prod fold_right]. rewrite !Nat.mul_1_r, Nat.add_0_r. lia. Qed.

Lemma prod4 N R C K : prod [N; R; C; K] = N * (R * (C * K)).
Proof. cbn. lia. Qed.

Lemma pos4_lt N R C K n r c k : n < N -> r < R -> c < C -> k < K -> pos4 R C K n r c k < prod [N; R; C; K].
Proof.
  intros. rewrite <- (pos4_offset N). apply valid_offset_lt. unfold valid. auto.
Qed.

Lemma pos4_inj N R C K n r c k n' r' c' k' :
  n < N -> r < R -> c < C -> k < K -> n' < N -> r' < R -> c' < C -> k' < K ->
  pos4 R C K n r c k = pos4 R C K n' r' c' k' -> n = n' /\ r = r' /\ c = c' /\ k = k'.
Proof.
  intros H1 H2 H3 H4 H5 H6 H7 H8 E. rewrite <- !(pos4_offset N) in E. apply offset_inj in E; [|unfold valid; auto|unfold valid; auto].
  injection E. auto.
Qed.

Lemma pos4_surj N R C K p : p < prod [N; R; C; K] -> exists n r c k, n < N /\ r < R /\ c < C /\ k < K /\ p = pos4 R C K n r c k.
Proof.
  intros H. assert (V := unoffset_valid _ _ H). assert (O := offset_unoffset _ _ H). unfold valid in V.
  set (idx := unoffset [N; R; C; K] p) in *.
  destruct idx as [|n [|r [|c [|k [|]]]]]; try (exfalso; inversion V as [|? ? ? ? ? V1]; inversion V1 as [|? ? ? ? ? V2]; inversion V2 as [|? ? ? ? ? V3]; inversion V3 as [|? ? ? ? ? V4]; inversion V4; fail).
  exists n, r, c, k. rewrite pos4_offset in O. inversion V as [|? ? ? ? ? V1]; inversion V1 as [|? ? ? ? ? V2]; inversion V2 as [|? ? ? ? ? V3]; inversion V3; auto 8.
Qed.

Lemma loop4_length {A} N R C K (f : nat -> nat -> nat -> nat -> A) : length (loop4 N R C K f) = prod [N; R; C; K].
Proof. rewrite loop4_tab, tab2_length, prod4. reflexivity. Qed.

Lemma nth_error_loop4' {A} N R C K (f : nat -> nat -> nat -> nat -> A) n r c k :
  n < N -> r < R -> c < C -> k < K -> nth_error (loop4 N R C K f) (pos4 R C K n r c k) = Some (f n r c k).
Proof. intros. now apply nth_error_loop4. Qed.

Lemma nth_loop4 {A} N R C K (f : nat -> nat -> nat -> nat -> A) n r c k d :
  n < N -> r < R -> c < C -> k < K -> nth (pos4 R C K n r c k) (loop4 N R C K f) d = f n r c k.
Proof. intros. apply nth_error_nth. now apply nth_error_loop4'. Qed.

(** a loop nest that assigns every cell of a four-dimensional array in row-major order *)
Lemma writes_loop4_all {A} N R C K (f : nat -> nat -> nat -> nat -> A) d :
  length d = prod [N; R; C; K] -> writes (loop4 N R C K (fun n r c k => (pos4 R C K n r c k, f n r c k))) d = loop4 N R C K f.
Proof.
  intros Hl. apply list_eq_nth; rewrite writes_length; [now rewrite loop4_length|]. intros p Hp. rewrite Hl in Hp.
  destruct (pos4_surj N R C K p Hp) as (n & r & c & k & Hn & Hr & Hc & Hk & ->). rewrite nth_error_loop4' by assumption.
  apply writes_at; [now rewrite Hl| |].
  - apply in_loop4. eauto 10.
  - intros w Hw E. apply in_loop4 in Hw. destruct Hw as (n' & r' & c' & k' & Hn' & Hr' & Hc' & Hk' & ->). cbn [fst snd] in *.
    apply (pos4_inj N) in E; auto. destruct E as (-> & -> & -> & ->). reflexivity.
Qed.

(** a loop nest that assigns the cells [pos n r c k], injectively *)
Lemma writes_loop4_at {A} N R C K (pos : nat -> nat -> nat -> nat -> nat) (f : nat -> nat -> nat -> nat -> A) d n r c k :
  (forall n r c k n' r' c' k', n < N -> r < R -> c < C -> k < K -> n' < N -> r' < R -> c' < C -> k' < K ->
     pos n r c k = pos n' r' c' k' -> n = n' /\ r = r' /\ c = c' /\ k = k') ->
  n < N -> r < R -> c < C -> k < K -> pos n r c k < length d ->
  nth_error (writes (loop4 N R C K (fun n r c k => (pos n r c k, f n r c k))) d) (pos n r c k) = Some (f n r c k).
Proof.
  intros Hinj Hn Hr Hc Hk Hp. apply writes_at; [assumption| |].
  - apply in_loop4. eauto 10.
  - intros w Hw E. apply in_loop4 in Hw. destruct Hw as (n' & r' & c' & k' & Hn' & Hr' & Hc' & Hk' & ->). cbn [fst snd] in *.
    apply Hinj in E; auto. destruct E as (-> & -> & -> & ->). reflexivity.
Qed.

Lemma writes_loop4_other {A} N R C K (pos : nat -> nat -> nat -> nat -> nat) (f : nat -> nat -> nat -> nat -> A) d p :
  (forall n r c k, n < N -> r < R -> c < C -> k < K -> pos n r c k <> p) ->
  nth_error (writes (loop4 N R C K (fun n r c k => (pos n r c k, f n r c k))) d) p = nth_error d p.
Proof.
  intros H. apply writes_other. intros w Hw. apply in_loop4 in Hw. destruct Hw as (n & r & c & k & Hn & Hr & Hc & Hk & ->). cbn [fst]. auto.
Qed.

(** ** accumulating loops *)

Lemma accumulate_length {A} (plus : A -> A -> A) zero ws d : length (accumulate plus zero ws d) = length d.
Proof. unfold accumulate. revert d. induction ws; intros d; [reflexivity|]. cbn [fold_left]. now rewrite IHws, upd_length. Qed.

Lemma accumulate_at {A} (plus : A -> A -> A) zero ws d p :
  p < length d ->
  nth_error (accumulate plus zero ws d) p
  = Some (fold_left plus (map snd (filter (fun w => fst w =? p) ws)) (nth p d zero)).
Proof.
  unfold accumulate. revert d. induction ws as [|w ws IH]; intros d Hp; cbn [fold_left filter].
  - now apply nth_error_nth'.
  - rewrite IH by now rewrite upd_length. destruct (Nat.eqb_spec (fst w) p) as [<-|Hne]; cbn [map fold_left].
    + rewrite nth_upd by assumption. now rewrite Nat.eqb_refl.
    + f_equal. f_equal. apply nth_error_nth. rewrite nth_error_upd_other by assumption. now apply nth_error_nth'.
Qed.

Lemma filter_none {A} (f : A -> bool) l : (forall x, In x l -> f x = false) -> filter f l = [].
Proof. induction l as [|a l IH]; intros H; [reflexivity|]. cbn [filter]. rewrite H by now left. apply IH. intros; apply H; now right. Qed.

Lemma filter_all {A} (f : A -> bool) l : (forall x, In x l -> f x = true) -> filter f l = l.
Proof. induction l as [|a l IH]; intros H; [reflexivity|]. cbn [filter]. rewrite H by now left. f_equal. apply IH. intros; apply H; now right. Qed.

(** among blocks of assignments that go to different cells, only one block goes to a given cell *)
Lemma filter_concat_one {A} (f : A -> bool) (ls : list (list A)) i b :
  nth_error ls i = Some b -> (forall x, In x b -> f x = true) ->
  (forall j b', j <> i -> nth_error ls j = Some b' -> forall x, In x b' -> f x = false) ->
  filter f (concat ls) = b.
Proof.
  revert i. induction ls as [|l ls IH]; intros [|i] Hi Hb Ho; cbn [nth_error] in Hi; try discriminate; cbn [concat]; rewrite filter_app.
  - injection Hi as ->. rewrite filter_all by assumption. rewrite filter_none; [apply app_nil_r|].
    intros x Hx. apply in_concat in Hx. destruct Hx as (b' & Hb' & Hx). apply In_nth_error in Hb'. destruct Hb' as (j & Hj).
    now apply (Ho (S j) b').
  - rewrite filter_none by (intros; eapply (Ho 0 l); [lia|reflexivity|assumption]). cbn [app]. apply (IH i); auto.
    intros j b' Hj E. apply (Ho (S j) b'); [lia|assumption].
Qed.

(** accumulating, for every (n, r, c, k), a block of values into that cell *)
Lemma accumulate_blocks {A} (plus : A -> A -> A) zero N R C K (g : nat -> nat -> nat -> nat -> list A) d n r c k :
  length d = prod [N; R; C; K] -> n < N -> r < R -> c < C -> k < K ->
  nth_error (accumulate plus zero (concat (loop4 N R C K (fun n r c k => map (fun v => (pos4 R C K n r c k, v)) (g n r c k)))) d) (pos4 R C K n r c k)
  = Some (fold_left plus (g n r c k) (nth (pos4 R C K n r c k) d zero)).
Proof.
  intros Hl Hn Hr Hc Hk. assert (Hp := pos4_lt N R C K n r c k Hn Hr Hc Hk). rewrite accumulate_at by now rewrite Hl.
  rewrite (filter_concat_one _ _ (pos4 R C K n r c k) (map (fun v => (pos4 R C K n r c k, v)) (g n r c k))).
  - now rewrite map_map, map_id.
  - now rewrite nth_error_loop4'.
  - intros x Hx. apply in_map_iff in Hx. destruct Hx as (v & <- & _). cbn [fst]. apply Nat.eqb_refl.
  - intros j b' Hj E x Hx. assert (Hjl : j < prod [N; R; C; K]) by (rewrite <- (loop4_length N R C K (fun n r c k => map (fun v => (pos4 R C K n r c k, v)) (g n r c k))); apply nth_error_Some; congruence).
    destruct (pos4_surj N R C K j Hjl) as (n' & r' & c' & k' & Hn' & Hr' & Hc' & Hk' & ->). rewrite nth_error_loop4' in E by assumption.
    injection E as <-. apply in_map_iff in Hx. destruct Hx as (v & <- & _). cbn [fst]. now apply Nat.eqb_neq.
Qed.

Lemma loop2_map {A B} (g : A -> B) R C (f : nat -> nat -> A) : loop2 R C (fun a b => g (f a b)) = map g (loop2 R C f).
Proof. unfold loop2. rewrite !tab2_tab, map_tab. reflexivity. Qed.

(** ** sums over the reals *)



Lemma rsum_app l m : rsum (l ++ m) = (rsum l + rsum m)%R.
Proof. induction l; cbn; [ring|]. rewrite IHl. ring. Qed.

Lemma rsum_perm l m : Permutation l m -> rsum l = rsum m.
Proof. induction 1; cbn; try lra. Qed.

Lemma rsum_scale_r {B} (f : B -> R) c l : rsum (map (fun x => f x * c)%R l) = (rsum (map f l) * c)%R.
Proof. induction l; cbn [map rsum]; [ring|]. rewrite IHl. ring. Qed.

Lemma rsum_zero {B} (f : B -> R) l : (forall x, In x l -> f x = 0%R) -> rsum (map f l) = 0%R.
Proof. induction l; cbn [map rsum]; intros H; [reflexivity|]. rewrite H by now left. rewrite IHl; [ring|]. intros; apply H; now right. Qed.

Lemma rsum_plus {B} (f g : B -> R) l : rsum (map (fun x => f x + g x)%R l) = (rsum (map f l) + rsum (map g l))%R.
Proof. induction l; cbn [map rsum]; [ring|]. rewrite IHl. ring. Qed.

Lemma rsum_swap {B C} (f : B -> C -> R) l m :
  rsum (map (fun x => rsum (map (fun y => f x y) m)) l) = rsum (map (fun y => rsum (map (fun x => f x y) l)) m).
Proof.
  induction l as [|a l IH]; cbn [map rsum].
  - symmetry. now apply rsum_zero.
  - rewrite IH, <- rsum_plus. reflexivity.
Qed.

Lemma rsum_filter {B} (f : B -> R) (p : B -> bool) l : rsum (map f (filter p l)) = rsum (map (fun x => if p x then f x else 0%R) l).
Proof. induction l; cbn [filter map rsum]; [reflexivity|]. destruct (p a); cbn [map rsum]; rewrite IHl; ring. Qed.

Lemma rsum_single (f : nat -> R) m i : i < m -> rsum (map (fun j => if Nat.eqb i j then f j else 0%R) (seq 0 m)) = f i.
Proof.
  intros H. assert (G : forall s k, rsum (map (fun j => if Nat.eqb i j then f j else 0%R) (seq s k)) = (if (s <=? i) && (i <? s + k) then f i else 0)%R).
  { intros s k. revert s. induction k; intros s; cbn [seq map rsum].
    - destruct (Nat.leb_spec s i), (Nat.ltb_spec i (s + 0)); cbn [andb]; try reflexivity; lia.
    - rewrite IHk. destruct (Nat.eqb_spec i s) as [->|].
      + rewrite Nat.leb_refl. destruct (Nat.leb_spec (S s) s); [lia|]. rewrite (proj2 (Nat.ltb_lt s (s + S k))) by lia. cbn [andb]. ring.
      + destruct (Nat.leb_spec (S s) i), (Nat.leb_spec s i), (Nat.ltb_spec i (S s + k)), (Nat.ltb_spec i (s + S k)); cbn [andb]; try lia; ring. }
  rewrite G. cbn [andb Nat.leb]. now rewrite (proj2 (Nat.ltb_lt _ _)) by lia.
Qed.

Lemma inner_tab a b n : length a = n -> length b = n -> inner a b = rsum (map (fun i => nth i a 0 * nth i b 0)%R (seq 0 n)).
Proof.
  intros Ha Hb. unfold inner. f_equal. change (map2 Rmult a b = tab n (fun i => nth i a 0 * nth i b 0)%R).
  rewrite <- (tab_nth 0%R a) at 1. rewrite <- (tab_nth 0%R b) at 1. rewrite Ha, Hb, map2_tab. reflexivity.
Qed.

(** A gather: cell k of the output is cell [pi k] of x, or zero.  A backward pass that adds up, for every cell i of x, the
    gradients of the output cells that read i ([block i]) is the adjoint. *)
Lemma adjoint_gather (pi : nat -> option nat) (block : nat -> list nat) m n x g y back :
  length x = m -> length g = n -> length y = n -> length back = m ->
  (forall k, k < n -> nth k y 0%R = match pi k with Some i => nth i x 0%R | None => 0%R end) ->
  (forall i, i < m -> nth i back 0%R = rsum (map (fun k => nth k g 0%R) (block i))) ->
  (forall k i, k < n -> pi k = Some i -> i < m) ->
  (forall i, i < m -> NoDup (block i)) ->
  (forall i k, i < m -> (In k (block i) <-> k < n /\ pi k = Some i)) ->
  inner back x = inner g y.
Proof.
  intros Hx Hg Hy Hb Ey Eb Hpi Hnd Hbl. rewrite (inner_tab back x m), (inner_tab g y n) by assumption.
  transitivity (rsum (map (fun i => rsum (map (fun k => if match pi k with Some j => Nat.eqb j i | None => false end then nth k g 0 * nth i x 0 else 0)%R (seq 0 n))) (seq 0 m))).
  - f_equal. apply map_ext_in. intros i Hi. apply in_seq in Hi. rewrite Eb by lia.
    rewrite <- rsum_filter, rsum_scale_r. f_equal. apply rsum_perm. apply Permutation_map. apply NoDup_Permutation.
    + apply Hnd. lia.
    + apply NoDup_filter. apply seq_NoDup.
    + intros k. rewrite Hbl by lia. rewrite filter_In, in_seq. destruct (pi k) as [j|]; [rewrite Nat.eqb_eq|]; split; intros [U V]; try discriminate; (split; [lia|congruence]).
  - rewrite rsum_swap. f_equal. apply map_ext_in. intros k Hk. apply in_seq in Hk. rewrite Ey by lia.
    destruct (pi k) as [j|] eqn:E.
    + assert (j < m) by (apply (Hpi k); [lia|assumption]).
      rewrite <- (rsum_single (fun i => nth k g 0 * nth i x 0)%R m j) by assumption. reflexivity.
    + rewrite Rmult_0_r. now apply rsum_zero.
Qed.

(** the case of at most one reader per cell *)
Lemma adjoint_injective (pi sigma : nat -> option nat) m n x g y back :
  length x = m -> length g = n -> length y = n -> length back = m ->
  (forall k, k < n -> nth k y 0%R = match pi k with Some i => nth i x 0%R | None => 0%R end) ->
  (forall i, i < m -> nth i back 0%R = match sigma i with Some k => nth k g 0%R | None => 0%R end) ->
  (forall k i, k < n -> pi k = Some i -> i < m) ->
  (forall i k, i < m -> sigma i = Some k -> k < n) ->
  (forall i k, i < m -> k < n -> (sigma i = Some k <-> pi k = Some i)) ->
  inner back x = inner g y.
Proof.
  intros Hx Hg Hy Hb Ey Eb Hpi Hsi Hinv.
  apply (adjoint_gather pi (fun i => match sigma i with Some k => [k] | None => [] end) m n); auto.
  - intros i Hi. rewrite Eb by assumption. destruct (sigma i); cbn [map rsum]; ring.
  - intros i Hi. destruct (sigma i); constructor; auto. constructor.
  - intros i k Hi. destruct (sigma i) as [k'|] eqn:E; cbn [In].
    + split.
      * intros [->|[]]. assert (k < n) by now apply (Hsi i). split; [assumption|]. now apply Hinv.
      * intros [Hk Hp]. left. apply Hinv in Hp; [congruence|assumption|assumption].
    + split; [intros []|]. intros [Hk Hp]. apply Hinv in Hp; [congruence|assumption|assumption].
Qed.

Lemma inner_comm a b : inner a b = inner b a.
Proof. unfold inner. revert b. induction a; intros [|y b]; cbn; try reflexivity. rewrite IHa. ring. Qed.

Lemma fold_left_Rplus l a : fold_left Rplus l a = (a + rsum l)%R.
Proof. revert a. induction l; intros b; cbn [fold_left rsum]; [ring|]. rewrite IHl. ring. Qed.

Lemma NoDup_map_in {A B} (f : A -> B) l : NoDup l -> (forall x y, In x l -> In y l -> f x = f y -> x = y) -> NoDup (map f l).
Proof.
  induction 1 as [|a l Ha Hl IH]; intros Hinj; cbn [map]; constructor.
  - intros Hin. apply in_map_iff in Hin. destruct Hin as (b & E & Hb). apply Ha. rewrite <- (Hinj b a); auto; [now right|now left].
  - apply IH. intros. apply Hinj; auto; now right.
Qed.

Lemma NoDup_loop2 {A} R C (f : nat -> nat -> A) :
  (forall a b a' b', a < R -> b < C -> a' < R -> b' < C -> f a b = f a' b' -> a = a' /\ b = b') -> NoDup (loop2 R C f).
Proof.
  intros H. unfold loop2. rewrite tab2_tab. unfold tab. apply NoDup_map_in; [apply seq_NoDup|].
  intros x y Hx Hy E. apply in_seq in Hx, Hy.
  destruct (divmod_lt R C x ltac:(lia)) as (X1 & X2 & X3). destruct (divmod_lt R C y ltac:(lia)) as (Y1 & Y2 & Y3).
  destruct (H _ _ _ _ X1 X2 Y1 Y2 E) as [E1 E2]. rewrite X3, Y3. congruence.
Qed.
