(** Proofs about argmax and argmin. *)
From Coq Require Import List Arith Lia Bool PeanoNat Reals Lra.
From Verif Require Import ListBase Loops TensorModel TensorProofs ArrayModel ArrayProofs LayerSpec LayerProofs3 ArgModel ArgSpec.
Import ListNotations.
Local Open Scope nat_scope.

Lemma nth_error_Some_lt {A} (l : list A) k u : nth_error l k = Some u -> k < length l.
Proof. intro E. apply nth_error_Some. congruence. Qed.

Section Order.
Context {A : Type} (ltb : A -> A -> bool).
Hypothesis SW : strict_weak ltb.

Lemma arg_loop_inv (get : nat -> A) row :
  let s := fold_left (fun s r => if ltb (snd s) (get r) then (r, get r) else s) (seq 0 (S row)) (0, get 0) in
  fst s <= row /\ snd s = get (fst s) /\ (forall k, k <= row -> ltb (snd s) (get k) = false) /\
  (forall k, k < fst s -> ltb (get k) (snd s) = true).
Proof.
  destruct SW as (I & T & N). induction row as [ | row IH ].
  - cbn [seq fold_left fst snd]. rewrite I. cbn [fst snd]. split; [lia|]. split; [reflexivity|]. split.
    + intros k Hk. replace k with 0 by lia. apply I.
    + intros k Hk. lia.
  - rewrite seq_S, fold_left_app. cbn [fold_left plus]. revert IH.
    set (s := fold_left _ (seq 0 (S row)) _). intros (H1 & H2 & H3 & H4).
    destruct (ltb (snd s) (get (S row))) eqn:E; cbn [fst snd].
    + split; [lia|]. split; [reflexivity|].
      assert (L : forall k, k <= row -> ltb (get k) (get (S row)) = true).
      { intros k Hk. apply (strict_weak_mixed ltb SW _ (snd s)); [ now apply H3 | exact E ]. }
      split.
      * intros k Hk. destruct (Nat.eq_dec k (S row)) as [ -> | Ne ]; [ apply I | ].
        destruct (ltb (get (S row)) (get k)) eqn:E'; [ | reflexivity ].
        pose proof (T _ _ _ E' (L k ltac:(lia))) as C. rewrite I in C. discriminate.
      * intros k Hk. apply L. lia.
    + split; [lia|]. split; [assumption|]. split; [ | assumption ].
      intros k Hk. destruct (Nat.eq_dec k (S row)) as [ -> | Ne ]; [ exact E | apply H3; lia ].
Qed.

Lemma arg_loop_first (get : nat -> A) row : row <> 0 -> first_largest ltb (tab row get) (arg_loop ltb get row).
Proof.
  intros Hr. destruct row as [ | row ]; [ congruence | ]. destruct (arg_loop_inv get row) as (H1 & H2 & H3 & H4). cbv zeta in *.
  unfold arg_loop. set (s := fold_left _ _ _) in *. exists (snd s). split; [ | split ].
  - rewrite nth_error_tab by lia. now rewrite H2.
  - intros k u E. assert (k < S row) by (apply nth_error_Some_lt in E; now rewrite tab_length in E).
    rewrite nth_error_tab in E by assumption. injection E as <-. apply H3. lia.
  - intros k u E L. assert (k < S row) by lia. rewrite nth_error_tab in E by assumption. injection E as <-. now apply H4.
Qed.

Lemma first_largest_unique l m m' : first_largest ltb l m -> first_largest ltb l m' -> m = m'.
Proof.
  destruct SW as (I & T & N).
  intros (v & E & H1 & H2) (v' & E' & H1' & H2'). destruct (Nat.lt_trichotomy m m') as [ L | [ L | L ] ]; [ | assumption | ].
  - specialize (H2' m v E L). specialize (H1 m' v' E'). congruence.
  - specialize (H2 m' v' E' L). specialize (H1' m v E). congruence.
Qed.

Lemma unique_first l m v : nth_error l m = Some v -> (forall k u, nth_error l k = Some u -> k <> m -> ltb u v = true) ->
  first_largest ltb l m.
Proof.
  destruct SW as (I & T & N). intros E H. exists v. split; [ assumption | ]. split.
  - intros k u Ek. destruct (Nat.eq_dec k m) as [ -> | Ne ]; [ rewrite E in Ek; injection Ek as <-; apply I | ].
    destruct (ltb v u) eqn:C; [ | reflexivity ]. specialize (H k u Ek Ne). pose proof (T _ _ _ C H) as X. rewrite I in X. discriminate.
  - intros k u Ek L. apply (H k u Ek). lia.
Qed.

End Order.

Section Fwd.
Context {A : Type} (zero : A) (ltb : A -> A -> bool) (of_nat : nat -> A).
Variable dbg : bool.

Lemma argmax_ok (x : arr A) p n q : wf x -> ashape x = p ++ n :: q -> n <> 0 ->
  argmax_fwd zero ltb of_nat dbg (length p) x
  = Ok (Arr (p ++ q) (loop2 (prod p) (prod q)
      (fun b c => of_nat (arg_loop ltb (fun r => nth (b * prod q * n + c + r * prod q) (adata x) zero) n)))).
Proof.
  intros W E Hn. unfold wf in W. unfold argmax_fwd. rewrite E, app_length. cbn [length].
  rewrite (proj2 (Nat.ltb_lt _ _)) by lia. cbn [check]. rewrite (proj2 (Nat.leb_gt _ _)) by lia.
  unfold without. rewrite firstn_at, skipn_S_at, nth_at. cbv zeta.
  destruct (Nat.eqb_spec (prod p * prod q) 0) as [ Z | Z ].
  - f_equal. f_equal. symmetry. apply length_zero_iff_nil. unfold loop2. rewrite tab2_length. exact Z.
  - rewrite (proj2 (Nat.eqb_neq _ _)) by assumption. rewrite W, E, prod_app, prod_cons. cbn [orb].
    rewrite (proj2 (Nat.ltb_ge _ _)) by lia. reflexivity.
Qed.

End Fwd.

(** real elements *)
Definition rltb (a b : R) : bool := if Rlt_dec a b then true else false.

Lemma rltb_true a b : rltb a b = true <-> (a < b)%R.
Proof. unfold rltb. destruct (Rlt_dec a b); split; intro; congruence || tauto. Qed.

Lemma rltb_false a b : rltb a b = false <-> (b <= a)%R.
Proof. unfold rltb. destruct (Rlt_dec a b); split; intro; try congruence; try lra. Qed.

Lemma rltb_sw : strict_weak rltb.
Proof.
  split; [ | split ].
  - intro x. apply rltb_false. lra.
  - intros x y z. rewrite !rltb_true. lra.
  - intros x y z. rewrite !rltb_false. lra.
Qed.

Lemma finite_eps (P : nat -> R -> Prop) N :
  (forall k e e', (0 < e' <= e)%R -> P k e -> P k e') -> (forall k, k < N -> exists e, (0 < e)%R /\ P k e) ->
  exists e, (0 < e)%R /\ forall k, k < N -> P k e.
Proof.
  intros D H. induction N as [ | N IH ].
  - exists 1%R. split; [ lra | ]. intros k Hk. lia.
  - destruct IH as (e & He & HP); [ intros k Hk; apply H; lia | ]. destruct (H N ltac:(lia)) as (f & Hf & HN).
    exists (Rmin e f). assert (0 < Rmin e f)%R by (unfold Rmin; destruct (Rle_dec e f); lra).
    split; [ assumption | ]. intros k Hk. destruct (Nat.eq_dec k N) as [ -> | Ne ].
    + apply (D N f); [ split; [ assumption | apply Rmin_r ] | assumption ].
    + apply (D k e); [ split; [ assumption | apply Rmin_l ] | apply HP; lia ].
Qed.

(** one column: a unique largest element stays the largest under small changes *)
Lemma arg_stable (get : nat -> R) n : n <> 0 -> unique_largest rltb (tab n get) ->
  exists e, (0 < e)%R /\ forall get', (forall k, k < n -> (Rabs (get' k - get k) < e)%R) -> arg_loop rltb get' n = arg_loop rltb get n.
Proof.
  intros Hn (m & v & E & H).
  assert (Hm : m < n) by (apply nth_error_Some_lt in E; now rewrite tab_length in E).
  rewrite nth_error_tab in E by assumption. injection E as <-.
  assert (H' : forall k, k < n -> k <> m -> (get k < get m)%R).
  { intros k Hk Ne. apply rltb_true. apply (H k); [ now rewrite nth_error_tab | assumption ]. }
  destruct (finite_eps (fun k e => k <> m -> (get k + 2 * e <= get m)%R) n) as (e & He & HP).
  { intros k e e' Hee X Ne. specialize (X Ne). lra. }
  { intros k Hk. destruct (Nat.eq_dec k m) as [ -> | Ne ]; [ exists 1%R; split; [ lra | congruence ] | ].
    specialize (H' k Hk Ne). exists ((get m - get k) / 2)%R. split; [ lra | ]. intros _. lra. }
  exists e. split; [ assumption | ]. intros get' Hg.
  assert (F : forall g : nat -> R, (forall k, k < n -> (Rabs (g k - get k) < e)%R) -> first_largest rltb (tab n g) m).
  { intros g Hgk. apply (unique_first rltb rltb_sw _ m (g m)); [ now rewrite nth_error_tab | ].
    intros k u Ek Ne. assert (Hk : k < n) by (apply nth_error_Some_lt in Ek; now rewrite tab_length in Ek).
    rewrite nth_error_tab in Ek by assumption. injection Ek as <-. apply rltb_true.
    specialize (HP k Hk Ne). pose proof (Hgk k Hk) as A1. pose proof (Hgk m Hm) as A2.
    apply Rabs_def2 in A1. apply Rabs_def2 in A2. lra. }
  rewrite (first_largest_unique rltb rltb_sw (tab n get') _ m (arg_loop_first rltb rltb_sw get' n Hn) (F get' Hg)).
  symmetry. apply (first_largest_unique rltb rltb_sw (tab n get)); [ apply (arg_loop_first rltb rltb_sw); assumption | ].
  apply F. intros k Hk. rewrite Rminus_diag_eq by reflexivity. rewrite Rabs_R0. exact He.
Qed.

(** one column with a tie: raising another largest element changes the result *)
Lemma arg_tie (get : nat -> R) n k d : n <> 0 -> k < n -> k <> arg_loop rltb get n -> (get (arg_loop rltb get n) <= get k)%R -> (0 < d)%R ->
  arg_loop rltb (fun r => if r =? k then (get r + d)%R else get r) n <> arg_loop rltb get n.
Proof.
  intros Hn Hk Ne L Hd X. pose proof (arg_loop_first rltb rltb_sw (fun r => if r =? k then (get r + d)%R else get r) n Hn) as F.
  rewrite X in F. set (m := arg_loop rltb get n) in *. destruct F as (v & E & H1 & _).
  assert (Hm : m < n) by (apply nth_error_Some_lt in E; now rewrite tab_length in E).
  rewrite nth_error_tab in E by assumption. rewrite (proj2 (Nat.eqb_neq m k)) in E by congruence. injection E as <-.
  specialize (H1 k (get k + d)%R). rewrite nth_error_tab in H1 by assumption. rewrite Nat.eqb_refl in H1. specialize (H1 eq_refl).
  apply rltb_false in H1. lra.
Qed.

Lemma arg_loop_ext (get get' : nat -> R) n : n <> 0 -> (forall r, r < n -> get r = get' r) -> arg_loop rltb get n = arg_loop rltb get' n.
Proof.
  intros Hn H. apply (first_largest_unique rltb rltb_sw (tab n get)); [ apply (arg_loop_first rltb rltb_sw); assumption | ].
  replace (tab n get) with (tab n get'); [ apply (arg_loop_first rltb rltb_sw); assumption | ].
  apply list_eq_nth; [ now rewrite !tab_length | ]. intros i Hi. rewrite tab_length in Hi. rewrite !nth_error_tab by assumption. now rewrite H.
Qed.
