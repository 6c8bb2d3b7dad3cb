(** The element-wise operators and softmax: where their local rules are right. *)
From Coq Require Import List Arith Lia Bool PeanoNat Reals Lra.
From Coquelicot Require Import Rcomplements Hierarchy Derive.
From Verif Require Import ListBase TensorModel TensorSpec TensorProofs ArrayModel ArrayProofs ArrayProps GraphModel GraphSpec GradSpec LayerSpec LayerProofs LayerProofs4
  GradProofs BcastAdjoint CalcSpec CalcProofs CalcProofs2 CalcProofs3 OpModel OpSpec OpProofs Scalar OpRules OpRules2.
Import ListNotations.
Local Open Scope nat_scope.

Lemma map2_map_l {A B C D} (f : A -> B) (h : B -> C -> D) l m : map2 h (map f l) m = map2 (fun x => h (f x)) l m.
Proof. revert m. induction l; intros [|y m]; cbn [map map2]; try reflexivity. f_equal. apply IHl. Qed.
Lemma map2_snd {A B C} (k : B -> C) (l : list A) m : length l = length m -> map2 (fun _ y => k y) l m = map k m.
Proof. revert m. induction l; intros [|y m] H; cbn in *; try lia; try reflexivity. f_equal. apply IHl. lia. Qed.

Section Kinds.
Variables (i : val R).
Hypothesis Hi : sized i.

Lemma same_len (g : val R) : fst g = fst i -> sized g -> (length (snd i) =? length (snd g)) = true.
Proof. unfold sized in *. intros E S. rewrite Hi, S, E. apply Nat.eqb_refl. Qed.

Lemma op_in_iff f h : right1 (op_in f h) i <-> Forall (fun x => sound_at f (h x) x) (snd i).
Proof. apply elem_right_iff; [assumption|]. intros g E S. unfold back_in. now rewrite same_len. Qed.
Lemma op_in_new_iff f h : right1 (UNew false (ew f) IntoNew (back_in h)) i <-> Forall (fun x => sound_at f (h x) x) (snd i).
Proof. apply elem_right_iff; [assumption|]. intros g E S. unfold back_in. now rewrite same_len. Qed.
Lemma op_out_iff f h : right1 (op_out f h) i <-> Forall (fun x => sound_at f (h (f x)) x) (snd i).
Proof.
  apply (elem_right_iff _ _ _ _ (fun x => h (f x))); [assumption|]. intros g E S. unfold back_out. cbn [snd]. rewrite map_length, same_len by assumption.
  now rewrite map2_map_l.
Qed.
Lemma op_grad_iff own f h : right1 (UNew own (ew f) IntoGrad (back_grad h)) i <-> Forall (fun x => sound_at f (h x) x) (snd i).
Proof. apply elem_right_iff; [assumption|]. intros g E S. unfold back_grad. now rewrite same_len, E. Qed.
Lemma op_grad_out_iff own f h : right1 (UNew own (ew f) IntoGrad (back_grad_out h)) i <-> Forall (fun x => sound_at f (h (f x)) x) (snd i).
Proof.
  apply (elem_right_iff _ _ _ _ (fun x => h (f x))); [assumption|]. intros g E S. unfold back_grad_out. cbn [snd].
  rewrite map_length, same_len, map2_map_l by assumption. now rewrite E.
Qed.
Lemma op_map_iff own f m k : right1 (UNew own (ew f) m (fun _ _ g => Some (fst g, map k (snd g)))) i <-> Forall (fun x => sound_at f k x) (snd i).
Proof.
  apply (elem_right_iff _ _ _ _ (fun _ => k)); [assumption|]. intros g E S. rewrite map2_snd; [now rewrite E|].
  unfold sized in *. congruence.
Qed.
Lemma op_pass_iff f : right1 (op_pass f) i <-> Forall (fun x => sound_at f (fun g => g) x) (snd i).
Proof.
  apply (elem_right_iff _ _ _ _ (fun _ g => g)); [assumption|]. intros g E S. rewrite (map2_snd (fun g => g)); [rewrite map_id, <- E; now destruct g|].
  unfold sized in *. congruence.
Qed.
Lemma op_sign_iff : right1 op_sign i <->
  Forall (fun x => sound_at (fun x => (if above x 0 then 1 else 0) - (if above 0 x then 1 else 0)) (fun _ => 0) x)%R (snd i).
Proof.
  apply (elem_right_iff _ _ _ _ (fun _ _ => 0%R)); [assumption|]. intros g E S. rewrite (map2_snd (fun _ => 0%R)) by (unfold sized in *; congruence).
  do 2 f_equal. unfold sized in *. rewrite E in S. rewrite Hi, <- S. clear. induction (snd g); cbn; congruence.
Qed.
End Kinds.

Lemma Forall_iff {A} (P Q : A -> Prop) l : (forall x, P x <-> Q x) -> Forall P l <-> Forall Q l.
Proof. intros H. split; apply Forall_impl; intros; now apply H. Qed.

Lemma Forall_all {A} (P : A -> Prop) l : (forall x, P x) -> Forall P l.
Proof. intros H. apply Forall_forall. auto. Qed.

(** ** softmax *)

Lemma softmax_row_0 row : row <> [] -> softmax_row 0 row = map (fun x => exp x / rsum (map exp row))%R row.
Proof.
  intros H. pose proof (row_total_ge_1 row H) as G. rewrite softmax_row_eq. rewrite Rplus_0_r.
  assert (E : row_total row = (rsum (map exp row) * exp (- rmax row))%R).
  { unfold row_total. generalize (rmax row). intros m. clear. induction row; cbn [map rsum ArrayProps.rsum]; [ring|]. rewrite IHrow.
    unfold Rminus. rewrite exp_plus. ring. }
  assert (Hs : (rsum (map exp row) <> 0)%R) by (intros Z; rewrite E, Z in G; lra).
  apply map_ext. intros x. rewrite E. unfold Rminus. rewrite exp_plus. pose proof (exp_pos (- rmax row)). field. split; lra.
Qed.

Lemma softmax_val_at p n (i : val R) : fst i = p ++ [n] -> sized i -> prod (fst i) <> 0 -> exists d,
  softmax_val i = Some (fst i, d) /\ length d = prod (fst i) /\
  (forall r c, r < prod p -> c < n -> nth (r * n + c) d 0%R =
     (exp (nth (r * n + c) (snd i) 0) / rsum (tab n (fun j => exp (nth (r * n + j) (snd i) 0))))%R).
Proof.
  intros Es Hi Hp. unfold sized in Hi. rewrite Es, prod_app in Hi, Hp. cbn [prod fold_right] in Hi, Hp. rewrite Nat.mul_1_r in *.
  assert (Hn : n <> 0) by nia. assert (Hq : prod p <> 0) by nia.
  assert (Hrow : forall r, r < prod p -> slice (snd i) (r * n) n = tab n (fun j => nth (r * n + j) (snd i) 0%R)).
  { intros r Hr. apply (list_eq_nth_d 0%R); rewrite slice_length by nia; [now rewrite tab_length|]. intros j Hj. rewrite nth_tab by assumption.
    erewrite nth_error_nth; [reflexivity|]. rewrite nth_error_slice by assumption. apply nth_error_nth'. nia. }
  unfold softmax_val. rewrite Es, rev_app_distr. cbn [rev app].
  destruct (Nat.eqb_spec (length (snd i)) 0) as [Z|_]; [nia|]. rewrite Hi, Nat.div_mul by assumption.
  set (F := fun r c => (exp (nth (r * n + c) (snd i) 0) / rsum (tab n (fun j => exp (nth (r * n + j) (snd i) 0))))%R).
  exists (tab2 (prod p) n F). split; [|split].
  - do 2 f_equal. unfold tab2. rewrite !flat_map_concat_map. f_equal. apply map_ext_in. intros r Hr. apply in_seq in Hr.
    rewrite Hrow by lia. rewrite softmax_row_0.
    + rewrite map_tab. unfold F. f_equal. rewrite map_tab. reflexivity.
    + intros E. apply (f_equal (@length R)) in E. rewrite tab_length in E. cbn in E. lia.
  - rewrite tab2_length, prod_app. cbn [prod fold_right]. lia.
  - intros r c Hr Hc. rewrite nth_tab2 by assumption. reflexivity.
Qed.

Lemma row_sum_split n p (f : nat -> R) x : p < n -> rsum (tab n (fun j => if j =? p then x else f j)) = (x + rsum (tab n (fun j => if j =? p then 0 else f j)))%R.
Proof.
  intros Hp. transitivity (rsum (tab n (fun j => (if p =? j then x else 0) + (if j =? p then 0 else f j))%R)).
  - apply rsum_tab_ext. intros j _. rewrite (Nat.eqb_sym p j). destruct (j =? p); ring.
  - rewrite rsum_tab_plus. f_equal. exact (rsum_single (fun _ => x) n p Hp).
Qed.

Lemma nth_repeat_lt (x : R) n p : p < n -> nth p (repeat x n) 0%R = x.
Proof. intros H. apply (repeat_spec n). apply nth_In. now rewrite repeat_length. Qed.

Lemma rsum_tab_nonneg n (f : nat -> R) : (forall j, 0 <= f j)%R -> (0 <= rsum (tab n f))%R.
Proof.
  intros Hf. induction n; [cbn; lra|]. rewrite tab_snoc, rsum_app. cbn [rsum]. specialize (Hf n). lra.
Qed.

Lemma is_derive_quot (c k x : R) : (exp x + k <> 0)%R -> is_derive (fun t => c / (exp t + k))%R x (- c * exp x / ((exp x + k) * (exp x + k)))%R.
Proof.
  intros H. replace (- c * exp x / ((exp x + k) * (exp x + k)))%R with (c * (- exp x / (exp x + k) ^ 2))%R by (field; assumption).
  apply is_derive_scal. apply (is_derive_inv (fun t => exp t + k)%R); [|assumption].
  apply (d_eq _ _ (exp x + 0)%R); [|ring]. apply (is_derive_plus exp (fun _ => k)); [apply d_exp|apply @is_derive_const].
Qed.

Lemma softmax_right_iff p n (i : val R) : fst i = p ++ [n] -> sized i -> prod (fst i) <> 0 -> (right1 op_softmax i <-> n = 1).
Proof.
  intros Es Hi Hp. assert (Hp' := Hp). rewrite Es, prod_app in Hp'. cbn [prod fold_right] in Hp'. rewrite Nat.mul_1_r in Hp'.
  assert (Hn : n <> 0) by nia. assert (Hq : prod p <> 0) by nia.
  assert (Hprod : prod (fst i) = prod p * n) by (rewrite Es, prod_app; cbn [prod fold_right]; lia).
  split.
  - intros HR. destruct (Nat.eq_dec n 1) as [|N1]; [assumption|exfalso].
    destruct (HR _ _ _ (lone_tangent i 0 Hi ltac:(lia))) as (y & dy & T & G).
    destruct (softmax_val_at p n i Es Hi Hp) as (d & Ed & Ld & Hd).
    assert (Ey : y = (fst i, d)).
    { pose proof (tan_at _ _ _ _ T) as E. unfold lone in E. rewrite upd_self in E by (unfold sized in Hi; lia). cbn [obind2 apply1 op_softmax] in E.
      rewrite <- surjective_pairing in E. rewrite Ed in E. congruence. }
    subst y. pose proof (tan_len _ _ _ _ T) as Ly. cbn [fst] in Ly.
    (* the derivative of element 1 along element 0 *)
    set (k := rsum (tab n (fun j => if j =? 0 then 0 else exp (nth j (snd i) 0))%R)).
    assert (Hk : (0 <= k)%R).
    { apply rsum_tab_nonneg. intros j. destruct (j =? 0); [lra|]. left. apply exp_pos. }
    pose proof (exp_pos (nth 0 (snd i) 0%R)) as P0. pose proof (exp_pos (nth 1 (snd i) 0%R)) as P1.
    assert (D1 : is_derive (fun t => entry (obind2 (lone i 0 t) (apply1 op_softmax)) 1) (nth 0 (snd i) 0%R)
                   (- exp (nth 1 (snd i) 0) * exp (nth 0 (snd i) 0) / ((exp (nth 0 (snd i) 0) + k) * (exp (nth 0 (snd i) 0) + k)))%R).
    { apply (is_derive_ext (fun t => exp (nth 1 (snd i) 0) / (exp t + k))%R); [|apply is_derive_quot; lra].
      intros t. cbn [lone obind2 apply1 op_softmax].
      destruct (softmax_val_at p n (fst i, upd (snd i) 0 t) Es) as (d' & Ed' & _ & Hd').
      { unfold sized in *. cbn [fst snd]. now rewrite upd_length. } { assumption. }
      rewrite Ed'. cbn [entry snd]. specialize (Hd' 0 1 ltac:(lia) ltac:(lia)). cbn [Nat.mul Nat.add] in Hd'. rewrite Hd'. cbn [snd].
      unfold sized in Hi. rewrite nth_upd by lia. cbn [Nat.eqb]. f_equal.
      rewrite (rsum_tab_ext _ _ (fun j => if j =? 0 then exp t else exp (nth j (snd i) 0))%R).
      - symmetry. apply row_sum_split. lia.
      - intros j _. rewrite nth_upd by lia. rewrite (Nat.eqb_sym 0 j). now destruct (j =? 0). }
    pose proof (tan_derive _ _ _ _ T 1 ltac:(cbn [fst]; nia)) as D2.
    assert (E12 : nth 1 dy 0%R = (- exp (nth 1 (snd i) 0) * exp (nth 0 (snd i) 0) / ((exp (nth 0 (snd i) 0) + k) * (exp (nth 0 (snd i) 0) + k)))%R).
    { apply is_derive_unique in D1. apply is_derive_unique in D2. congruence. }
    destruct (G (fst i, unit_at (prod (fst i)) 1)) as (gi & E & Si & Zi & I).
    { reflexivity. } { unfold sized, unit_at. cbn [fst snd]. now rewrite upd_length, repeat_length. }
    cbn [local1 op_softmax] in E. rewrite Ed in E. cbn [obind2] in E. unfold back_grad_out in E. cbn [fst snd] in E.
    assert (Lu : length (unit_at (prod (fst i)) 1) = prod (fst i)) by (unfold unit_at; now rewrite upd_length, repeat_length).
    rewrite Ld, Lu, Nat.eqb_refl in E. injection E as <-. cbn [snd] in I.
    rewrite inner_comm, inner_unit in I by (try assumption; nia).
    rewrite inner_unit in I by (rewrite ?map2_length, ?Ld, ?Lu; lia).
    rewrite nth_map2R in I by lia. rewrite unit_nth in I by nia. cbn [Nat.eqb] in I. rewrite Rmult_0_l in I. rewrite I in E12.
    assert (0 < exp (nth 1 (snd i) 0) * exp (nth 0 (snd i) 0) / ((exp (nth 0 (snd i) 0) + k) * (exp (nth 0 (snd i) 0) + k)))%R.
    { apply Rdiv_lt_0_compat; apply Rmult_lt_0_compat; lra. }
    unfold Rdiv in *. rewrite <- !Ropp_mult_distr_l in E12. lra.
  - intros ->. intros c t0 di T.
    assert (C : forall w, fst w = fst i -> sized w -> softmax_val w = Some (fst i, repeat 1%R (prod (fst i)))).
    { intros w Sw Zw. destruct (softmax_val_at p 1 w) as (d & Ed & Ld & Hd); [congruence|assumption|congruence|]. rewrite Ed, Sw. do 2 f_equal.
      apply (list_eq_nth_d 0%R); rewrite Ld, Sw; [now rewrite repeat_length|]. intros j Hj. rewrite <- (Nat.mul_1_r j), <- (Nat.add_0_r (j * 1)).
      rewrite Hd by lia. unfold tab. cbn [seq map rsum]. pose proof (exp_pos (nth (j * 1 + 0) (snd w) 0%R)).
      rewrite nth_repeat_lt by lia. field. lra. }
    exists (fst i, repeat 1%R (prod (fst i))), (repeat 0%R (prod (fst i))). split.
    + destruct T as [E S L N D]. constructor; cbn [fst snd].
      * rewrite E. now apply C.
      * unfold sized. cbn [fst snd]. apply repeat_length.
      * apply repeat_length.
      * revert N. apply filter_imp. intros t (w & Ew & Sw & Zw). rewrite Ew. cbn [obind2 apply1 op_softmax]. rewrite C by assumption. eexists. split; [reflexivity|].
        split; [reflexivity|]. unfold sized. cbn [fst snd]. apply repeat_length.
      * intros j Hj. rewrite nth_zeros. apply (is_derive_ext_loc (fun _ => 1%R)); [|apply @is_derive_const].
        revert N. apply filter_imp. intros t (w & Ew & Sw & Zw). rewrite Ew. cbn [obind2 apply1 op_softmax]. rewrite C by assumption. cbn [entry snd].
        now rewrite nth_repeat_lt.
    + intros g Sg Zg. cbn [fst] in Sg. unfold sized in Zg. rewrite Sg in Zg. exists (fst i, map2 (fun o g => g * (o * (1 - o)))%R (repeat 1%R (prod (fst i))) (snd g)).
      cbn [local1 op_softmax]. rewrite C by auto. cbn [obind2]. unfold back_grad_out. cbn [snd]. rewrite repeat_length, Zg, Nat.eqb_refl, Sg.
      split; [reflexivity|]. split; [reflexivity|]. split; [unfold sized; cbn [fst snd]; rewrite map2_length, repeat_length; lia|].
      cbn [snd]. rewrite inner_zeros_r by assumption. pose proof (tan_len _ _ _ _ T).
      rewrite (inner_rsum (prod (fst i))) by (rewrite ?map2_length, ?repeat_length; lia).
      rewrite (rsum_tab_ext _ _ (fun _ => 0%R)).
      * symmetry. unfold tab. clear. induction (seq 0 (prod (fst i))); cbn [map rsum]; [reflexivity|]. lra.
      * intros j Hj. rewrite nth_map2R by (rewrite ?repeat_length; lia). rewrite nth_repeat_lt by assumption. ring.
Qed.
