(** Element-wise operators are right exactly where every element's rule is right. *)
From Coq Require Import List Arith Lia Bool PeanoNat Reals Lra.
From Coquelicot Require Import Rcomplements Hierarchy Derive.
From Verif Require Import ListBase TensorModel TensorSpec TensorProofs ArrayModel GraphModel GraphSpec GradSpec LayerSpec LayerProofs LayerProofs4
  GradProofs BcastAdjoint CalcSpec CalcProofs CalcProofs2 CalcProofs3 OpModel OpSpec.
Import ListNotations.
Local Open Scope nat_scope.

(** element p moves, the others stay *)
Definition lone (i : val R) (p : nat) (t : R) : option (val R) := Some (fst i, upd (snd i) p t).


Lemma lone_tangent i p : sized i -> p < prod (fst i) -> tangent (lone i p) (nth p (snd i) 0%R) i (unit_at (prod (fst i)) p).
Proof.
  intros S Hp. unfold sized in S. constructor; auto.
  - unfold lone. rewrite upd_self by lia. now destruct i.
  - unfold unit_at. rewrite upd_length. apply repeat_length.
  - apply filter_forall. intros t. eexists. split; [reflexivity|]. split; [reflexivity|]. unfold sized. cbn [fst snd]. now rewrite upd_length.
  - intros k Hk. unfold unit_at. rewrite nth_upd by now rewrite repeat_length. rewrite nth_zeros.
    apply (is_derive_ext (fun t => if p =? k then t else nth k (snd i) 0%R)).
    { intros t. unfold lone, entry. cbn [snd]. rewrite nth_upd by lia. reflexivity. }
    destruct (p =? k); [apply @is_derive_id|apply @is_derive_const].
Qed.

Lemma nth_map_lt (f : R -> R) l p : p < length l -> nth p (map f l) 0%R = f (nth p l 0%R).
Proof. intros H. rewrite (nth_indep _ 0%R (f 0%R)) by (now rewrite map_length). apply map_nth. Qed.

(** the result of an element-wise forward action moves with f' times the input's velocity *)
Lemma ew_tangent f (D : nat -> R) c t0 i di : tangent c t0 i di -> (forall p, p < prod (fst i) -> is_derive f (nth p (snd i) 0%R) (D p)) ->
  tangent (fun t => obind2 (c t) (ew f)) t0 (fst i, map f (snd i)) (tab (prod (fst i)) (fun p => D p * nth p di 0)%R).
Proof.
  intros [E S L N Dv] H. unfold sized in S. constructor; cbn [fst snd].
  - now rewrite E.
  - unfold sized. cbn. now rewrite map_length.
  - now rewrite tab_length.
  - revert N. apply filter_imp. intros t (w & Ew & Sw & Zw). unfold sized in Zw. rewrite Ew. exists (fst w, map f (snd w)). split; [reflexivity|]. split; [assumption|].
    unfold sized. cbn [fst snd]. exact (eq_trans (map_length f (snd w)) Zw).
  - intros p Hp. rewrite (nth_tab _ _ p) by assumption.
    apply (is_derive_ext_loc (fun t => f (entry (c t) p))).
    { revert N. apply filter_imp. intros t (w & Ew & Sw & Zw). unfold sized in Zw. rewrite Ew. cbn [obind2 ew entry snd].
      symmetry. apply nth_map_lt. congruence. }
    rewrite Rmult_comm. apply (is_derive_comp f (fun t => entry (c t) p)).
    + rewrite E. cbn [entry]. now apply H.
    + now apply Dv.
Qed.

Lemma choose_fn n (P : nat -> R -> Prop) : (forall p, p < n -> exists d, P p d) -> exists D, forall p, p < n -> P p (D p).
Proof.
  induction n as [|n IH]; intros H.
  - exists (fun _ => 0%R). intros; lia.
  - destruct IH as [D HD]. { intros; apply H; lia. } destruct (H n) as [d Hd]; [lia|].
    exists (fun p => if p =? n then d else D p). intros p Hp. destruct (p =? n) eqn:E.
    + apply Nat.eqb_eq in E. now subst.
    + apply Nat.eqb_neq in E. apply HD. lia.
Qed.

Lemma inner_tab_r g n f : length g = n -> inner g (tab n f) = rsum (tab n (fun p => nth p g 0 * f p)%R).
Proof.
  intros Hg. rewrite (inner_rsum n) by (auto using tab_length). apply rsum_tab_ext. intros p Hp. now rewrite nth_tab.
Qed.


Lemma inner_spot n d p x : p < n -> length d = n -> inner (upd (repeat 0%R n) p x) d = (x * nth p d 0)%R.
Proof.
  intros Hp L. rewrite (inner_rsum n) by (rewrite ?upd_length, ?repeat_length; auto).
  rewrite <- (rsum_single (fun k => x * nth k d 0)%R n p Hp). apply rsum_tab_ext. intros k Hk.
  rewrite nth_upd by (now rewrite repeat_length). rewrite nth_zeros. destruct (p =? k); ring.
Qed.

(** An operator whose forward action is element-wise and whose backward action turns element p of the gradient into h p of it. *)
Section Elem.
Variables (own : bool) (f : R -> R) (m : bmode) (b : val R -> val R -> val R -> option (val R)) (h : R -> R -> R) (i : val R).
Hypothesis Hi : sized i.
Hypothesis Hb : forall g, fst g = fst i -> sized g ->
  b i (fst i, map f (snd i)) g = Some (fst i, map2 h (snd i) (snd g)).

Lemma elem_right_iff : right1 (UNew own (ew f) m b) i <-> Forall (fun x => sound_at f (h x) x) (snd i).
Proof.
  unfold sized in Hi. split.
  - intros HR. apply Forall_forall. intros x Hx. destruct (In_nth _ _ 0%R Hx) as (p & Hp & <-). rewrite Hi in Hp.
    destruct (HR _ _ _ (lone_tangent i p Hi Hp)) as (y & dy & T & G).
    assert (Ey : y = (fst i, map f (snd i))).
    { pose proof (tan_at _ _ _ _ T) as E. cbn in E. unfold lone in E. rewrite upd_self in E by lia. cbn in E. injection E as <-. reflexivity. }
    subst y. exists (nth p dy 0%R). split.
    + pose proof (tan_derive _ _ _ _ T p Hp) as D. revert D. apply is_derive_ext. intros t. cbn [obind2 lone apply1 ew entry snd].
      rewrite nth_map_lt by (rewrite upd_length; lia). rewrite nth_upd by lia. now rewrite Nat.eqb_refl.
    + intros g. destruct (G (fst i, upd (repeat 0%R (prod (fst i))) p g)) as (gi & E & Si & Zi & I); [reflexivity|unfold sized; cbn [fst snd]; rewrite upd_length; apply repeat_length|].
      cbn [local1 ew obind2] in E. rewrite Hb in E; [|reflexivity|unfold sized; cbn [fst snd]; rewrite upd_length; apply repeat_length].
      injection E as <-. cbn [snd] in I. rewrite (inner_comm (map2 _ _ _)) in I.
      pose proof (tan_len _ _ _ _ T) as Ly. cbn [fst] in Ly.
      rewrite (inner_spot _ _ p) in I by assumption.
      rewrite inner_comm, inner_unit in I by (rewrite ?map2_length, ?upd_length, ?repeat_length; lia).
      rewrite nth_map2R in I by (rewrite ?upd_length, ?repeat_length; lia).
      rewrite nth_upd, Nat.eqb_refl in I by (now rewrite repeat_length). now symmetry.
  - intros HF c t0 di T.
    destruct (choose_fn (prod (fst i)) (fun p d => is_derive f (nth p (snd i) 0%R) d /\ forall g, h (nth p (snd i) 0%R) g = (g * d)%R)) as [D HD].
    { intros p Hp. rewrite Forall_forall in HF. apply HF. apply nth_In. lia. }
    exists (fst i, map f (snd i)), (tab (prod (fst i)) (fun p => D p * nth p di 0)%R). split.
    + apply ew_tangent; [assumption|]. intros p Hp. now apply HD.
    + cbn [fst]. intros g Sg Zg. exists (fst i, map2 h (snd i) (snd g)). cbn [local1 ew obind2]. rewrite Hb by assumption. split; [reflexivity|]. split; [reflexivity|].
      unfold sized in Zg. rewrite Sg in Zg.
      assert (L : length (map2 h (snd i) (snd g)) = prod (fst i)) by (rewrite map2_length; lia).
      split; [exact L|]. cbn [snd]. rewrite inner_tab_r by assumption. pose proof (tan_len _ _ _ _ T). rewrite (inner_rsum (prod (fst i))) by assumption.
      apply rsum_tab_ext. intros p Hp. rewrite nth_map2R by lia. destruct (HD p Hp) as [_ ->]. ring.
Qed.
End Elem.
