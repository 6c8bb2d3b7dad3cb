(** The chain rule over expressions, and the local rule of the sum. *)
From Coq Require Import List Arith Lia Bool PeanoNat Reals Lra.
From Coquelicot Require Import Rcomplements Hierarchy Derive.
From Verif Require Import ListBase TensorModel TensorSpec TensorProofs ArrayModel GraphModel GraphSpec GradSpec LayerSpec LayerProofs LayerProofs4
  GradProofs BcastAdjoint CalcSpec.
Import ListNotations.
Local Open Scope nat_scope.

(** ** Derivatives of sums *)

Lemma is_derive_rsum_tab n (F : nat -> R -> R) (d : nat -> R) t0 : (forall i, i < n -> is_derive (F i) t0 (d i)) ->
  is_derive (fun t => rsum (tab n (fun i => F i t))) t0 (rsum (tab n d)).
Proof.
  induction n as [|n IH]; intros H.
  - change (is_derive (fun _ : R => 0%R) t0 (@zero R_AbelianGroup)). apply @is_derive_const.
  - rewrite tab_snoc, rsum_app. apply (is_derive_ext (fun t => rsum (tab n (fun i => F i t)) + F n t)%R).
    { intros t. rewrite tab_snoc, rsum_app. cbn. ring. }
    replace (rsum (tab n d) + rsum [d n])%R with (rsum (tab n d) + d n)%R by (cbn; ring).
    apply @is_derive_plus; [apply IH; intros; apply H; lia|apply H; lia].
Qed.

Lemma rsum_tab_plus n f g : rsum (tab n (fun i => f i + g i)%R) = (rsum (tab n f) + rsum (tab n g))%R.
Proof. unfold tab. apply rsum_plus. Qed.

Lemma inner_rsum n x y : length x = n -> length y = n -> inner x y = rsum (tab n (fun i => nth i x 0 * nth i y 0)%R).
Proof. intros. symmetry. now apply rsum_tab_inner. Qed.

(** <g, c t> moves with velocity <g, dv> *)
Lemma tangent_paired c t0 v dv g : tangent c t0 v dv -> length g = prod (fst v) -> is_derive (fun t => paired g (c t)) t0 (inner g dv).
Proof.
  intros [E S L N D] Hg. rewrite (inner_rsum (prod (fst v)) g dv) by assumption.
  apply (is_derive_ext_loc (fun t => rsum (tab (prod (fst v)) (fun p => nth p g 0 * entry (c t) p)%R))).
  - revert N. apply filter_imp. intros t (w & Ew & Sw & Zw). unfold sized in Zw. rewrite Ew. cbn [paired entry].
    rewrite (inner_rsum (prod (fst v)) g (snd w)); [reflexivity|assumption|congruence].
  - apply is_derive_rsum_tab. intros p Hp. apply is_derive_scal. now apply D.
Qed.

Lemma tangent_ext c c' t0 v dv : (forall t, c t = c' t) -> tangent c t0 v dv -> tangent c' t0 v dv.
Proof.
  intros X [E S L N D]. constructor; try assumption.
  - now rewrite <- X.
  - revert N. apply filter_imp. intros t (w & Ew & H). exists w. now rewrite <- X.
  - intros p Hp. apply (is_derive_ext (fun t => entry (c t) p)); [intros t; now rewrite X|auto].
Qed.

Lemma nth_zeros n p : nth p (repeat 0%R n) 0%R = 0%R.
Proof. revert p. induction n; intros [|p]; cbn; auto. Qed.

Lemma tangent_const v t0 : sized v -> tangent (fun _ => Some v) t0 v (repeat 0%R (prod (fst v))).
Proof.
  intros S. constructor; auto.
  - apply repeat_length.
  - apply filter_forall. intros _. eauto.
  - intros p Hp. rewrite nth_zeros. apply @is_derive_const.
Qed.

(** a constant that takes the shape of another value *)
Lemma tangent_like cc c t0 v dv : tangent c t0 v dv ->
  tangent (fun t => obind2 (c t) (fun w => Some (const_like 1%R Rmult cc w))) t0 (const_like 1%R Rmult cc v) (repeat 0%R (prod (fst v))).
Proof.
  intros [E S L N D]. constructor.
  - now rewrite E.
  - unfold sized. cbn. apply repeat_length.
  - cbn. apply repeat_length.
  - revert N. apply filter_imp. intros t (w & Ew & Sw & Zw). rewrite Ew. cbn [obind2]. eexists. split; [reflexivity|]. cbn. split; [assumption|].
    unfold sized. cbn. apply repeat_length.
  - cbn [const_like fst]. intros p Hp. rewrite nth_zeros. apply (is_derive_ext_loc (fun _ => (1 * cc)%R)); [|apply @is_derive_const].
    revert N. apply filter_imp. intros t (w & Ew & Sw & Zw). rewrite Ew. cbn [obind2 entry snd const_like]. rewrite Sw.
    symmetry. apply (repeat_spec (prod (fst v))). apply nth_In. now rewrite repeat_length.
Qed.

(** ** The sum *)

Lemma prod_Forall s : prod s <> 0 <-> Forall (fun d => d <> 0) s.
Proof.
  induction s as [|d s IH]; [split; [constructor|cbn; lia]|]. rewrite prod_cons. split.
  - intros H. constructor; [lia|]. apply IH. lia.
  - intros H. inversion H; subst. apply IH in H3. lia.
Qed.

Lemma Forall_rev_nth (s : list nat) : Forall (fun d => d <> 0) s <-> forall j, dimr s j <> 0.
Proof.
  unfold dimr. split.
  - intros H j. apply Forall_rev in H. destruct (lt_dec j (length (rev s))) as [L|L].
    + rewrite Forall_forall in H. apply H. now apply nth_In.
    + rewrite nth_overflow; lia.
  - intros H. rewrite <- (rev_involutive s). apply Forall_rev. apply Forall_forall. intros x Hx. apply In_nth with (d := 1) in Hx.
    destruct Hx as (j & _ & <-). apply H.
Qed.

Lemma Broadcasts_prod a b r : Broadcasts a b r -> prod a <> 0 -> prod b <> 0 -> prod r <> 0.
Proof.
  intros [L H] Ha Hb. apply prod_Forall, Forall_rev_nth. apply prod_Forall in Ha, Hb. rewrite Forall_rev_nth in Ha, Hb. intros j.
  destruct (lt_dec j (length r)) as [Hj|Hj].
  - specialize (Ha j). specialize (Hb j). destruct (H j Hj) as [[? ?]|[[? ?]|[? ?]]]; lia.
  - unfold dimr. rewrite nth_overflow; [lia|]. rewrite rev_length. lia.
Qed.

Lemma source_lt s r p : Stretches s r -> p < prod r -> offset s (source_index s (unoffset r p)) < prod s.
Proof.
  intros St Hp. apply Stretches_padded in St. destruct St as [L F]. pose proof (unoffset_valid _ _ Hp) as V.
  rewrite <- (offset_clamp_padded (length r)) by (assumption || now rewrite (valid_length _ _ V)).
  rewrite <- (prod_padded (length r) s). apply valid_offset_lt. now apply (clamp_valid _ r).
Qed.

Theorem plus_right dbg a b r : fst a <> [] -> fst b <> [] -> prod (fst a) <> 0 -> prod (fst b) <> 0 -> Broadcasts (fst a) (fst b) r ->
  right2 dbg BPlus a b.
Proof.
  intros Na Nb Pa Pb B ca cb t0 da db [Ea Sa La Nra Da] [Eb Sb Lb Nrb Db].
  destruct (Broadcasts_stretches _ _ _ B) as [Sta Stb]. pose proof (Broadcasts_prod _ _ _ B Pa Pb) as Pr.
  set (ia p := offset (fst a) (source_index (fst a) (unoffset r p))). set (ib p := offset (fst b) (source_index (fst b) (unoffset r p))).
  pose proof (broadcast_shape_ok true _ _ _ B) as EB.
  exists (r, tab (prod r) (fun p => nth (ia p) (snd a) 0 + nth (ib p) (snd b) 0)%R), (tab (prod r) (fun p => nth (ia p) da 0 + nth (ib p) db 0)%R).
  split.
  - constructor; cbn [fst snd].
    + rewrite Ea, Eb. cbn [obind2 apply2]. unfold plus_val. now rewrite EB.
    + unfold sized. cbn. apply tab_length.
    + apply tab_length.
    + generalize (filter_and _ _ Nra Nrb). apply filter_imp. intros t [(wa & Ewa & Swa & Zwa) (wb & Ewb & Swb & Zwb)].
      rewrite Ewa, Ewb. cbn [obind2 apply2]. unfold plus_val. rewrite Swa, Swb, EB. eexists. split; [reflexivity|]. cbn [fst].
      split; [reflexivity|]. unfold sized. cbn [fst snd]. apply tab_length.
    + intros p Hp. rewrite nth_tab by assumption.
      apply (is_derive_ext_loc (fun t => entry (ca t) (ia p) + entry (cb t) (ib p))%R).
      * generalize (filter_and _ _ Nra Nrb). apply filter_imp. intros t [(wa & Ewa & Swa & Zwa) (wb & Ewb & Swb & Zwb)].
        rewrite Ewa, Ewb. cbn [obind2 apply2]. unfold plus_val. rewrite Swa, Swb, EB. cbn [entry snd]. now rewrite nth_tab.
      * apply @is_derive_plus; [apply Da|apply Db]; now apply source_lt.
  - cbn [fst]. intros g Eg Sg. unfold sized in Sg. destruct g as [sg g]. cbn [fst snd] in *. subst sg.
    destruct (unbroadcast_adjoint dbg (fst a) r g Na Sta Pr Sg) as (ua & E1 & L1 & H1).
    destruct (unbroadcast_adjoint dbg (fst b) r g Nb Stb Pr Sg) as (ub & E2 & L2 & H2).
    exists (fst a, ua), (fst b, ub). split; [cbn [local2]; rewrite E1; cbn [obind2]; now rewrite E2|].
    split; [reflexivity|]. split; [exact L1|]. split; [reflexivity|]. split; [exact L2|]. cbn [snd].
    rewrite H1, H2 by assumption. rewrite (inner_rsum (prod r)) by (assumption || apply tab_length).
    rewrite <- rsum_tab_plus. apply rsum_tab_ext. intros p Hp. rewrite nth_tab by assumption. fold (ia p) (ib p). ring.
Qed.

(** ** The chain rule *)

Section Chain.
Variable dbg : bool.
Variable Q : R -> env R.
Variable t0 : R.
Variable dx : nat -> list R.
Notation q := (Q t0).
Notation grads := (grads 0%R 1%R Rplus Rmult dbg q).

(** what a list of deliveries amounts to when the variables move with velocities dx *)
Definition effect (ds : list (delivery (A:=R))) : R := rsum (map (fun d => match d with (_, v, g) => inner (snd g) (dx v) end) ds).

Lemma effect_app a b : effect (a ++ b) = (effect a + effect b)%R.
Proof. unfold effect. now rewrite map_app, rsum_app. Qed.

Definition moving (e : expr R) : Prop :=
  forall k, (forall v, At e k (EVar v) -> tangent (fun t => Some (e_var (Q t) v)) t0 (e_var q v) (dx v)) /\
            (forall p, At e k (EHold p) -> forall t, e_hold (Q t) p = e_hold q p) /\
            (forall c, At e k (EConst c) -> forall t, e_const (Q t) c = e_const q c).

Definition chained (x : expr R) : Prop :=
  exists y dy, tangent (fun t => evalR (Q t) x) t0 y dy /\
    forall g k, fst g = fst y -> sized g ->
      exists ds, grads k x g = Some ds /\ Forall (fits q) ds /\ inner (snd g) dy = effect ds.

Definition evalue (x : expr R) : bool := match x with EVal _ => true | _ => false end.

Lemma operandsR_cases q' l r : evalue l && evalue r = false -> operandsR q' l r =
  match l, r with
  | EVal c, _ => obind2 (evalR q' r) (fun v => Some (const_like 1%R Rmult c v, v))
  | _, EVal c => obind2 (evalR q' l) (fun v => Some (v, const_like 1%R Rmult c v))
  | _, _ => obind2 (evalR q' l) (fun a => obind2 (evalR q' r) (fun b => Some (a, b)))
  end.
Proof. reflexivity. Qed.

Lemma evalR_bin q' n o l r : evalR q' (EBin n o l r) = obind2 (operandsR q' l r) (fun p => apply2 o (fst p) (snd p)).
Proof. destruct o; reflexivity. Qed.

Theorem chain e0 : moving e0 -> sizes_ok 0%R 1%R Rplus Rmult q e0 -> right_everywhere dbg q e0 ->
  forall x k0, At e0 k0 x -> evalue x = false -> chained x.
Proof.
  intros Mv Sz [R1 R2]. induction x as [v|p|c|c|n o x IH|n o l IHl r IHr]; intros k0 H Nv.
  - (* variable *)
    destruct (Mv k0) as (M1 & _). specialize (M1 v H). exists (e_var q v), (dx v). split; [exact M1|]. intros g k Eg Sg.
    exists [(k, v, g)]. split; [reflexivity|]. split; [repeat constructor; assumption|]. unfold effect. cbn. ring.
  - (* place holder *)
    destruct (Mv k0) as (_ & M2 & _). specialize (M2 p H). destruct (Sz k0 _ H ltac:(discriminate)) as (w & Ew & Sw & _). cbn [eval] in Ew.
    exists w, (repeat 0%R (prod (fst w))). split.
    + apply (tangent_ext (fun _ => Some w)); [intros t; unfold evalR; cbn [eval]; now rewrite M2, Ew|]. now apply tangent_const.
    + intros g k Eg Sg. exists []. split; [reflexivity|]. split; [constructor|]. rewrite inner_comm. rewrite inner_zeros; [reflexivity|].
      unfold sized in Sg. congruence.
  - (* constant *)
    destruct (Mv k0) as (_ & _ & M3). specialize (M3 c H). destruct (Sz k0 _ H ltac:(discriminate)) as (w & Ew & Sw & _). cbn [eval] in Ew.
    exists w, (repeat 0%R (prod (fst w))). split.
    + apply (tangent_ext (fun _ => Some w)); [intros t; unfold evalR; cbn [eval]; now rewrite M3, Ew|]. now apply tangent_const.
    + intros g k Eg Sg. exists []. split; [reflexivity|]. split; [constructor|]. rewrite inner_comm. rewrite inner_zeros; [reflexivity|].
      unfold sized in Sg. congruence.
  - discriminate.
  - (* unary *)
    assert (Hx : At e0 (Some (n, false)) x) by (eapply At_un; eassumption).
    assert (Nx : evalue x = false).
    { destruct x; try reflexivity. destruct (Sz k0 _ H ltac:(discriminate)) as (w & Ew & _). cbn [eval obind2] in Ew. discriminate. }
    destruct (IH _ Hx Nx) as (i & di & Ti & Gi). pose proof (tan_at _ _ _ _ Ti) as Ei.
    destruct (R1 _ n o x i H Ei _ t0 di Ti) as (y & dy & Ty & Gy). exists y, dy. split.
    + apply (tangent_ext _ _ _ _ _ (fun t => eq_refl) Ty).
    + intros g k Eg Sg. destruct (Gy g Eg Sg) as (gi & El & Es & Zs & Hin). destruct (Gi gi (Some (n, false)) Es Zs) as (ds & Ed & Fd & Hd).
      exists ds. split; [|split; [assumption|congruence]]. cbn [GradSpec.grads]. unfold evalR in Ei. rewrite Ei. cbn [obind2]. rewrite El. exact Ed.
  - (* binary *)
    assert (Hl : At e0 (Some (n, false)) l) by (eapply At_left; eassumption).
    assert (Hr : At e0 (Some (n, true)) r) by (eapply At_right; eassumption).
    assert (Nlr : evalue l && evalue r = false).
    { destruct l; try reflexivity. destruct r; try reflexivity. destruct (Sz k0 _ H ltac:(discriminate)) as (w & Ew & _). cbn [eval obind2] in Ew. discriminate. }
    (* the operands move, and gradients for them have the right effect *)
    assert (OP : exists a da b db ca cb, tangent ca t0 a da /\ tangent cb t0 b db /\
      (forall t, operandsR (Q t) l r = obind2 (ca t) (fun a => obind2 (cb t) (fun b => Some (a, b)))) /\
      (forall g k, fst g = fst a -> sized g -> exists ds, grads k l g = Some ds /\ Forall (fits q) ds /\ inner (snd g) da = effect ds) /\
      (forall g k, fst g = fst b -> sized g -> exists ds, grads k r g = Some ds /\ Forall (fits q) ds /\ inner (snd g) db = effect ds)).
    { destruct (evalue l) eqn:Vl.
      - destruct l as [| | |c| |]; try discriminate. cbn [andb] in Nlr. destruct (IHr _ Hr Nlr) as (b & db & Tb & Gb).
        exists (const_like 1%R Rmult c b), (repeat 0%R (prod (fst b))), b, db,
          (fun t => obind2 (evalR (Q t) r) (fun w => Some (const_like 1%R Rmult c w))), (fun t => evalR (Q t) r).
        split; [now apply (tangent_like c _ t0 b db)|]. split; [exact Tb|]. split; [|split; [|exact Gb]].
        + intros t. rewrite operandsR_cases by assumption. destruct (evalR (Q t) r) eqn:E; cbn [obind2]; rewrite ?E; reflexivity.
        + intros g k Eg Sg. exists []. split; [reflexivity|]. split; [constructor|]. rewrite inner_comm, inner_zeros; [reflexivity|].
          unfold sized in Sg. cbn in Eg. congruence.
      - destruct (IHl _ Hl eq_refl) as (a & da & Ta & Ga). destruct (evalue r) eqn:Vr.
        + destruct r as [| | |c| |]; try discriminate.
          exists a, da, (const_like 1%R Rmult c a), (repeat 0%R (prod (fst a))), (fun t => evalR (Q t) l),
            (fun t => obind2 (evalR (Q t) l) (fun w => Some (const_like 1%R Rmult c w))).
          split; [exact Ta|]. split; [now apply (tangent_like c _ t0 a da)|]. split; [|split; [exact Ga|]].
          * intros t. rewrite operandsR_cases by (rewrite Vl; reflexivity).
            destruct l; try discriminate; destruct (evalR (Q t) _) eqn:E; cbn [obind2]; rewrite ?E; reflexivity.
          * intros g k Eg Sg. exists []. split; [reflexivity|]. split; [constructor|]. rewrite inner_comm, inner_zeros; [reflexivity|].
            unfold sized in Sg. cbn in Eg. congruence.
        + destruct (IHr _ Hr eq_refl) as (b & db & Tb & Gb). exists a, da, b, db, (fun t => evalR (Q t) l), (fun t => evalR (Q t) r).
          split; [exact Ta|]. split; [exact Tb|]. split; [|split; assumption]. intros t. rewrite operandsR_cases by (rewrite Vl; reflexivity).
          destruct l; try discriminate; destruct r; try discriminate; reflexivity. }
    destruct OP as (a & da & b & db & ca & cb & Ta & Tb & EO & Ga & Gb).
    pose proof (EO t0) as E0. rewrite (tan_at _ _ _ _ Ta), (tan_at _ _ _ _ Tb) in E0. cbn [obind2] in E0.
    destruct (R2 _ n o l r a b H E0 _ _ t0 da db Ta Tb) as (y & dy & Ty & Gy). exists y, dy. split.
    + apply (tangent_ext (fun t => obind2 (ca t) (fun a => obind2 (cb t) (fun b => apply2 o a b)))); [|exact Ty].
      intros t. rewrite evalR_bin, EO. destruct (ca t); cbn [obind2]; [|reflexivity]. destruct (cb t); reflexivity.
    + intros g k Eg Sg. destruct (Gy g Eg Sg) as (ga & gb & El & Sa & Za & Sb & Zb & Hin).
      destruct (Ga ga (Some (n, false)) Sa Za) as (dsl & Edl & Fdl & Hdl). destruct (Gb gb (Some (n, true)) Sb Zb) as (dsr & Edr & Fdr & Hdr).
      exists (dsl ++ dsr). split; [|split].
      * cbn [GradSpec.grads]. unfold operandsR in E0. rewrite E0. cbn [obind2 fst snd]. rewrite El. cbn [obind2 fst snd]. rewrite Edl. cbn [obind2].
        now rewrite Edr.
      * apply Forall_app. split; assumption.
      * rewrite effect_app. congruence.
Qed.

End Chain.
