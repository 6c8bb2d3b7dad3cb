(** Views, and operators whose backward action is an adjoint. *)
From Coq Require Import List Arith Lia Bool PeanoNat Reals Lra.
From Coquelicot Require Import Rcomplements Hierarchy Derive.
From Verif Require Import ListBase TensorModel TensorSpec TensorProofs ArrayModel ArrayProofs GraphModel GraphSpec GradSpec LayerSpec LayerProofs LayerProofs4
  GradProofs BcastAdjoint CalcSpec CalcProofs CalcProofs2 CalcProofs3 OpModel OpProofs OpProofs2 OpProofs3 OpProofs4.
Import ListNotations.
Local Open Scope nat_scope.

Lemma view_right f i s : sized i -> f (fst i) = Some s -> prod s = prod (fst i) -> right1 (UView f) i.
Proof.
  intros Hi E Hp. apply (right1_intro _ i s (fun u p => nth p u 0%R) (fun di p => nth p di 0%R)); [assumption|..].
  - intros w Sw Zw. unfold sized in Zw. cbn [apply1]. rewrite Sw, E, Hp, <- Sw, <- Zw, tab_nth. reflexivity.
  - intros u t0 di Eu L D p Hq. apply D. lia.
  - intros g Lg. cbn [local1 snd]. exists g. split; [reflexivity|]. split; [lia|]. intros di L. rewrite Hp in *. now rewrite (inner_rsum (prod (fst i))).
Qed.

Lemma choose_list n (P : nat -> list R -> Prop) : (forall p, p < n -> exists d, P p d) -> exists D, forall p, p < n -> P p (D p).
Proof.
  induction n as [|n IH]; intros H.
  - exists (fun _ => []). intros; lia.
  - destruct IH as [D HD]. { intros; apply H; lia. } destruct (H n) as [d Hd]; [lia|].
    exists (fun p => if p =? n then d else D p). intros p Hp. destruct (p =? n) eqn:E.
    + apply Nat.eqb_eq in E. now subst.
    + apply Nat.eqb_neq in E. apply HD. lia.
Qed.

Lemma adjoint_right own m fwd bwd s t i : adjoint s t fwd bwd -> fst i = s -> sized i -> right1 (op_layer own m fwd bwd) i.
Proof.
  intros HA Es Hi. unfold sized in Hi. rewrite Es in Hi. assert (Wi : wf (Arr s (snd i))) by exact Hi.
  assert (HU : forall p, p < prod t -> exists b, length b = prod s /\ forall x, wf x -> ashape x = s ->
             exists y, fwd x = Ok y /\ wf y /\ ashape y = t /\ inner b (adata x) = nth p (adata y) 0%R).
  { intros p Hp. destruct (HA (Arr s (snd i)) (Arr t (unit_at (prod t) p)) Wi eq_refl) as (b & _ & Wb & Sb & H).
    { unfold wf. cbn. unfold unit_at. now rewrite upd_length, repeat_length. } { reflexivity. }
    exists (adata b). split; [unfold wf in Wb; congruence|]. intros x Wx Sx. destruct (H x Wx Sx) as (y & Ey & Wy & Sy & I).
    exists y. split; [assumption|]. split; [assumption|]. split; [assumption|]. rewrite I. cbn [adata]. rewrite inner_comm. apply inner_unit; [unfold wf in Wy; congruence|assumption]. }
  destruct (choose_list (prod t) _ HU) as [B HB].
  assert (HF : forall x, wf x -> ashape x = s -> fwd x = Ok (Arr t (tab (prod t) (fun p => rsum (tab (prod s) (fun q => nth q (B p) 0 * nth q (adata x) 0)%R))))).
  { intros x Wx Sx.
    assert (Y : exists y, fwd x = Ok y /\ wf y /\ ashape y = t).
    { destruct (HA (Arr s (snd i)) (Arr t (repeat 0%R (prod t))) Wi eq_refl) as (b & _ & _ & _ & H). { unfold wf; cbn; apply repeat_length. } { reflexivity. }
      destruct (H x Wx Sx) as (y & ? & ? & ? & _). eauto. }
    destruct Y as (y & Ey & Wy & Sy). rewrite Ey. f_equal. destruct y as [ty dy]. cbn [ashape adata] in *. subst ty. f_equal. unfold wf in Wy. cbn [ashape adata] in Wy.
    apply (list_eq_nth_d 0%R); rewrite Wy; [now rewrite tab_length|]. intros p Hp. rewrite nth_tab by assumption.
    destruct (HB p Hp) as [LB H]. destruct (H x Wx Sx) as (y & Ey' & _ & _ & I). rewrite Ey in Ey'. injection Ey' as <-. cbn [adata] in I.
    rewrite <- I. apply inner_rsum; [assumption|]. unfold wf in Wx. congruence. }
  apply (right1_intro _ i t (fun u p => rsum (tab (prod s) (fun q => nth q (B p) 0 * nth q u 0)%R)) (fun di p => rsum (tab (prod s) (fun q => nth q (B p) 0 * nth q di 0)%R))).
  - unfold sized. congruence.
  - intros w Sw Zw. cbn [apply1 op_layer]. rewrite HF; [reflexivity|exact Zw|cbn; congruence].
  - rewrite Es. intros u t0 di Eu L D p Hp. apply (is_derive_rsum_tab (prod s) (fun q t => nth q (B p) 0 * nth q (u t) 0)%R). intros q Hq.
    apply is_derive_scal. now apply D.
  - rewrite Es. intros g Lg. cbn [local1 op_layer]. rewrite Es. rewrite HF by (reflexivity || exact Wi). cbn [obind2 fst snd ashape adata].
    destruct (HA (Arr s (snd i)) (Arr t g) Wi eq_refl) as (b & Eb & Wb & Sb & H). { exact Lg. } { reflexivity. }
    rewrite Eb. exists (adata b). rewrite Sb. split; [reflexivity|]. split; [unfold wf in Wb; congruence|]. intros di L.
    destruct (H (Arr s di)) as (y & Ey & Wy & Sy & I). { exact L. } { reflexivity. }
    cbn [adata] in I. rewrite I. rewrite HF in Ey by (exact L || reflexivity). injection Ey as <-. cbn [adata].
    rewrite inner_tab_r by assumption. reflexivity.
Qed.
