(** Networks as graphs: whole expressions. *)
From Coq Require Import List Arith Lia Bool PeanoNat NArith ZArith Reals Lra.
From Verif Require Import ListBase Loops TensorModel TensorSpec TensorProofs TensorProofs2 ArrayModel ArrayProofs LayerModel LayerSpec LayerProofs
  GraphModel GraphSpec GraphProofs GradSpec GradProofs OpModel CalcSpec CalcProofs OpProofs4 OpProofs6 OpProps GradProps DeclModel DeclSpec DeclProofs
  DeclProofs2 NetModel NetSpec ValueModel ValueSpec NetProofs NetProofs2 ValueProofs ValueProofs2 LearnModel LearnSpec LearnProofs.
Import ListNotations.
Local Open Scope nat_scope.

Section Graphs.
Variable act : (R -> R) -> uop R.
Variable dbg : bool.
Variable eps : R.

Lemma op1_shape deep o x y : run1 true eps o x y -> wf x -> okay1 act deep o (val_arr x) -> right1 o (ashape x) -> ashape x <> [] -> ashape y <> [].
Proof.
  intros F W O Rt N. pose proof (run1_forward1 _ _ _ _ _ F) as F0. destruct (forward1_gives _ _ _ _ F0 W Rt) as [_ G].
  destruct o; cbn [okay1] in O; try contradiction; cbn [gives1] in G.
  - congruence.
  - rewrite G; [assumption|exact Rt].
  - destruct batch; [|contradiction]. destruct G as [_ ->]. discriminate.
  - destruct G as (b & r & _ & _ & ->). discriminate.
  - destruct axis; [|contradiction]. cbv zeta in G. destruct G as [_ ->]. now destruct (firstn n (ashape x)).
  - destruct axis as [a|]; [|contradiction]. cbn [run1 forward1] in F. unfold squeeze_op in F. apply check_ok in F. destruct (_ <=? _); [discriminate|]. apply check_ok in F.
    destruct (_ ++ _); [discriminate|]. injection F as <-. discriminate.
  - destruct G as (r & c & u & _ & _ & ->). discriminate.
  - destruct G as (bs & r & c & ch & orow & ocol & _ & _ & _ & ->). discriminate.
  - destruct G as (_ & bs & r & c & ch & _ & ->). discriminate.
  - destruct G as (bs & r & c & ch & _ & ->). discriminate.
  - destruct G as (bs & r & c & ch & _ & ->). discriminate.
Qed.

(** ** Operators with two operands *)

Definition okay2 (o : DeclModel.op2) : Prop := match o with Plus | Matmul => True | _ => False end.

Lemma op2_ok o x y z : forward2 true o x y z -> wf x -> wf y -> okay2 o -> prod (ashape x) <> 0 -> prod (ashape y) <> 0 -> ashape x <> [] -> ashape y <> [] ->
  CalcSpec.apply2 (graph2 o) (val_arr x) (val_arr y) = Some (val_arr z) /\ CalcSpec.right2 dbg (graph2 o) (val_arr x) (val_arr y) /\ prod (ashape z) <> 0 /\ ashape z <> [].
Proof.
  intros F Wx Wy O Px Py Nx Ny. destruct (forward2_gives _ _ _ _ _ F Wx Wy) as [Wz G]. destruct o; cbn [okay2] in O; try contradiction; cbn [gives2] in G.
  - apply broadcast_shape_iff in G. pose proof (Broadcasts_prod _ _ _ G Px Py) as Pz. cbn [graph2 CalcSpec.apply2]. split; [|split; [|split]].
    + unfold plus_val. cbn [val_arr fst snd]. rewrite (broadcast_shape_ok true _ _ _ G). apply f_equal. unfold val_arr. apply f_equal.
      apply (list_eq_nth_d 0%R); rewrite tab_length; [symmetry; exact Wz|]. intros p Hp. rewrite nth_tab by assumption.
      rewrite <- (offset_unoffset (ashape z) p Hp) at 3. symmetry. exact (v_plus true x y z (ashape z) _ F Wx Wy G (unoffset_valid _ _ Hp)).
    + apply (proj1 (C31_right dbg (val_arr x) (val_arr y) Wx Wy) (ashape z)); assumption.
    + exact Pz.
    + intros E. destruct G as [L _]. rewrite E in L. destruct (ashape x); [congruence|]. cbn [length] in L. lia.
  - destruct G as (a & b & d & Ex & Ey & Ez). cbn [graph2 CalcSpec.apply2]. split; [|split; [|split]].
    + cbn [forward2] in F. unfold bnew in F. exact F.
    + now apply (proj1 (proj2 (C31_right dbg (val_arr x) (val_arr y) Wx Wy)) a b d).
    + rewrite Ex, Ey, Ez in *. unfold prod in *. cbn [fold_right] in *. destruct a, d; lia.
    + rewrite Ez. discriminate.
Qed.

(** ** Expressions *)

(** results that are in a storage of an operator whose backward action does not read them, possibly seen through views or sums *)
Fixpoint solid (e : ex) : Prop :=
  match e with
  | Leaf _ | Value _ => False
  | Un o x =>
      match o with
      | Reshape _ true | Flatten | ExpandDims (Some _) | Squeeze (Some _) => solid x
      | Transpose | Img2col _ | AvgPool _ | UpSample _ => True
      | _ => False
      end
  | Bin o l _ => match o with Plus => solid l | Matmul => True | _ => False end
  end.

Lemma solid_path q e : solid e -> forall n x, In x (pathR q (graph act n e)) -> is_leaf x = false /\ blind x.
Proof.
  induction e as [k|c|o e IH|o l IHl r IHr]; intros So n x H; cbn [solid] in So; try contradiction.
  - destruct o; try contradiction.
    + destruct batch; [|contradiction]. cbn [graph graph1] in H. unfold op_reshape in H. cbn [path] in H. destruct H as [<-|H]; [split; [reflexivity|exact I]|]. now apply (IH So (S n)).
    + cbn [graph graph1] in H. unfold op_flatten in H. cbn [path] in H. destruct H as [<-|H]; [split; [reflexivity|exact I]|]. now apply (IH So (S n)).
    + destruct axis; [|contradiction]. cbn [graph graph1] in H. unfold op_expand_dims in H. cbn [path] in H. destruct H as [<-|H]; [split; [reflexivity|exact I]|]. now apply (IH So (S n)).
    + destruct axis; [|contradiction]. cbn [graph graph1] in H. unfold op_squeeze in H. cbn [path] in H. destruct H as [<-|H]; [split; [reflexivity|exact I]|]. now apply (IH So (S n)).
    + destruct H as [<-|[]]. split; [reflexivity|]. intros i y y' g. reflexivity.
    + destruct H as [<-|[]]. split; [reflexivity|]. intros i y y' g. reflexivity.
    + destruct H as [<-|[]]. split; [reflexivity|]. intros i y y' g. reflexivity.
    + destruct H as [<-|[]]. split; [reflexivity|]. intros i y y' g. reflexivity.
  - destruct o; try contradiction.
    + cbn [graph graph2 path] in H. destruct H as [<-|H]; [split; [reflexivity|exact I]|]. destruct (graph act (S n) l) eqn:E; try contradiction;
        (destruct (inplace _ _ _ _ _ _ _); [|destruct H]); rewrite <- E in H; now apply (IHl So (S n)).
    + destruct H as [<-|[]]. split; [reflexivity|]. intros i j y y' g. reflexivity.
Qed.

Variable q : env R.
Notation leaf := (leaf_of q).

(** every operator of e is applied to values where its backward action is right *)
Fixpoint okay (deep : bool) (e : ex) : Prop :=
  match e with
  | Leaf _ => True
  | Value _ => False
  | Un o x => okay deep x /\ forall y, computes true eps leaf x y -> okay1 act deep o (val_arr y)
  | Bin o l r => okay deep l /\ okay deep r /\ okay2 o /\ match o with Plus => solid l | _ => True end
  end.

Lemma okay_plain deep e n : okay deep e -> forall c, graph act n e <> EVal c.
Proof. destruct e as [k|c0| |]; cbn [okay graph]; try discriminate; [destruct k; discriminate|contradiction]. Qed.

Lemma J_graph deep ls e s : (exists v, e_hold q 0 = Some v) -> (forall n, ls n <> [] -> wf (leaf n) /\ ashape (leaf n) = ls n /\ prod (ls n) <> 0) ->
  J ls e s -> okay deep e ->
  exists y, computes true eps leaf e y /\ wf y /\ ashape y = s /\ prod s <> 0 /\ s <> [] /\ forall n, evalR q (graph act n e) = Some (val_arr y) /\ (deep = true -> fine dbg q (graph act n e)).
Proof.
  intros [v0 H0] L Je. induction Je as [n Hn F|o e s t He IH N C Rt F|o l r s s' t Hl IHl Hr IHr C Rt F]; intros O.
  - destruct (L n Hn) as (W & E & P). exists (leaf n). split; [constructor|]. split; [assumption|]. split; [assumption|]. split; [assumption|]. split; [assumption|].
    intros m. assert (D : adata (leaf n) <> []) by (intros Z; unfold wf in W; rewrite Z, E in W; cbn [length] in W; congruence).
    assert (V : evalR q (graph act m (Leaf n)) = Some (val_arr (leaf n))).
    { destruct n as [|k]; cbn [graph evalR eval leaf_of val_arr ashape adata]; [|cbn [evalR]; unfold evalR; cbn [eval]; now destruct (e_var q k)].
      unfold evalR. cbn [eval]. rewrite H0. now destruct v0. }
    split; [exact V|]. intros _. destruct n as [|k]; cbn [graph fine] in *; (split; [|exact I]); (eexists; split; [exact V|]; split; [exact W|exact D]).
  - cbn [okay] in O. destruct O as [Oe O1]. destruct (IH Oe) as (x & Cx & Wx & Sx & Px & Nx & Ex). specialize (O1 x Cx).
    destruct (C eps x Wx Sx) as (y & Fy & Sy). rewrite <- Sx in Rt, Px, Nx.
    destruct (op1_ok act eps deep o x y Fy Wx O1 Rt Px) as (A & R1 & Py). pose proof (op1_shape deep o x y Fy Wx O1 Rt Nx) as Ny.
    destruct (forward1_gives _ _ _ _ (run1_forward1 _ _ _ _ _ Fy) Wx Rt) as [Wy _].
    exists y. split; [now apply (co_un _ _ _ o e x y)|]. split; [assumption|]. split; [assumption|]. rewrite <- Sy. split; [assumption|]. split; [assumption|].
    intros n. cbn [graph]. destruct (Ex (S n)) as [Ev Fi].
    assert (V : evalR q (EUn n (graph1 act o) (graph act (S n) e)) = Some (val_arr y)).
    { unfold evalR in *. cbn [eval]. rewrite Ev. cbn [obind2]. exact A. }
    split; [exact V|]. intros Hd. cbn [fine]. split; [|split; [exact (Fi Hd)|]].
    + eexists. split; [exact V|]. split; [exact Wy|]. intros Z. cbn [val_arr snd] in Z. unfold wf in Wy. rewrite Z in Wy. cbn [length] in Wy. congruence.
    + intros i Hi. rewrite Ev in Hi. injection Hi as <-. exact (R1 Hd).
  - cbn [okay] in O. destruct O as (Ol & Or & O2 & Os). destruct (IHl Ol) as (x & Cx & Wx & Sx & Px & Nx & Ex). destruct (IHr Or) as (y & Cy & Wy & Sy & Py & Ny & Ey).
    destruct (C x y Wx Sx Wy Sy) as (z & Fz & Sz). rewrite <- Sx in Px, Nx. rewrite <- Sy in Py, Ny.
    destruct (op2_ok o x y z Fz Wx Wy O2 Px Py Nx Ny) as (A & R2 & Pz & Nz). destruct (forward2_gives _ _ _ _ _ Fz Wx Wy) as [Wz _].
    exists z. split; [now apply (co_bin _ _ _ o l r x y z)|]. split; [assumption|]. split; [assumption|]. rewrite <- Sz. split; [assumption|]. split; [assumption|].
    intros n. cbn [graph]. destruct (Ex (S n)) as [El Fl]. destruct (Ey (S n + ops l)) as [Er Fr].
    assert (V : evalR q (EBin n (graph2 o) (graph act (S n) l) (graph act (S n + ops l) r)) = Some (val_arr z)).
    { assert (P : evalR q (EBin n (graph2 o) (graph act (S n) l) (graph act (S n + ops l) r)) = obind2 (operandsR q (graph act (S n) l) (graph act (S n + ops l) r)) (fun p => CalcSpec.apply2 (graph2 o) (fst p) (snd p))) by reflexivity.
      rewrite P, operands_plain by (now apply (okay_plain deep)). rewrite El, Er. cbn [obind2 fst snd]. exact A. }
    split; [exact V|]. intros Hd. cbn [fine]. split; [|split; [exact (Fl Hd)|split; [exact (Fr Hd)|split]]].
    + eexists. split; [exact V|]. split; [exact Wz|]. intros Z. cbn [val_arr snd] in Z. unfold wf in Wz. rewrite Z in Wz. cbn [length] in Wz. congruence.
    + intros a b Ha Hb. assert (a = val_arr x) by congruence. assert (b = val_arr y) by congruence. subst. exact R2.
    + intros Eo. destruct o; try discriminate. now apply solid_path.
Qed.
End Graphs.
