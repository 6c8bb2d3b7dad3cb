(** Properties C27-C29 and C33: back-propagation. *)
From Coq Require Import List Arith Lia Bool PeanoNat Reals Lra.
From Coquelicot Require Import Rcomplements Rbar Hierarchy Derive.
From Verif Require Import ListBase TensorModel TensorSpec ArrayModel GraphModel GraphSpec GradSpec LayerSpec GraphProofs GraphProofs2 GraphProofs3 GradProofs GradProofs2 GradProofs3
  CalcSpec CalcProofs CalcProofs2 CalcProofs3 OpModel OpSpec Scalar OpProofs OpRules OpProps.
Import ListNotations.
Local Open Scope nat_scope.

Section Props.
Variable dbg : bool.
Variable eps : R.
Notation run := (run 0%R 1%R Rplus Rmult dbg).
Notation backs := (backs 0%R 1%R Rplus Rmult Ropp rleb eps dbg).
Notation grads := (grads 0%R 1%R Rplus Rmult dbg).
Notation sizes_ok := (sizes_ok 0%R 1%R Rplus Rmult).
Notation disciplined := (disciplined 0%R 1%R Rplus Rmult).
Notation legible := (legible 0%R 1%R Rplus Rmult).

(** A state in which the tree e can be trained: no operator occurs twice, every sub-expression has a value, no sum is computed
    inside a storage that something else reads, or that an operator's backward action reads. *)
Definition trainable_tree (e : expr R) (s : st R) : Prop :=
  (forall c, e <> EVal c) /\ NoDup (ids e) /\ sizes_ok (env_of s) e /\ disciplined (env_of s) e /\ legible (env_of s) e.

(** elements of a variable, and of its gradient *)
Definition data_of (s : st R) (v : nat) : list R := nth (ref (vdata (vars s v))) (hp s) [].
Definition grad_of (s : st R) (v : nat) : list R := nth (ref (vgrad (vars s v))) (hp s) [].
Definition count_of (s : st R) (v : nat) : nat := prod (shape (vdata (vars s v))).

(** the regularisers' cost of an element x of v, summed over the occurrences of v *)
Definition cost1 (o : vobj (A:=R)) (x : R) : R :=
  ((if rleb eps (l1 o) then l1 o * Rabs x else 0) + (if rleb eps (l2 o) then l2 o * (x * x) else 0))%R.
Definition cost (vo : slot -> vobj (A:=R)) (v : nat) (us : list (slot * nat)) (x : R) : R :=
  rsum (map (fun u => if snd u =? v then cost1 (vo (fst u)) x else 0%R) us).

Lemma lin_derive (c x : R) : is_derive (fun x : R => c * x)%R x c.
Proof. pose proof (is_derive_scal (fun x : R => x) x c 1%R (is_derive_id x)) as H. now rewrite Rmult_1_r in H. Qed.

Lemma cost1_derive o (x : R) : ((eps <= l1 o)%R -> x <> 0%R) -> is_derive (cost1 o) x (reg eps o x).
Proof.
  intros Hx. unfold reg.
  assert (D1 : is_derive (fun x : R => if rleb eps (l1 o) then (l1 o * Rabs x)%R else 0%R) x (if rleb eps (l1 o) then if rleb 0 x then l1 o else (- l1 o)%R else 0%R)).
  { unfold rleb. destruct (Rle_dec eps (l1 o)) as [L|]; [|exact (is_derive_const (V := R_NormedModule) 0%R x)]. specialize (Hx L).
    destruct (Rle_dec 0 x) as [P|N].
    - apply (is_derive_ext_loc (fun x : R => l1 o * x)%R).
      { apply (locally_interval _ x 0%R p_infty); [cbn; lra|exact I|]. intros y Hy _. cbn in Hy. now rewrite Rabs_pos_eq by lra. }
      apply lin_derive.
    - apply (is_derive_ext_loc (fun x : R => - l1 o * x)%R).
      { apply (locally_interval _ x m_infty 0%R); [exact I|cbn; lra|]. intros y _ Hy. cbn in Hy. rewrite Rabs_left by lra. match goal with |- ?a = ?b => change (@eq R a b) end. ring. }
      apply lin_derive. }
  assert (D2 : is_derive (fun x : R => if rleb eps (l2 o) then (l2 o * (x * x))%R else 0%R) x (if rleb eps (l2 o) then (2 * x * l2 o)%R else 0%R)).
  { unfold rleb. destruct (Rle_dec eps (l2 o)); [|exact (is_derive_const (V := R_NormedModule) 0%R x)].
    replace (2 * x * l2 o)%R with (l2 o * (1 * x + x * 1))%R by ring. apply is_derive_scal.
    apply (is_derive_mult (fun x : R => x) (fun x : R => x) x 1%R 1%R); [exact (is_derive_id x)|exact (is_derive_id x)]. }
  exact (is_derive_plus (V := R_NormedModule) _ _ x _ _ D1 D2).
Qed.

Lemma cost_derive vo v us (x : R) : (forall k, In (k, v) us -> trainable (vo k) = true) -> (forall k, In (k, v) us -> (eps <= l1 (vo k))%R -> x <> 0%R) ->
  is_derive (cost vo v us) x (penalty eps vo v x us).
Proof.
  intros Ht Hx. induction us as [|[k w] us IH].
  - exact (is_derive_const (V := R_NormedModule) 0%R x).
  - assert (D1 : is_derive (fun x : R => if w =? v then cost1 (vo k) x else 0%R) x (if (w =? v) && trainable (vo k) then reg eps (vo k) x else 0%R)).
    { destruct (Nat.eqb_spec w v) as [->|]; cbn [andb]; [|exact (is_derive_const (V := R_NormedModule) 0%R x)].
      rewrite (Ht k (or_introl eq_refl)). exact (cost1_derive (vo k) x (Hx k (or_introl eq_refl))). }
    exact (is_derive_plus (V := R_NormedModule) _ _ x _ _ D1 (IH (fun k H => Ht k (or_intror H)) (fun k H => Hx k (or_intror H)))).
Qed.

(** C27: after run and backward( g ) in the training phase, the gradient of a variable, all of whose occurrences are
    trainable, is the derivative of <g, e> plus the regularisers' cost, element by element; the variable may occur any number
    of times.  Every operator's rule has to be right where it is used (C30-C32). *)
Theorem C27_gradient e s who g : trainable_tree e s -> separate e s who -> graded e s -> right_everywhere dbg (env_of s) e -> training s = true ->
  exists y, evalR (env_of s) e = Some y /\
    (fst g = fst y -> sized g ->
     exists t s1 s2, run e s = Ok (t, s1) /\ val_of (hp s1) t = y /\ backs e [g] s1 = Ok (tt, s2) /\
       forall k v p, At e k (EVar v) -> (forall k', At e k' (EVar v) -> trainable (vobjs s k') = true) -> p < count_of s v ->
         let x0 := nth p (data_of s v) 0%R in
         (x0 <> 0%R \/ forall k', At e k' (EVar v) -> (l1 (vobjs s k') < eps)%R) ->
         is_derive (fun x => paired (snd g) (evalR (nudge (env_of s) v p x) e) + cost (vobjs s) v (uses None e) x)%R x0 (nth p (grad_of s2 v) 0%R)).
Proof.
  intros (V & T & Z & D & L) S Gd Rt Tr.
  assert (Nv : evalue e = false). { destruct e; try reflexivity. now destruct (V c). }
  destruct (grads_derive dbg (env_of s) e Nv Z Rt) as (y & Ey & Sy & HG). exists y. split; [exact Ey|]. intros Eg Sg.
  destruct (HG g None Eg Sg) as (ds & Ed & Fd & HD).
  destruct (train_ok dbg eps e s who [g] [ds] V T Z D L S Gd) as (t & s1 & s2 & who2 & R1 & R2 & E1 & _ & _ & V2 & _ & _ & _ & _ & _ & _ & HT & _).
  { constructor; [split; assumption|constructor]. }
  exists t, s1, s2. split; [exact R1|]. split; [congruence|]. split; [exact R2|]. intros k v p Hk Ht Hp x0 Hx.
  destruct (HT Tr k v Hk) as [_ H]. destruct (H ltac:(discriminate)) as [_ H']. specialize (H' p Hp). unfold grad_of. rewrite V2, H'.
  cbn [map rsum]. rewrite Rplus_0_r.
  rewrite (arrived_total (vobjs s) v p ds (uses None e)).
  2:{ exact (grads_uses dbg (env_of s) e None g ds Ed). }
  2:{ intros k' Hin. apply Ht. now apply (uses_at e e None (At_root e)). }
  apply (is_derive_plus (K := R_AbsRing) (V := R_NormedModule) (fun x => paired (snd g) (evalR (nudge (env_of s) v p x) e)) (cost (vobjs s) v (uses None e))).
  - exact (HD k v p Hk Hp).
  - apply cost_derive.
    + intros k' Hin. apply Ht. now apply (uses_at e e None (At_root e)).
    + intros k' Hin Hle. destruct Hx as [Hx|Hx]; [exact Hx|]. specialize (Hx k' (uses_at e e None (At_root e) k' v Hin)). lra.
Qed.

(** ** C29 *)

(** C29: in the training phase run zeroes the gradient of every variable of the tree; after any number (at least one) of backward
    passes it is, element by element, the sum of the gradients that arrived at the trainable occurrences plus, once per
    trainable occurrence, the regulariser's derivative.  In prediction run leaves the gradient alone, and backward passes
    add what arrives (nothing from regularisers, once every occurrence has been through a backward pass). *)
Theorem C29_accumulation e s who gs dss : trainable_tree e s -> separate e s who -> graded e s ->
  Forall2 (fun g ds => grads (env_of s) None e g = Some ds /\ Forall (fits (env_of s)) ds) gs dss ->
  exists t s1 s2, run e s = Ok (t, s1) /\ backs e gs s1 = Ok (tt, s2) /\
    (training s = true -> forall k v, At e k (EVar v) ->
       grad_of s1 v = repeat 0%R (count_of s v) /\
       (gs <> [] -> length (grad_of s2 v) = count_of s v /\
        forall p, p < count_of s v -> nth p (grad_of s2 v) 0%R =
          (rsum (map (arrived (vobjs s) v p) dss) + penalty eps (vobjs s) v (nth p (data_of s v) 0) (uses None e))%R)) /\
    (training s = false -> forall k v, At e k (EVar v) ->
       grad_of s1 v = grad_of s v /\
       ((forall k', At e k' (EVar v) -> trainable (vobjs s k') = true -> synced (vobjs s k') = true) ->
        forall p, p < count_of s v -> nth p (grad_of s2 v) 0%R = (nth p (grad_of s v) 0 + rsum (map (arrived (vobjs s) v p) dss))%R)).
Proof.
  intros (V & T & Z & D & L) S Gd F.
  destruct (train_ok dbg eps e s who gs dss V T Z D L S Gd F) as (t & s1 & s2 & who2 & R1 & R2 & E1 & _ & _ & V2 & _ & _ & _ & _ & _ & _ & HT & HP).
  destruct (run_binv 0%R 1%R Rplus Rmult dbg e s who V T Z D L S Gd) as (t' & s1' & who1 & R1' & _ & _ & V1 & _).
  assert (Q : s1' = s1) by congruence. subst s1'.
  exists t, s1, s2. split; [exact R1|]. split; [exact R2|]. split.
  - intros Tr k v Hk. destruct (HT Tr k v Hk) as [H1 H2]. unfold grad_of, data_of, count_of. rewrite V1, V2. auto.
  - intros Tr k v Hk. destruct (HP Tr k v Hk) as [H1 H2]. unfold grad_of, data_of, count_of. rewrite V1, V2. auto.
Qed.

(** A life of a model: place holders are bound, elements of tensors are overwritten (an optimiser step, weights loaded,
    gradients reset), the phase and the occurrences' flags and regularisers change, and the tree is trained: run, and backward
    for each of a list of gradients. *)
Inductive life (e : expr R) : st R -> st R -> Prop :=
| l_none s : life e s s
| l_bind s s' p sh d : life e s s' ->
    life e s (set_holders (set_hp s' (hp s' ++ [d])) (fupd (holders s') p (Some (mkT sh (length (hp s'))))))
| l_write s s' r d : life e s s' -> length d = length (nth r (hp s') []) -> life e s (set_hp s' (upd (hp s') r d))
| l_phase s s' b : life e s s' -> life e s (set_training s' b)
| l_flags s s' f : life e s s' -> life e s (set_vobjs s' f)
| l_train s s' gs dss t s1 s2 : life e s s' -> trainable_tree e s' ->
    Forall2 (fun g ds => grads (env_of s') None e g = Some ds /\ Forall (fits (env_of s')) ds) gs dss ->
    run e s' = Ok (t, s1) -> backs e gs s1 = Ok (tt, s2) -> life e s s2.

Lemma nth_upd_len (h : list (list R)) r d i : length d = length (nth r h []) -> length (nth i (upd h r d) []) = length (nth i h []).
Proof.
  intros H. destruct (Nat.lt_ge_cases r (length h)) as [L|L].
  - rewrite nth_upd by assumption. destruct (Nat.eqb_spec r i) as [->|]; auto.
  - now rewrite upd_out by assumption.
Qed.

Lemma life_keeps e s s' : life e s s' -> (exists who, separate e s who) /\ graded e s -> (exists who, separate e s' who) /\ graded e s'.
Proof.
  intros H. induction H as [|s s' p sh d H IH|s s' r d H IH Hd|s s' b H IH|s s' f H IH|s s' gs dss t s1 s2 H IH HT F R1 R2]; intros H0; auto.
  - destruct (IH H0) as ((who & S1 & S2 & S3 & S4 & S5) & Gd). split.
    + assert (W : forall i, i < length (hp s') -> who_new who (length (hp s')) OLeaf i = who i) by (intros; now apply who_new_old).
      assert (WL : forall i, who i = OLeaf -> who_new who (length (hp s')) OLeaf i = OLeaf).
      { intros i Hi. unfold who_new. destruct (i <? length (hp s')); auto. }
      exists (who_new who (length (hp s')) OLeaf). split; [|split; [|split; [|split]]]; cbn [set_holders set_hp hp vars holders own ownb]; rewrite ?app_length.
      * intros k v Hk. destruct (S1 k v Hk) as (W1 & W2 & L). split; [now apply WL|]. split; [now rewrite W|]. cbn. lia.
      * intros k p' t Hk E. unfold fupd in E. destruct (p' =? p) eqn:Ep.
        -- injection E as <-. cbn [ref]. now apply who_new_new.
        -- apply WL. now apply (S2 k p' t).
      * intros k t Hk. apply WL. now apply (S3 k).
      * intros n t E. destruct (S4 n t E) as [W1 L]. rewrite W by assumption. split; [assumption|]. cbn. lia.
      * intros n b t E. destruct (S5 n b t E) as [W1 L]. rewrite W by assumption. split; [assumption|]. cbn. lia.
    + intros k v Hk. destruct (Gd k v Hk) as [G1 G2]. destruct (S1 k v Hk) as (_ & _ & L). cbn [set_holders set_hp hp vars]. split; [exact G1|].
      rewrite app_nth1 by assumption. exact G2.
  - destruct (IH H0) as ((who & S1 & S2 & S3 & S4 & S5) & Gd). split.
    + exists who. split; [|split; [|split; [|split]]]; cbn [set_hp hp vars holders own ownb]; rewrite ?upd_length; auto.
    + intros k v Hk. destruct (Gd k v Hk) as [G1 G2]. cbn [set_hp hp vars]. split; [exact G1|]. now rewrite nth_upd_len.
  - destruct (IH H0) as ((who & Sw) & Gd). destruct HT as (V & T & Z & D & L).
    destruct (train_ok dbg eps e s' who gs dss V T Z D L Sw Gd F) as (t' & s1' & s2' & who2 & R1' & R2' & _ & S2 & G2 & _).
    assert (Q : s1' = s1) by congruence. subst s1'. assert (Q : s2' = s2) by congruence. subst s2'. eauto.
Qed.

(** C29, C27 in any life of the model: what the theorems need of the storages is kept for ever. *)
Theorem C29_any_life e s s' : life e s s' -> (exists who, separate e s who) /\ graded e s ->
  (exists who, separate e s' who) /\ graded e s'.
Proof. exact (life_keeps e s s'). Qed.

(** ** C33 *)

(** C33: what backward leaves in the tensor of the gradient it was given; the tensors of the user's leaves stay as they are. *)
Theorem C33_gradient_tensor e s who g ds : trainable_tree e s -> separate e s who -> graded e s ->
  grads (env_of s) None e g = Some ds -> Forall (fits (env_of s)) ds ->
  exists t s1 s2, run e s = Ok (t, s1) /\
    gbind (new_tensor g) (fun t => gbind (backward 0%R 1%R Rplus Rmult Ropp rleb eps dbg None e t) (fun _ => gret t)) s1
      = Ok (mkT (fst g) (length (hp s1)), s2) /\
    Some (nth (length (hp s1)) (hp s2) []) = seed_after 0%R 1%R Rplus Rmult (env_of s) e g /\
    forall r, r < length (hp s) -> who r = OLeaf -> nth_error (hp s2) r = nth_error (hp s) r.
Proof.
  intros (V & T & Z & D & L) S Gd Ed Fd.
  destruct (run_binv 0%R 1%R Rplus Rmult dbg e s who V T Z D L S Gd) as (t & s1 & who1 & R1 & E1 & B1 & V1 & H1 & T1 & L1 & W1 & F1 & _).
  destruct (new_seed 0%R 1%R Rplus Rmult Ropp rleb eps e (env_of s) s1 who1 g B1) as (s2 & who2 & m & N2 & B2 & Hm & W2 & Eh & V2 & X2).
  assert (L2 : ref (mkT (fst g) (length (hp s1))) < length (hp s2)) by (rewrite Eh, app_length; cbn; lia).
  destruct (backward_ok 0%R 1%R Rplus Rmult Ropp rleb eps dbg e (env_of s) T Z e None s2 who2 (mkT (fst g) (length (hp s1))) g ds (At_root e) B2 L2 V2
    ltac:(exists m, false; auto) Ed Fd) as (s3 & who3 & R3 & B3 & X3 & Sd).
  exists t, s1, s3. split; [exact R1|]. split; [rewrite (gbind_ok _ _ _ _ _ N2), (gbind_ok _ _ _ _ _ R3); reflexivity|]. split; [exact Sd|].
  intros r Hr Wr. pose proof (e_who _ _ _ _ _ _ _ _ _ _ _ _ _ _ _ _ (X2 e None)) as W12.
  assert (Wr2 : who2 r = OLeaf) by (rewrite W12 by lia; rewrite W1 by lia; exact Wr).
  rewrite (e_frame _ _ _ _ _ _ _ _ _ _ _ _ _ _ _ _ X3).
  - rewrite Eh. rewrite nth_error_app1 by lia. apply F1; [assumption|congruence|congruence].
  - rewrite Eh, app_length. lia.
  - cbn [ref]. intros [= Q]. lia.
  - congruence.
  - congruence.
Qed.

(** It is unchanged if the root is neither a view nor an operator whose backward action works in place. *)
Theorem C33_unchanged q e g ds : match e with EUn _ (UNew _ _ IntoGrad _) _ | EUn _ (UView _) _ => False | _ => True end ->
  grads q None e g = Some ds -> seed_after 0%R 1%R Rplus Rmult q e g = Some (snd g).
Proof.
  destruct e as [v|p|t|c|n o x|n o l r]; intros H E; try reflexivity.
  cbn [GradSpec.seed_after]. cbn [GradSpec.grads] in E. destruct (eval 0%R 1%R Rplus Rmult q x) as [i|]; [|discriminate E]. cbn [obind2].
  destruct o as [own f [] b|f]; [reflexivity|reflexivity|destruct H|destruct H].
Qed.

End Props.
Print Assumptions C27_gradient.
Print Assumptions C29_accumulation.
Print Assumptions C29_any_life.
Print Assumptions C33_gradient_tensor.
Print Assumptions C33_unchanged.

(** With relu at the root the user's gradient tensor is overwritten. *)
Theorem C33_never_modified_refuted : exists (q : env R) e (g : val R) ds, grads 0%R 1%R Rplus Rmult true q None e g = Some ds /\
  right_everywhere true q e /\ seed_after 0%R 1%R Rplus Rmult q e g = Some [0; 5]%R /\ snd g = [3; 5]%R.
Proof.
  set (q := Env (fun _ => ([2], [-1; 2]%R)) (fun _ => None) (fun _ => ([], []))).
  assert (E : local1 op_relu ([2], [-1; 2]%R) ([2], [3; 5]%R) = Some ([2], [0; 5]%R)).
  { cbn. rewrite above_false, above_true by lra. repeat f_equal; ring. }
  exists q, (EUn 0 op_relu (EVar 0)), ([2], [3; 5]%R), [(Some (0, false), 0, ([2], [0; 5]%R))]. split; [|split; [|split]].
  - cbn [GradSpec.grads eval obind2 q e_var]. now rewrite E.
  - split.
    + intros k n o x i H Hi. apply At_all in H. cbn in H. destruct H as [H|[H|[]]]; [|discriminate H]. injection H as _ _ <- <-.
      cbn in Hi. injection Hi as <-. apply (proj1 (proj2 (C30_exactly ([2], [-1; 2]%R) eq_refl))). repeat constructor; lra.
    + intros k n o l r a b H. apply At_all in H. cbn in H. destruct H as [H|[H|[]]]; discriminate H.
  - cbn [GradSpec.seed_after eval obind2 q e_var]. unfold op_relu, op_grad in *. rewrite E. reflexivity.
  - reflexivity.
Qed.
Print Assumptions C33_never_modified_refuted.

(** A layer with its loss, sum( square( tanh( x W + b ) ) ), for concrete values. *)
Module Net.
Definition product : expr R := EBin 0 op_matmul (EHold 0) (EVar 0).
Definition affine : expr R := EBin 1 BPlus product (EVar 1).
Definition net : expr R := EUn 4 op_sum_reduce (EUn 3 op_square (EUn 2 op_tanh affine)).
Definition s : st R :=
  St [[1; 2]; [3; 5; 0; -1]; [1; 1]; [0; 0; 0; 0]; [7; 7]]%R (fun _ => None) (fun _ => Obj None None None) (fun _ => VObj true true 0%R 0%R)
     (fun v => match v with 0 => VState (mkT [2; 2] 1) (mkT [2; 2] 3) | _ => VState (mkT [2] 2) (mkT [2] 4) end)
     (fun _ => Some (mkT [1; 2] 0)) (fun _ => None) (fun _ _ => None) true [].
Definition who (r : nat) : owner := match r with 3 => OGrad 0 | 4 => OGrad 1 | _ => OLeaf end.
Lemma product_value : evalR (env_of s) product = Some ([1; 2], [0 + 1 * 3 + 2 * 0; 0 + 1 * 5 + 2 * -1]%R).
Proof. cbv -[Rplus Rmult Ropp IZR Rinv]. reflexivity. Qed.

Lemma affine_value : evalR (env_of s) affine = Some ([1; 2], [0 + 1 * 3 + 2 * 0 + 1; 0 + 1 * 5 + 2 * -1 + 1]%R).
Proof. cbv -[Rplus Rmult Ropp IZR Rinv]. reflexivity. Qed.

Ltac at_cases H := apply At_all in H; cbn in H; repeat (destruct H as [H|H]; [try discriminate H|]); [..|now destruct H].

Lemma net_trainable : trainable_tree net s.
Proof.
  split; [discriminate|]. split; [repeat constructor; cbn; intuition discriminate|]. split; [|split].
  - intros k x H _. apply At_all in H. cbn in H.
    repeat (destruct H as [H|H]; [injection H as <- <-; eexists; (split; [cbv -[Rplus Rmult Ropp IZR Rinv tanh]; reflexivity|]); (split; [reflexivity|discriminate])|]). destruct H.
  - intros k n l r H _ x Hx. at_cases H. injection H as <- <- <- <-. cbn in Hx. destruct Hx as [<-|[]]. split; [reflexivity|].
    intros k1 k2 H1 H2 _. apply At_all in H1, H2. cbn in H1, H2.
    assert (U : forall k', In (k', product) (all_at None net) -> k' = Some (1, false)).
    { intros k' H'. cbn in H'. repeat (destruct H' as [H'|H']; [try discriminate H'; congruence|]). destruct H'. }
    now rewrite (U k1 H1), (U k2 H2).
  - intros k n l r H _ x Hx. at_cases H. injection H as <- <- <- <-. cbn in Hx. destruct Hx as [<-|[]]. cbn. reflexivity.
Qed.

Lemma net_separate : separate net s who.
Proof.
  split; [|split; [|split; [|split]]].
  - intros k v H. apply At_all in H. cbn in H.
    repeat (destruct H as [H|H]; [try discriminate H; injection H as <- <-; cbn; repeat split; lia|]). destruct H.
  - intros k p t H [= <-]. reflexivity.
  - intros k t H. apply At_all in H. cbn in H. repeat (destruct H as [H|H]; [discriminate H|]). destruct H.
  - discriminate.
  - discriminate.
Qed.

Lemma net_graded : graded net s.
Proof. intros k v H. apply At_all in H. cbn in H. repeat (destruct H as [H|H]; [try discriminate H; injection H as <- <-; split; reflexivity|]). destruct H. Qed.

Lemma net_right : right_everywhere true (env_of s) net.
Proof.
  split.
  - intros k n o x i H Hi. unfold evalR in Hi. pose proof H as H'. at_cases H; injection H as <- <- <- <-.
    + destruct (proj1 (proj2 (proj2 net_trainable)) _ _ (At_un _ _ _ _ _ H') ltac:(discriminate)) as (w & Ew & Lw & _).
      assert (i = w) by congruence. subst w. apply (C32_sums i Lw).
    + destruct (proj1 (proj2 (proj2 net_trainable)) _ _ (At_un _ _ _ _ _ H') ltac:(discriminate)) as (w & Ew & Lw & _).
      assert (i = w) by congruence. subst w. pose proof (C30_right_everywhere i 0%R Lw) as F. rewrite Forall_forall in F. apply F. cbn; tauto.
    + destruct (proj1 (proj2 (proj2 net_trainable)) _ _ (At_un _ _ _ _ _ H') ltac:(discriminate)) as (w & Ew & Lw & _).
      assert (i = w) by congruence. subst w. pose proof (C30_right_everywhere i 0%R Lw) as F. rewrite Forall_forall in F. apply F. cbn; tauto.
  - intros k n o l r a b H Hi. at_cases H; injection H as <- <- <- <- <-.
    + assert (Ei : operandsR (env_of s) product (EVar 1) = Some (([1; 2], [0 + 1 * 3 + 2 * 0; 0 + 1 * 5 + 2 * -1]%R), ([2], [1; 1]%R))).
      { cbv -[Rplus Rmult Ropp IZR Rinv]. reflexivity. }
      assert (Ej := eq_trans (eq_sym Ei) Hi). injection Ej as <- <-.
      apply (proj1 (C31_right true ([1; 2], [0 + 1 * 3 + 2 * 0; 0 + 1 * 5 + 2 * -1]%R) ([2], [1; 1]%R) eq_refl eq_refl) [1; 2]); try discriminate.
      cbn [fst]. split; [reflexivity|]. intros j Hj. cbn in Hj. destruct j as [|[|j]]; [left; split; reflexivity| |lia]. left. split; reflexivity.
    + cbn in Hi. injection Hi as <- <-. now apply (proj1 (proj2 (C31_right true ([1; 2], [1; 2]%R) ([2; 2], [3; 5; 0; -1]%R) eq_refl eq_refl)) 1 2 2).
Qed.

(** the network's gradients are its derivatives *)
Example C27_case : exists y t s1 s2, run 0%R 1%R Rplus Rmult true net s = Ok (t, s1) /\ val_of (hp s1) t = y /\
  backs 0%R 1%R Rplus Rmult Ropp rleb 1%R true net [([1], [1%R])] s1 = Ok (tt, s2) /\
  forall p, p < 4 -> is_derive (fun x => paired [1%R] (evalR (nudge (env_of s) 0 p x) net) + cost 1 (vobjs s) 0 (uses None net) x)%R
                       (nth p [3; 5; 0; -1]%R 0%R) (nth p (grad_of s2 0) 0%R).
Proof.
  destruct (C27_gradient true 1%R net s who ([1], [1%R]) net_trainable net_separate net_graded net_right eq_refl) as (y & Ey & H).
  assert (Sy : fst y = [1]).
  { assert (E : exists d, evalR (env_of s) net = Some ([1], d)) by (eexists; cbv -[Rplus Rmult Ropp IZR Rinv tanh]; reflexivity). destruct E as [d E]. rewrite E in Ey. now injection Ey as <-. }
  destruct (H (eq_sym Sy) eq_refl) as (t & s1 & s2 & R1 & V1 & R2 & D). exists y, t, s1, s2. split; [exact R1|]. split; [exact V1|]. split; [exact R2|].
  intros p Hp. apply (D (Some (0, true)) 0 p).
  - eapply At_right, At_left, At_un, At_un, At_un, At_root.
  - reflexivity.
  - exact Hp.
  - right. intros k' _. cbn. lra.
Qed.
End Net.


(** ** C53 *)

(** exp( x ) + y *)
Module Over.
Definition e : expr R := EBin 1 BPlus (EUn 0 op_exp (EVar 0)) (EVar 1).
Definition s (x y : R) : st R :=
  St [[x]; [y]; [0]; [0]]%R (fun _ => None) (fun _ => Obj None None None) (fun _ => VObj true true 0%R 0%R)
     (fun v => match v with 0 => VState (mkT [1] 0) (mkT [1] 2) | _ => VState (mkT [1] 1) (mkT [1] 3) end)
     (fun _ => None) (fun _ => None) (fun _ _ => None) true [].
End Over.

(** C53: the sum is computed inside the result of exp, whose backward action then reads the sum: the gradient of x is
    g * ( exp x + y ), which is wrong unless g or y is zero.  (This is what "legible" excludes in C27.) *)
Theorem C53_overwritten_output eps x y g : (0 < eps)%R ->
  exists t s1 s2, run 0%R 1%R Rplus Rmult true Over.e (Over.s x y) = Ok (t, s1) /\ val_of (hp s1) t = ([1], [exp x + y]%R) /\
    backs 0%R 1%R Rplus Rmult Ropp rleb eps true Over.e [([1], [g])] s1 = Ok (tt, s2) /\
    grad_of s2 0 = [g * (exp x + y)]%R /\ grad_of s2 1 = [g]%R /\
    (is_derive (fun x' => paired [g] (evalR (nudge (env_of (Over.s x y)) 0 0 x') Over.e)) x (nth 0 (grad_of s2 0) 0%R) <-> g * y = 0)%R.
Proof.
  intros He.
  destruct (run 0%R 1%R Rplus Rmult true Over.e (Over.s x y)) as [[t s1]| |] eqn:E.
  2,3: cbv -[Rplus Rmult Ropp IZR Rinv exp] in E; discriminate E.
  cbv -[Rplus Rmult Ropp IZR Rinv exp] in E. injection E as <- <-.
  match goal with |- exists t s1 s2, Ok (?a, ?b) = _ /\ _ => exists a, b end.
  assert (Rl : rleb eps 0 = false). { unfold rleb. destruct (Rle_dec eps 0); [lra|reflexivity]. }
  match goal with |- exists s2, _ /\ _ /\ ?b = _ /\ _ => destruct b as [[[] s2]| |] eqn:E end.
  all: cbv -[Rplus Rmult Ropp IZR Rinv exp rleb] in E; rewrite ?Rl in E; try discriminate E.
  injection E as <-. eexists. split; [reflexivity|]. split; [reflexivity|]. split; [reflexivity|].
  unfold grad_of. cbn [hp vars vgrad vdata ref nth].
  assert (G0 : (0 + (0 + g * (exp x + y)) = g * (exp x + y))%R) by ring.
  split; [f_equal; ring|]. split; [f_equal; ring|].
  assert (D : is_derive (fun x' => paired [g] (evalR (nudge (env_of (Over.s x y)) 0 0 x') Over.e)) x (g * exp x)%R).
  { apply (is_derive_ext (fun x' : R => g * (exp x' + y))%R).
    { intros x'. cbv -[Rplus Rmult Ropp IZR Rinv exp]. match goal with |- ?a = ?b => change (@eq R a b) end. ring. }
    apply is_derive_scal. replace (exp x) with (exp x + 0)%R by ring.
    apply (is_derive_plus (V := R_NormedModule) exp (fun _ => y) x (exp x) 0%R); [apply d_exp|exact (is_derive_const (V := R_NormedModule) y x)]. }
  match goal with |- is_derive _ _ ?d <-> _ => assert (Ed : d = (g * (exp x + y))%R) by ring end.
  rewrite Ed. split.
  - intros D'. pose proof (is_derive_unique _ _ _ D) as U. rewrite (is_derive_unique _ _ _ D') in U. lra.
  - intros Z. replace (g * (exp x + y))%R with (g * exp x)%R by lra. exact D.
Qed.
Print Assumptions C53_overwritten_output.
Example C53_case : exists t s1 s2, run 0%R 1%R Rplus Rmult true Over.e (Over.s 0 1) = Ok (t, s1) /\
  backs 0%R 1%R Rplus Rmult Ropp rleb 1%R true Over.e [([1], [1%R])] s1 = Ok (tt, s2) /\ grad_of s2 0 = [2%R] /\ (exp 0 = 1)%R.
Proof.
  destruct (C53_overwritten_output 1 0 1 1 ltac:(lra)) as (t & s1 & s2 & R1 & _ & R2 & G & _). exists t, s1, s2. split; [exact R1|]. split; [exact R2|].
  rewrite G, exp_0. split; [f_equal; ring|reflexivity].
Qed.
