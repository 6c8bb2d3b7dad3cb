(** Property C71: activations and quotients that are built from other operators. *)
From Coq Require Import Reals List Arith Lia Lra Bool PeanoNat.
From Coquelicot Require Import Rcomplements Hierarchy Derive.
From Coquelicot Require AutoDerive.
From Verif Require Import ListBase TensorModel TensorSpec TensorProofs ArrayModel ArrayProofs GraphModel GraphSpec GraphProofs GraphProofs2 GraphProofs3 GradSpec GradProofs LayerSpec CalcSpec CalcProofs
  OpModel OpSpec Scalar OpProofs OpRules OpProps GradProps GraphProps ComplexModel ComplexSpec ComplexProofs ComplexRun LossRun2 BceProofs ConcatModel ShareBack ShareBackProps ActModel.
Import ListNotations.
Local Open Scope R_scope.

(** ** The functions *)
Definition sigma (x : R) : R := / (1 + exp (- x)).

(** ** Values *)

Lemma val_eta (i : val R) : i = (fst i, snd i). Proof. now destruct i. Qed.

Lemma map2_self (f : R -> R -> R) (g : R -> R) l : map2 f l (map g l) = map (fun x => f x (g x)) l.
Proof. induction l as [|x l IH]; [reflexivity|]. cbn [map map2]. now rewrite IH. Qed.

Section Values.
Variable dbg : bool.
Variable q : env R.

Lemma eval_ew n own f m b x i : evalR q x = Some i -> evalR q (EUn n (UNew own (ew f) m b) x) = Some (fst i, map f (snd i)).
Proof. intros E. rewrite (eval_un q n _ x i E). reflexivity. Qed.

Ltac ops := unfold op_sigmoid, op_tanh, op_relu, op_negative, op_square, op_sqrt, op_inverse, op_out, op_in, op_grad.

(** C71: swish, tank_shrink, hypot and divide act element by element; crelu puts max(x,0) and max(-x,0) side by side along the last axis.
    divide( x, y ) is x / y exactly where |y| >= eps; closer to zero it divides by eps or -eps (by -eps at zero). *)
Theorem C71_values : forall n x i, evalR q x = Some i -> sized i -> (prod (fst i) <> 0)%nat ->
  evalR q (e_swish dbg n x) = Some (fst i, map (fun x => x * sigma x) (snd i)) /\
  evalR q (e_tank_shrink n x) = Some (fst i, map (fun x => x - tanh x) (snd i)) /\
  (forall p k, fst i = p ++ [k] -> exists y, evalR q (e_crelu dbg n x) = Some y /\ fst y = p ++ [k + k]%nat /\ sized y /\
     forall ip j, valid p ip -> (j < k)%nat ->
       exists a, nth_error (snd i) (offset (fst i) (ip ++ [j])) = Some a /\
         nth_error (snd y) (offset (fst y) (ip ++ [j])) = Some (Rmax a 0) /\ nth_error (snd y) (offset (fst y) (ip ++ [k + j]%nat)) = Some (Rmax (- a) 0)) /\
  (forall x' d, evalR q x' = Some (fst i, d) -> length d = prod (fst i) ->
     evalR q (e_hypot n x x') = Some (fst i, map2 (fun a b => sqrt (a * a + b * b)) (snd i) d) /\
     forall eps, 0 < eps ->
       exists f : R -> R -> R, evalR q (e_divide dbg eps n x x') = Some (fst i, map2 f (snd i) d) /\
         (forall a b, eps <= Rabs b -> f a b = a / b) /\ (forall a b, 0 < b <= eps -> f a b = a / eps) /\ (forall a b, - eps <= b <= 0 -> f a b = - (a / eps))).
Proof.
  intros n x i E Si Ni. unfold sized in Si. rewrite (val_eta i) in E. set (sh := fst i) in *. set (d0 := snd i) in *.
  split; [|split; [|split]].
  - unfold e_swish. ops. rewrite (eval_bin q _ _ _ _ _ _ E (eval_ew _ _ _ _ _ _ _ E)). cbn [apply2 op_product fst snd].
    rewrite product_same by (rewrite ?map_length; assumption). do 2 f_equal. rewrite map2_self. apply map_ext. intros a. unfold sigma. lra.
  - unfold e_tank_shrink, e_minus. ops. rewrite (eval_bin q _ _ _ _ _ _ E (eval_ew _ _ _ _ _ _ _ (eval_ew _ _ _ _ _ _ _ E))). cbn [apply2 fst snd].
    rewrite plus_same by (rewrite ?map_length; assumption). do 2 f_equal. rewrite map_map, map2_self. apply map_ext. intros a. lra.
  - intros p k Ep. unfold e_crelu. ops. rewrite (eval_bin q _ _ _ _ _ _ (eval_ew _ _ _ _ _ _ _ E) (eval_ew _ _ _ _ _ _ _ (eval_ew _ _ _ _ _ _ _ E))). cbn [apply2 op_concat fst snd arr_of].
    rewrite map_map. assert (Np : prod p <> 0%nat) by (rewrite Ep, prod_app in Ni; nia).
    destruct (concatenate_at 0 dbg (Arr sh (map (fun x => Rmax x 0) d0)) (Arr sh (map (fun x => Rmax (- x) 0) d0)) None p k k []) as (c & Ec & Sc & Wc & Hc);
      try (unfold wf; cbn [ashape adata]; rewrite ?map_length; assumption); try assumption.
    { right. split; [reflexivity|]. rewrite app_length. cbn [length]. lia. }
    unfold arr_of. cbn [fst snd]. rewrite Ec. exists (val_of_arr c). split; [reflexivity|]. unfold val_of_arr. cbn [fst snd]. split; [exact Sc|]. split; [exact Wc|].
    intros ip j Hip Hj. destruct (Hc ip j [] Hip (Forall2_nil _)) as [H1 H2]. specialize (H1 Hj). specialize (H2 Hj). unfold at_index in H1, H2. cbn [ashape adata] in H1, H2.
    assert (Lt : (offset sh (ip ++ [j]) < length d0)%nat) by (rewrite Si; apply valid_offset_lt; rewrite Ep; apply Forall2_app; [exact Hip|now repeat constructor]).
    apply nth_error_Some in Lt. destruct (nth_error d0 (offset sh (ip ++ [j]))) as [a|] eqn:Ea; [|now destruct Lt]. exists a. split; [reflexivity|].
    rewrite H1, H2, !nth_error_map, Ea. split; reflexivity.
  - intros x' d E' Ld. split.
    + unfold e_hypot. ops. erewrite eval_ew; [|rewrite (eval_bin q _ _ _ _ _ _ (eval_ew _ _ _ _ _ _ _ E) (eval_ew _ _ _ _ _ _ _ E')); cbn [apply2 fst snd]; apply plus_same; now rewrite map_length].
      cbn [fst snd]. do 2 f_equal. assert (Ld0 : length d0 = length d) by lia. clear - Ld0. revert d Ld0. induction d0 as [|a l IH]; intros [|b d] L; try discriminate L; [reflexivity|]. cbn [map map2]. now rewrite IH by (cbn in L; lia).
    + intros eps Pe. exists (fun a b => a * (if above b 0 then 1 / Rmax eps b else 1 / Rmin (- eps) b)). split; [|split; [|split]].
      * unfold e_divide. ops. rewrite (eval_bin q _ _ _ _ _ _ E (eval_ew _ _ _ _ _ _ _ E')). cbn [apply2 op_product fst snd].
        rewrite product_same by (rewrite ?map_length; assumption). do 2 f_equal. assert (Ld0 : length d0 = length d) by lia. clear - Ld0. revert d Ld0.
        induction d0 as [|a l IH]; intros [|b d] L; try discriminate L; [reflexivity|]. cbn [map map2]. now rewrite IH by (cbn in L; lia).
      * intros a b Hb. unfold Rabs in Hb. destruct (Rcase_abs b).
        { rewrite above_false by lra. rewrite Rmin_right by lra. unfold Rdiv. ring. }
        { rewrite above_true by lra. rewrite Rmax_right by lra. unfold Rdiv. ring. }
      * intros a b Hb. rewrite above_true by lra. rewrite Rmax_left by lra. unfold Rdiv. ring.
      * intros a b Hb. rewrite above_false by lra. rewrite Rmin_left by lra. field. lra.
Qed.

(** C71: mish and lisht multiply by *, which is the matrix product: they are defined only on square matrices, and there they are not the
    activation functions that they are named after. *)
Theorem C71_matrix_products : forall n x m k f, has q x m k f ->
  (m = k -> has q (e_mish n x) m m (fun i j => rsum (tab m (fun l => f i l * tanh (ln (1 + exp (f l j)))))) /\
            has q (e_lisht n x) m m (fun i j => rsum (tab m (fun l => f i l * tanh (f l j))))) /\
  (m <> k -> evalR q (e_mish n x) = None /\ evalR q (e_lisht n x) = None).
Proof.
  intros n x m k f H.
  assert (T : has q (EUn (1 + n) op_tanh (EUn n op_softplus x)) m k (fun i j => tanh (ln (1 + exp (f i j))))).
  { apply (has_ew q _ _ _ m k (fun i j => ln (1 + exp (f i j))) tanh); [reflexivity|]. apply (has_ew q n op_softplus x m k f (fun x => ln (1 + exp x))); [reflexivity|exact H]. }
  assert (T' : has q (EUn n op_tanh x) m k (fun i j => tanh (f i j))) by (apply (has_ew q n op_tanh x m k f tanh); [reflexivity|exact H]).
  split.
  - intros <-. split; apply has_matmul; assumption.
  - intros Nk. assert (Z : forall g, apply2 op_matmul (mat m k f) (mat m k g) = None).
    { intros g. cbn [apply2 op_matmul mat fst snd]. unfold pure2, multiply, TensorModel.bind, better_assert. cbn -[Nat.eqb prod tab2 repeat]. cbn. rewrite (proj2 (Nat.eqb_neq k m)) by congruence. match goal with |- match match ?z with _ => _ end with _ => _ end = _ => destruct z as [[? ?]| |]; reflexivity end. }
    unfold has in *. split; [unfold e_mish; rewrite (eval_bin q _ _ _ _ _ _ H T); apply Z|unfold e_lisht; rewrite (eval_bin q _ _ _ _ _ _ H T'); apply Z].
Qed.

End Values.
Print Assumptions C71_values.
Print Assumptions C71_matrix_products.

(** ** swish of a variable *)

(** replacing one element of a list that a function is mapped over *)
Lemma map_upd (f : R -> R) l p t : map f (upd l p t) = upd (map f l) p (f t).
Proof. revert p. induction l as [|x l IH]; intros [|p]; cbn [upd map]; try reflexivity. now rewrite IH. Qed.

Lemma inner_upd g l p t : (p < length l)%nat -> length g = length l -> inner g (upd l p t) = inner g l + nth p g 0 * (t - nth p l 0).
Proof.
  revert g p. induction l as [|x l IH]; intros g p Hp Lg; [cbn in Hp; lia|]. destruct g as [|y g]; [discriminate Lg|]. destruct p as [|p].
  - cbn [upd nth]. unfold inner. cbn [map2 rsum]. cbn. ring.
  - cbn [upd nth]. unfold inner in *. cbn [map2]. change (rsum (?a :: ?b)) with (a + rsum b). rewrite IH by (cbn in *; lia). ring.
Qed.

(** <g, f mapped over the elements of v>, as a function of element p *)
Lemma mapped_derive (f : R -> R) g l p d : (p < length l)%nat -> length g = length l -> is_derive f (nth p l 0) d ->
  is_derive (fun t => inner g (map f (upd l p t))) (nth p l 0) (nth p g 0 * d).
Proof.
  intros Hp Lg Hd. apply (is_derive_ext (fun t => inner g (map f l) + nth p g 0 * (f t - nth p (map f l) 0))).
  { intros t. symmetry. rewrite map_upd. apply inner_upd; now rewrite map_length. }
  assert (D : is_derive (fun t => f t - nth p (map f l) 0) (nth p l 0) (d - 0)) by (apply (is_derive_minus (K := R_AbsRing) (V := R_NormedModule)); [exact Hd|apply @is_derive_const]).
  rewrite Rminus_0_r in D. pose proof (is_derive_scal _ _ (nth p g 0) _ D) as D2.
  replace (nth p g 0 * d) with (0 + nth p g 0 * d) by ring. apply (is_derive_plus (K := R_AbsRing) (V := R_NormedModule)); [apply @is_derive_const|exact D2].
Qed.

Lemma sigma_pos x : 0 < 1 + exp (- x). Proof. pose proof (exp_pos (- x)). lra. Qed.

Lemma swish_derive x : is_derive (fun x => x * sigma x) x (sigma x + x * sigma x * (1 - sigma x)).
Proof.
  unfold sigma. AutoDerive.auto_derive; [pose proof (sigma_pos x); lra|]. pose proof (sigma_pos x). field. lra.
Qed.

Section Train.
Variable dbg : bool.
Variable eps : R.
Notation run := (GraphModel.run 0 1 Rplus Rmult dbg).
Notation backs := (GradSpec.backs 0 1 Rplus Rmult Ropp rleb eps dbg).

(** C71: for a variable without regularisers the gradient of swish is g times its derivative: the variable may occur twice, unlike an
    operator (below). *)
Theorem C71_swish_gradient n v s who g :
  separate (e_swish dbg n (EVar v)) s who -> graded (e_swish dbg n (EVar v)) s -> training s = true ->
  let sh := shape (vdata (vars s v)) in
  sized (sh, data_of s v) -> sh <> [] -> prod sh <> 0%nat ->
  (forall k, trainable (vobjs s k) = true /\ l1 (vobjs s k) < eps /\ l2 (vobjs s k) < eps) ->
  fst g = sh -> sized g ->
  exists t s1 s2, run (e_swish dbg n (EVar v)) s = Ok (t, s1) /\ val_of (hp s1) t = (sh, map (fun x => x * sigma x) (data_of s v)) /\
    backs (e_swish dbg n (EVar v)) [g] s1 = Ok (tt, s2) /\
    forall p, (p < prod sh)%nat -> let x := nth p (data_of s v) 0 in
      nth p (grad_of s2 v) 0 = nth p (snd g) 0 * (sigma x + x * sigma x * (1 - sigma x)).
Proof.
  intros Sep Gd Tr sh Sz Ns Np Reg Eg Sg. set (e := e_swish dbg n (EVar v)) in *.
  assert (Ev : evalR (env_of s) (EVar v) = Some (sh, data_of s v)) by reflexivity.
  destruct (C71_values dbg (env_of s) n (EVar v) _ Ev Sz Np) as (Ey & _). fold e in Ey. cbn [fst snd] in Ey.
  assert (Eu : evalR (env_of s) (EUn n op_sigmoid (EVar v)) = Some (sh, map (fun x => 1 / (1 + exp (- x))) (data_of s v))) by reflexivity.
  unfold sized in Sz. cbn [fst snd] in Sz.
  assert (Nd : data_of s v <> []) by (intros Z; rewrite Z in Sz; cbn in Sz; congruence).
  assert (T : trainable_tree e s).
  { split; [discriminate|]. split; [cbn [ids e e_swish app]; repeat constructor; cbn; lia|]. split; [|split].
    - intros k x H _. apply At_all in H. cbn [all_at e e_swish app] in H.
      repeat (destruct H as [H|H]; [injection H as <- <-; eexists|]); try now destruct H.
      + split; [exact Ey|]. cbn [fst snd]. rewrite map_length. split; [exact Sz|]. now destruct (data_of s v).
      + split; [exact Ev|]. split; [exact Sz|exact Nd].
      + split; [exact Eu|]. cbn [fst snd]. rewrite map_length. split; [exact Sz|]. now destruct (data_of s v).
      + split; [exact Ev|]. split; [exact Sz|exact Nd].
    - intros k m l r H. apply At_all in H. cbn in H. repeat (destruct H as [H|H]; [discriminate H|]). destruct H.
    - intros k m l r H. apply At_all in H. cbn in H. repeat (destruct H as [H|H]; [discriminate H|]). destruct H. }
  assert (Rt : right_everywhere dbg (env_of s) e).
  { split.
    - intros k m o x i H Hi. apply At_all in H. cbn [all_at e e_swish app] in H. repeat (destruct H as [H|H]; [try discriminate H|]); [|now destruct H].
      injection H as <- <- <- <-. rewrite Ev in Hi. injection Hi as <-. pose proof (C30_right_everywhere (sh, data_of s v) 0 Sz) as F. rewrite Forall_forall in F. apply F. cbn; tauto.
    - intros k m o l r a b H Hi. apply At_all in H. cbn [all_at e e_swish app] in H. repeat (destruct H as [H|H]; [try discriminate H|]); [|now destruct H].
      injection H as <- <- <- <- <-. assert (Ep : operandsR (env_of s) (EVar v) (EUn n op_sigmoid (EVar v)) = Some ((sh, data_of s v), (sh, map (fun x => 1 / (1 + exp (- x))) (data_of s v)))) by reflexivity.
      rewrite Ep in Hi. injection Hi as <- <-. apply C31_right; cbn [fst snd]; try assumption.
      + unfold sized. cbn [fst snd]. now rewrite map_length.
      + left. split; [split; [lia|now left]|]. exists 0%nat. apply padded_self. }
  destruct (C27_gradient dbg eps e s who g T Sep Gd Rt Tr) as (y & Ey' & H). rewrite Ey in Ey'. injection Ey' as <-. cbn [fst snd] in H.
  destruct (H Eg Sg) as (t & s1 & s2 & R1 & V1 & R2 & D). exists t, s1, s2. split; [exact R1|]. split; [exact V1|]. split; [exact R2|].
  intros p Hp x. assert (Hv : At e (Some (1 + n, false)%nat) (EVar v)) by (eapply At_left, At_root).
  specialize (D _ v p Hv (fun k' _ => proj1 (Reg k')) Hp). cbv zeta in D. fold x in D. specialize (D (or_intror (fun k' _ => proj1 (proj2 (Reg k'))))).
  assert (D' : is_derive (fun x => CalcSpec.paired (snd g) (evalR (nudge (env_of s) v p x) e) + cost eps (vobjs s) v (uses None e) x) x (nth p (snd g) 0 * (sigma x + x * sigma x * (1 - sigma x)))).
  { apply (is_derive_ext (fun t => inner (snd g) (map (fun x => x * sigma x) (upd (data_of s v) p t)))).
    - intros t'. assert (Ec : cost eps (vobjs s) v (uses None e) t' = 0).
      { unfold cost. cbn [uses e e_swish app map fst snd]. rewrite Nat.eqb_refl. unfold cost1, rleb. destruct (Reg (Some (1 + n, false)%nat)) as (_ & A1 & A2). destruct (Reg (Some (n, false))) as (_ & B1 & B2).
        repeat (destruct (Rle_dec _ _); [lra|]). cbn. ring. }
      rewrite Ec, Rplus_0_r.
      assert (Eq : evalR (nudge (env_of s) v p t') (EVar v) = Some (sh, upd (data_of s v) p t')) by (unfold evalR; cbn [eval nudge e_var]; now rewrite Nat.eqb_refl).
      destruct (C71_values dbg (nudge (env_of s) v p t') n (EVar v) _ Eq) as (Eq' & _); [unfold sized; cbn [fst snd]; now rewrite upd_length|exact Np|]. fold e in Eq'. rewrite Eq'. reflexivity.
    - apply mapped_derive; [now rewrite Sz|unfold sized in Sg; rewrite Eg in Sg; congruence|apply swish_derive]. }
  now rewrite <- (is_derive_unique _ _ _ D), <- (is_derive_unique _ _ _ D').
Qed.

End Train.
Print Assumptions C71_swish_gradient.

(** ** tank_shrink of a variable *)

Section Tank.
Variable dbg : bool.
Notation yields := (yields 0 1 Rplus Rmult dbg).

(** a unary operator whose result goes into its own buffer, whether or not the buffer exists already *)
Lemma y_own n f m b e c te c1 v : c_cache c n = None -> yields e c te c1 -> f (val_of (c_hp c1) te) = Some v ->
  yields (EUn n (UNew true f m b) e) c (mkT (fst v) (match c_own c1 n with Some t => ref t | None => length (c_hp c1) end))
    (let t := mkT (fst v) (match c_own c1 n with Some t => ref t | None => length (c_hp c1) end) in
     done (owns (with_hp c1 (match c_own c1 n with Some t => upd (c_hp c1) (ref t) (snd v) | None => c_hp c1 ++ [snd v] end)) n t) n t).
Proof.
  intros N He Hf k s E. cbn [GraphModel.forward]. unfold gbind at 1. unfold query at 1.
  assert (cache s n = None) as -> by (subst c; exact N).
  unfold gbind at 1. destruct (core_put_out k None s) as (s1 & E1 & C1). rewrite E1.
  destruct (He (Some (n, false)) s1 ltac:(congruence)) as (s2 & F2 & C2). unfold gbind at 1. rewrite F2.
  unfold gbind at 1. unfold put_in1 at 1, modify.
  set (s3 := set_objs s2 _). assert (core_of s3 = c1) as C3 by exact C2. clearbody s3. clear C2 He.
  unfold gbind at 1. unfold un_forward. unfold gbind at 1, get. assert (hp s3 = c_hp c1) as Eh by (now subst c1). rewrite Eh.
  unfold gbind at 1. rewrite Hf. cbn [the gret]. unfold gret at 1. unfold into_own. assert (own s3 n = c_own c1 n) as -> by (now subst c1). rewrite Eh.
  destruct (c_own c1 n); eexists; (split; [reflexivity|]); subst c1; reflexivity.
Qed.

(** C71: tank_shrink( v ) writes its result over the variable v: after k runs the variable holds the k-th iterate of x - tanh x. *)
Theorem C71_tank_shrink_overwrites n v : forall k s x, training s = false ->
  nth_error (hp s) (ref (vdata (vars s v))) = Some x -> length x = prod (shape (vdata (vars s v))) -> x <> [] ->
  (forall t, own s n = Some t -> ref t <> ref (vdata (vars s v)) /\ (ref t < length (hp s))%nat) ->
  exists s', runs 0 1 Rplus Rmult dbg k (e_tank_shrink n (EVar v)) s = Ok s' /\ vars s' = vars s /\
    nth_error (hp s') (ref (vdata (vars s v))) = Some (map (Nat.iter k (fun x => x - tanh x)) x).
Proof.
  induction k as [|k IH]; intros s x Tr Ex Lx Nx Ow.
  { exists s. split; [reflexivity|]. split; [reflexivity|]. cbn [Nat.iter]. now rewrite map_id. }
  set (sh := shape (vdata (vars s v))) in *. set (a := ref (vdata (vars s v))) in *.
  assert (Ed : vdata (vars s v) = mkT sh a) by (unfold sh, a; now destruct (vdata (vars s v))).
  set (c0 := Core (hp s) (fun _ => None) (own s) (vars s) (holders s) (training s)).
  assert (Y0 : yields (EVar v) c0 (mkT sh a) c0) by (apply y_leaf; [exact Tr|exact Ed]).
  assert (La : (a < length (hp s))%nat) by (apply nth_error_Some; congruence).
  assert (Y1 := y_own n (ew tanh) IntoOwn (back_out (fun o g => g * (1 - o * o))) (EVar v) c0 (mkT sh a) c0 (sh, map tanh x) eq_refl Y0).
  assert (Ef : ew tanh (val_of (c_hp c0) (mkT sh a)) = Some (sh, map tanh x)) by (unfold ew, val_of; cbn [shape ref c_hp c0 fst snd]; now rewrite (nth_error_nth _ _ [] Ex)).
  specialize (Y1 Ef). cbn [fst snd c_own c_hp c0] in Y1.
  set (b := match own s n with Some t => ref t | None => length (hp s) end) in *.
  set (h1 := match own s n with Some t => upd (hp s) (ref t) (map tanh x) | None => hp s ++ [map tanh x] end) in *.
  assert (Hb : b <> a /\ nth_error h1 a = Some x /\ nth_error h1 b = Some (map tanh x) /\ (b < length h1)%nat).
  { unfold b, h1. destruct (own s n) as [t|] eqn:Eo.
    - destruct (Ow t eq_refl) as [O1 O2]. split; [exact O1|]. rewrite nth_error_upd_other by congruence. split; [exact Ex|]. rewrite nth_error_upd_same by exact O2. split; [reflexivity|]. now rewrite upd_length.
    - split; [lia|]. rewrite nth_error_app1 by exact La. split; [exact Ex|]. rewrite nth_error_app2, Nat.sub_diag by lia. split; [reflexivity|]. rewrite app_length. cbn. lia. }
  destruct Hb as (Nb & Ea1 & Eb1 & Lb1). cbv zeta in Y1. set (c1 := done (owns (with_hp c0 h1) n (mkT sh b)) n (mkT sh b)) in *.
  assert (Y2 := y_un 0 1 Rplus Rmult dbg (1 + n) false (ew Ropp) IntoNew (fun _ _ g => Some (fst g, map Ropp (snd g))) (EUn n op_tanh (EVar v)) c0 (mkT sh b) c1 (sh, map Ropp (map tanh x)) eq_refl Y1).
  assert (Ef2 : ew Ropp (val_of (c_hp c1) (mkT sh b)) = Some (sh, map Ropp (map tanh x))) by (unfold ew, val_of, c1; cbn [shape ref c_hp done owns with_hp fst snd]; now rewrite (nth_error_nth _ _ [] Eb1)).
  specialize (Y2 Ef2 (or_introl eq_refl)). cbv zeta iota in Y2. cbn [fst snd] in Y2. unfold c1 in Y2 at 2 3 4. cbn [c_hp done owns with_hp] in Y2.
  set (c2 := done (with_hp c1 (h1 ++ [map Ropp (map tanh x)])) (1 + n) (mkT sh (length h1))) in *.
  assert (Ea2 : nth_error (c_hp c2) a = Some x) by (unfold c2; cbn [c_hp done with_hp]; rewrite nth_error_app1 by (apply nth_error_Some; congruence); exact Ea1).
  assert (Ec2 : nth_error (c_hp c2) (length h1) = Some (map Ropp (map tanh x))) by (unfold c2; cbn [c_hp done with_hp]; now rewrite nth_error_app2, Nat.sub_diag by lia).
  assert (Y3 := y_plus 0 1 Rplus Rmult dbg (1 + (1 + n)) (EVar v) (EUn (1 + n) op_negative (EUn n op_tanh (EVar v))) c0 sh a c0 (length h1) c2 x (map Ropp (map tanh x))
    ltac:(discriminate) ltac:(discriminate) eq_refl Y0 Y2 Ea2 Ec2 ltac:(now rewrite !map_length)).
  destruct (y_run 0 1 Rplus Rmult dbg _ s _ _ Y3) as (s1 & R & C). cbn [runs]. unfold e_tank_shrink, e_minus at 1. rewrite R.
  assert (Ev : vars s1 = vars s) by (change (vars s1) with (c_vars (core_of s1)); now rewrite C).
  assert (Eh : hp s1 = upd (h1 ++ [map Ropp (map tanh x)]) a (map (fun x => x - tanh x) x)).
  { change (hp s1) with (c_hp (core_of s1)). rewrite C. cbn [c_hp done with_hp c2]. f_equal. rewrite map_map, map2_self. reflexivity. }
  assert (Eo : own s1 n = Some (mkT sh b)) by (change (own s1) with (c_own (core_of s1)); rewrite C; unfold c2, c1; cbn [c_own done owns with_hp]; unfold fupd; now rewrite Nat.eqb_refl).
  assert (La1 : (a < length (h1 ++ [map Ropp (map tanh x)]))%nat) by (rewrite app_length; cbn; assert (a < length h1)%nat by (apply nth_error_Some; congruence); lia).
  destruct (IH s1 (map (fun x => x - tanh x) x)) as (s' & R' & V' & X').
  - change (training s1) with (c_training (core_of s1)). now rewrite C.
  - rewrite Ev, Eh. fold a. now apply nth_error_upd_same.
  - rewrite map_length, Ev. exact Lx.
  - now destruct x.
  - intros t. rewrite Eo. intros [= <-]. cbn [ref]. rewrite Ev. fold a. split; [exact Nb|]. rewrite Eh, upd_length, app_length. lia.
  - exists s'. split; [exact R'|]. split; [congruence|]. rewrite Ev in X'. fold a in X'. rewrite X', map_map. f_equal. apply map_ext. intros z.
    clear. induction k as [|k IH]; [reflexivity|]. change (Nat.iter (S (S k)) (fun x => x - tanh x) z) with ((fun x => x - tanh x) (Nat.iter (S k) (fun x => x - tanh x) z)). rewrite <- IH. reflexivity.
Qed.
End Tank.
Print Assumptions C71_tank_shrink_overwrites.

(** ** Compounds of an operator *)

Lemma all_at_At (e x : expr R) : forall k0 k y, At e k0 x -> In (k, y) (all_at k0 x) -> At e k y.
Proof.
  induction x as [v|p|t|c|n o x IH|n o l IHl r IHr]; intros k0 k y H Hy; cbn [all_at In] in Hy; destruct Hy as [Hy|Hy]; try (injection Hy as <- <-; exact H); try contradiction.
  - apply (IH (Some (n, false)) k y); [|exact Hy]. eapply At_un. exact H.
  - apply in_app_iff in Hy as [Hy|Hy].
    + apply (IHl (Some (n, false)) k y); [|exact Hy]. eapply At_left. exact H.
    + apply (IHr (Some (n, true)) k y); [|exact Hy]. eapply At_right. exact H.
Qed.

Lemma all_at_cases (x : expr R) k0 k y : In (k, y) (all_at k0 x) -> (k = k0 /\ y = x) \/ (At x k y /\ k <> None).
Proof.
  assert (Nn : forall (z : expr R) m b k' y', In (k', y') (all_at (Some (m, b)) z) -> k' <> None).
  { induction z as [v|p|t|c|n o z IH|n o l IHl r IHr]; intros m b k' y' Hz; cbn [all_at In] in Hz; destruct Hz as [Hz|Hz]; try (injection Hz as <- <-; discriminate); try contradiction.
    - exact (IH _ _ _ _ Hz).
    - apply in_app_iff in Hz as [Hz|Hz]; [exact (IHl _ _ _ _ Hz)|exact (IHr _ _ _ _ Hz)]. }
  intros Hy. destruct x as [v|p|t|c|n o x|n o l r]; cbn [all_at In] in Hy; destruct Hy as [Hy|Hy]; try (injection Hy as <- <-; now left); try contradiction; right.
  - split; [|exact (Nn _ _ _ _ _ Hy)]. apply (all_at_At _ (EUn n o x) None); [apply At_root|]. now right.
  - split; [|apply in_app_iff in Hy as [Hy|Hy]; exact (Nn _ _ _ _ _ Hy)]. apply (all_at_At _ (EBin n o l r) None); [apply At_root|]. now right.
Qed.

Section Operator.
Variable dbg : bool.
Variable eps : R.
Notation run := (GraphModel.run 0 1 Rplus Rmult dbg).
Notation backs := (GradSpec.backs 0 1 Rplus Rmult Ropp rleb eps dbg).

(** C71: swish, mish and lisht of an operator that needs its input (see C28_operators) run, but their backward pass never returns: the
    operator occurs twice below each of them. *)
Theorem C71_of_operator e n x : e = e_swish dbg n x \/ e = e_mish n x \/ e = e_lisht n x -> usual x -> forall s who,
  consistent e -> runnable 0 1 Rplus Rmult e s -> separate e s who -> graded e s ->
  (forall k, in1 (objs s k) = None /\ in2 (objs s k) = None) ->
  (forall k y v, At e k y -> evalR (env_of s) y = Some v -> fst v <> []) ->
  (forall k y, At x k y -> shaped y /\ strict y) -> (forall k1 k2 y, At x k1 y -> At x k2 y -> k1 <> k2 -> shaped_missing y) ->
  forall k v, At x k (EVar v) -> trainable (vobjs s k) = true ->
  exists t s', run e s = Ok (t, s') /\ forall g, good g -> forall u s'', backs e [g] s' <> Ok (u, s'').
Proof.
  intros He (U1 & U2 & U3 & U4) s who C Rn Sep Gd H0 D Sh Mi k v Hv Tv.
  destruct (C28_operators n x x x) as (Q1 & _). destruct (Q1 (fun x => 1 / (1 + exp (- x))) (fun o g => g * o * (1 - o))) as (_ & (Sg1 & Sg2 & _) & _).
  destruct (Q1 tanh (fun o g => g * (1 - o * o))) as (_ & (Th1 & Th2 & _) & _). destruct (Q1 (fun x => ln (1 + exp x)) (fun x g => g / (1 - exp (- x)))) as ((Sp1 & Sp2 & _) & _). clear Q1.
  destruct (C28_operators (1 + n) (EUn n op_softplus x) x (EUn n op_tanh x)) as (Q1 & _ & _ & _ & _ & (M1 & M2 & _) & _). destruct (Q1 tanh (fun o g => g * (1 - o * o))) as (_ & (Ts1 & Ts2 & _) & _). clear Q1.
  destruct (C28_operators (1 + n) x x (EUn n op_sigmoid x)) as (_ & _ & _ & _ & P & _). destruct (P dbg) as (P1 & P2 & _). clear P.
  destruct (C28_operators (2 + n) x x (EUn (1 + n) op_tanh (EUn n op_softplus x))) as (_ & _ & _ & _ & _ & (N1 & N2 & _) & _).
  assert (Dec : forall k y, At e k y -> (shaped y /\ shaped_missing y) \/ y = x \/ (At x k y /\ k <> None)).
  { intros k' y H. apply At_all in H. destruct He as [->|[->| ->]]; cbn [all_at e_swish e_mish e_lisht In] in H;
    (destruct H as [H|H]; [injection H as <- <-; left; split; assumption|]); apply in_app_iff in H as [H|H].
    - apply all_at_cases in H as [[_ ->]|H]; auto.
    - cbn [In] in H. destruct H as [H|H]; [injection H as <- <-; left; split; assumption|]. apply all_at_cases in H as [[_ ->]|H]; auto.
    - apply all_at_cases in H as [[_ ->]|H]; auto.
    - cbn [In] in H. destruct H as [H|H]; [injection H as <- <-; left; split; assumption|]. destruct H as [H|H]; [injection H as <- <-; left; split; assumption|]. apply all_at_cases in H as [[_ ->]|H]; auto.
    - apply all_at_cases in H as [[_ ->]|H]; auto.
    - cbn [In] in H. destruct H as [H|H]; [injection H as <- <-; left; split; assumption|]. apply all_at_cases in H as [[_ ->]|H]; auto. }
  assert (Pl : exists k1 k2, At e k1 x /\ At e k2 x /\ k1 <> k2).
  { destruct He as [->|[->| ->]].
    - exists (Some (1 + n, false)%nat), (Some (n, false)). split; [eapply At_left, At_root|]. split; [eapply At_un, At_right, At_root|]. intros [= Q]. lia.
    - exists (Some (2 + n, false)%nat), (Some (n, false)). split; [eapply At_left, At_root|]. split; [eapply At_un, At_un, At_right, At_root|]. intros [= Q]. lia.
    - exists (Some (1 + n, false)%nat), (Some (n, false)). split; [eapply At_left, At_root|]. split; [eapply At_un, At_right, At_root|]. intros [= Q]. lia. }
  destruct Pl as (k1 & k2 & A1 & A2 & Nk).
  apply (C28_shared_operator_fails 0 1 Rplus Rmult Ropp rleb eps dbg e s who) with (x := x) (k1 := k1) (k2 := k2) (k := k) (v := v); try assumption.
  - intros c ->. destruct He as [He|[He|He]]; discriminate He.
  - intros k' y H. destruct (Dec k' y H) as [[Q _]|[->|[Q _]]]; [exact Q|exact U1|exact (proj1 (Sh _ _ Q))].
  - intros k1' k2' y B1 B2 Nk'. destruct (Dec _ _ B1) as [[_ Q]|[->|[Q1 _]]]; [exact Q|exact U2|]. destruct (Dec _ _ B2) as [[_ Q]|[->|[Q2 _]]]; [exact Q|exact U2|]. exact (Mi _ _ _ Q1 Q2 Nk').
  - intros k' y H. exact (proj2 (Sh _ _ H)).
Qed.
End Operator.
Print Assumptions C71_of_operator.

Lemma tanh_pos x : 0 < x -> 0 < tanh x.
Proof.
  intros H. unfold tanh, sinh, cosh. pose proof (exp_pos x). pose proof (exp_pos (- x)). assert (exp (- x) < exp x) by (apply exp_increasing; lra).
  apply Rdiv_lt_0_compat; lra.
Qed.

(** C71: mish and lisht are not what their names say: not x tanh( softplus x ) and x tanh x element by element. *)
Theorem C71_elementwise_refuted : exists q x d, evalR q x = Some ([2; 2]%nat, d) /\ length d = 4%nat /\
  forall n, evalR q (e_mish n x) <> Some ([2; 2]%nat, map (fun a => a * tanh (ln (1 + exp a))) d) /\ evalR q (e_lisht n x) <> Some ([2; 2]%nat, map (fun a => a * tanh a) d).
Proof.
  exists (Env (fun _ => ([2; 2]%nat, [0; 1; 1; 0])) (fun _ => None) (fun _ => ([], []))), (EVar 0), [0; 1; 1; 0]. split; [reflexivity|]. split; [reflexivity|]. intros n.
  set (q := Env _ _ _). assert (H : has q (EVar 0) 2 2 (fun i j => if (i =? j)%nat then 0 else 1)) by reflexivity.
  destruct (C71_matrix_products q n (EVar 0) 2 2 _ H) as [P _]. destruct (P eq_refl) as [P1 P2]. unfold has in P1, P2. split.
  - rewrite P1. intros Q. apply (f_equal (fun o => match o with Some v => nth 0 (snd v) 0 | None => 0 end)) in Q. cbn in Q.
    assert (0 < ln (1 + exp 1)) by (rewrite <- ln_1; pose proof (exp_pos 1); apply ln_increasing; lra). pose proof (tanh_pos _ H0). lra.
  - rewrite P2. intros Q. apply (f_equal (fun o => match o with Some v => nth 0 (snd v) 0 | None => 0 end)) in Q. cbn in Q. pose proof (tanh_pos 1 ltac:(lra)). lra.
Qed.
Print Assumptions C71_elementwise_refuted.

(** ** Cases *)
Module Case.
Local Open Scope nat_scope.
Definition y : expr R := EBin 0 op_matmul (EHold 0) (EVar 0).
Definition s : st R :=
  St [[1; 2]; [3; 5; 0; -1]; [0; 0; 0; 0]]%R (fun _ => None) (fun _ => Obj None None None) (fun _ => VObj true true 0%R 0%R)
     (fun _ => VState (mkT [2; 2] 1) (mkT [2; 2] 2))
     (fun _ => Some (mkT [1; 2] 0)) (fun _ => None) (fun _ _ => None) true [].
Definition who (r : nat) : owner := match r with 2 => OGrad 0 | _ => OLeaf end.
Ltac cases H := apply At_all in H; cbn in H; repeat (destruct H as [H|H]; [try discriminate H|]); [..|now destruct H].

(** swish( W ): all hypotheses of C71_swish_gradient hold *)
Example swish_variable : exists t s1 s2, run 0%R 1%R Rplus Rmult true (e_swish true 0 (EVar 0)) s = Ok (t, s1) /\
  backs 0%R 1%R Rplus Rmult Ropp rleb 1%R true (e_swish true 0 (EVar 0)) [([2; 2], [1; 0; 0; 1]%R)] s1 = Ok (tt, s2) /\
  nth 3 (grad_of s2 0) 0%R = (1 * (sigma (-1) + -1 * sigma (-1) * (1 - sigma (-1))))%R.
Proof.
  destruct (C71_swish_gradient true 1%R 0 0 s who ([2; 2], [1; 0; 0; 1]%R)) as (t & s1 & s2 & R1 & _ & R2 & G).
  - split; [|split; [|split; [|split]]].
    + intros k v H. cases H; injection H as <- <-; cbn; (split; [reflexivity|split; [reflexivity|lia]]).
    + intros k p t H [= <-]. reflexivity.
    + intros k t H. cases H.
    + discriminate.
    + discriminate.
  - intros k v H. cases H; injection H as <- <-; split; reflexivity.
  - reflexivity.
  - reflexivity.
  - discriminate.
  - discriminate.
  - intros k. cbn. split; [reflexivity|]. split; lra.
  - reflexivity.
  - reflexivity.
  - exists t, s1, s2. split; [exact R1|]. split; [exact R2|]. exact (G 3 ltac:(cbn; lia)).
Qed.

(** swish( x W ): its backward pass fails *)
Example swish_layer : exists t s', run 0%R 1%R Rplus Rmult true (e_swish true 1 y) s = Ok (t, s') /\
  forall g, good g -> forall u s'', backs 0%R 1%R Rplus Rmult Ropp rleb 1%R true (e_swish true 1 y) [g] s' <> Ok (u, s'').
Proof.
  pose proof (C28_operators 0 (EVar 0) (EHold 0) (EVar 0)) as (_ & _ & _ & _ & _ & U & _).
  apply (C71_of_operator true 1%R (e_swish true 1 y) 1 y (or_introl eq_refl) U s who) with (k := Some (0, true)) (v := 0).
  - intros k1 k2 a b n H1 H2. cases H1; cases H2; injection H1 as <- <-; injection H2 as <- <-; cbn; congruence.
  - split.
    + intros k x H _. apply At_all in H. cbn in H.
      repeat (destruct H as [H|H]; [injection H as <- <-; eexists; (split; [cbv -[Rplus Rmult Rdiv Ropp IZR Rinv exp]; reflexivity|]); (split; [reflexivity|discriminate])|]). destruct H.
    + intros k n l r H. cases H.
  - split; [|split; [|split; [|split]]].
    + intros k v H. cases H; injection H as <- <-; cbn; (split; [reflexivity|split; [reflexivity|lia]]).
    + intros k p t H [= <-]. reflexivity.
    + intros k t H. cases H.
    + discriminate.
    + discriminate.
  - intros k v H. cases H; injection H as <- <-; split; reflexivity.
  - auto.
  - intros k x v H Ev. apply At_all in H. cbn in H.
    repeat (destruct H as [H|H]; [injection H as <- <-; cbv -[Rplus Rmult Rdiv Ropp IZR Rinv exp] in Ev; injection Ev as <-; discriminate|]). destruct H.
  - intros k x H. cases H; injection H as <- <-; (split; [try exact I; apply U|try exact I; apply U]).
  - intros k1 k2 x H1 H2. cases H1; cases H2; injection H1 as <- <-; injection H2 as <- ; try congruence; intros N; now destruct N.
  - eapply At_right, At_root.
  - reflexivity.
Qed.

(** tank_shrink( W ), three runs in prediction *)
Example tank_three : exists s', runs 0%R 1%R Rplus Rmult true 3 (e_tank_shrink 0 (EVar 0)) (set_training s false) = Ok s' /\
  nth_error (hp s') 1 = Some (map (Nat.iter 3 (fun x => x - tanh x)%R) [3; 5; 0; -1]%R).
Proof.
  destruct (C71_tank_shrink_overwrites true 0 0 3 (set_training s false) [3; 5; 0; -1]%R) as (s' & R & _ & X); [reflexivity|reflexivity|reflexivity|discriminate|discriminate|]. exists s'. split; assumption.
Qed.
End Case.
