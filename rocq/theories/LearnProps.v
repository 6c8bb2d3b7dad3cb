(** C79: training a chain of layers.  The gradients are the derivatives of the function that the layers denote. *)
From Coq Require Import List Arith Lia Bool PeanoNat NArith ZArith Reals Lra.
From Coquelicot Require Import Rcomplements Rbar Hierarchy Derive.
From Coquelicot Require AutoDerive.
From Verif Require Import ListBase Loops TensorModel TensorSpec TensorProofs ArrayModel ArrayProofs LayerModel LayerSpec LayerProofs GraphModel GraphSpec GraphProofs GradSpec GradProofs OpModel CalcSpec
  OpProofs OpProps GradProps ComplexModel LossModel LossSpec LossProps DeclModel DeclSpec DeclProofs DeclProofs2 NetModel NetSpec ValueModel ValueSpec NetProofs NetProofs2 NetProofs3 NetProps ValueProofs ValueProofs2
  ValueProofs3 ValueProps LearnModel LearnSpec LearnProofs LearnProofs2 LearnProofs3.
Import ListNotations.
Local Open Scope nat_scope.

Lemma given_nudge s ps bs q v i x : given s ps bs q -> given s ps bs (nudge q v i x).
Proof.
  intros [A H]. split; [exact A|]. intros k p E. destruct (H k p E) as [S L]. cbn [leaf_of ashape adata] in *. unfold nudge. cbn [e_var].
  destruct (Nat.eqb_spec k v) as [->|]; [|split; assumption]. cbn [fst snd]. split; [assumption|]. cbn [ashape adata]. now rewrite upd_length.
Qed.

Lemma given_input s ps bs q : given s ps bs q -> exists v, e_hold q 0 = Some v.
Proof. intros [[A _] _]. cbn [leaf_of] in A. destruct (e_hold q 0) as [v|]; [now exists v|discriminate]. Qed.

Lemma teachable_ready act l v deep : teachable act l v -> ready act deep l v.
Proof. destruct l; cbn [teachable ready]; tauto. Qed.

Lemma ready_shape act l v v' : ready act true l v -> fst v = fst v' -> ready act false l v'.
Proof. intros H E. destruct l; cbn [ready] in *; try tauto; [split; [tauto|discriminate]|]. now rewrite <- E. Qed.

Section Chain.
Variables (act : (R -> R) -> uop R) (dbg : bool) (eps : R) (m : nat) (s : list nat) (ls : list layer1) (ts : list (list nat)) (ps : list (list nat)) (ns : list ex) (bs : nat).
Hypotheses (M : (N.of_nat m < 2147483648)%N) (W : within m s) (WF : well_formed m [s] (chain ls) ts ps) (B : build dbg (map N.of_nat s) (chain ls) = Ok (Net ns ps))
  (B1 : 1 <= bs) (B2 : (N.of_nat (bs * m) < 4294967296)%N).

Lemma denoted_shape q q' k : given s ps bs q -> given s ps bs q' -> k <= length ls -> fst (denoted eps ls s bs (length ps) q k) = fst (denoted eps ls s bs (length ps) q' k).
Proof.
  intros G G' Hk. destruct (C78_networks_compute dbg m s (chain ls) ts ps M W WF) as (ns' & B' & _ & H). rewrite B in B'. injection B' as <-.
  destruct (all_sound dbg m s ls ts ps ns M W WF B) as [Sn _]. pose proof (Forall2_len _ _ _ Sn) as Ln.
  destruct (built dbg m s ls ps ns M W B) as (_ & E & _).
  destruct (chain_ind dbg m s M ls 0 [s] ts ps [Leaf 0] [] ns WF ltac:(auto) (leaf_sound m s W) eq_refl E (fun _ _ _ => True)) as (L1 & L2 & _); [easy|easy|].
  cbn [Nat.add] in L1, L2.
  destruct (nth_error ns k) as [e|] eqn:Ee; [|apply nth_error_None in Ee; lia]. destruct (nth_error ts k) as [t|] eqn:Et; [|apply nth_error_None in Et; lia].
  destruct (H bs (leaf_of q) eps B1 B2 G k e Ee) as ((y & C) & _). destruct (H bs (leaf_of q') eps B1 B2 G' k e Ee) as ((y' & C') & _).
  rewrite <- (value_denoted dbg eps m s ls ts ps ns bs M W WF B B1 B2 q k e y G Ee C), <- (value_denoted dbg eps m s ls ts ps ns bs M W WF B B1 B2 q' k e y' G' Ee C').
  cbn [val_arr fst]. destruct (computes_shape dbg eps m s ls ts ps ns bs M W WF B B1 B2 q k e t y G Ee Et C) as [_ ->].
  now destruct (computes_shape dbg eps m s ls ts ps ns bs M W WF B B1 B2 q' k e t y' G' Ee Et C') as [_ ->].
Qed.

(** the last expression, in an environment where every layer can be taught: there, and after any change of a variable's element *)
Lemma last_expression q : given s ps bs q -> (forall k l, nth_error ls k = Some l -> teachable act l (denoted eps ls s bs (length ps) q k)) ->
  (forall v, v < length ps -> mentions (last ns (Leaf 0)) (S v)) /\
  forall n, (evalR q (graph act n (last ns (Leaf 0))) = Some (denoted eps ls s bs (length ps) q (length ls)) /\ fine dbg q (graph act n (last ns (Leaf 0)))) /\
    forall v i x, evalR (nudge q v i x) (graph act n (last ns (Leaf 0))) = Some (denoted eps ls s bs (length ps) (nudge q v i x) (length ls)).
Proof.
  intros G T.
  assert (L : forall e, length ns = S (length ls) -> nth_error ns (length ls) = Some e -> e = last ns (Leaf 0)).
  { intros e Ll E. destruct (exists_last (l := ns)) as (l' & a & ->); [intros ->; discriminate|]. rewrite app_length in Ll. cbn [length] in Ll. rewrite last_last.
    rewrite nth_error_app2 in E by lia. replace (length ls - length l') with 0 in E by lia. cbn [nth_error] in E. congruence. }
  destruct (chain_last act dbg eps m s ls ts ps ns bs M W WF B B1 B2 true q G (given_input _ _ _ _ G)) as (e & t & Ee & Ll & Mn & _ & H).
  { intros k l Hl. apply teachable_ready. now apply T. }
  pose proof (L e Ll Ee). subst e. split; [exact Mn|]. intros n. split; [destruct (H n); auto|]. intros v i x. pose proof (given_nudge s ps bs q v i x G) as G'.
  destruct (chain_last act dbg eps m s ls ts ps ns bs M W WF B B1 B2 false (nudge q v i x) G' (given_input _ _ _ _ G')) as (e & t' & Ee' & _ & _ & _ & H').
  { intros k l Hl. apply (ready_shape act l (denoted eps ls s bs (length ps) q k)); [apply teachable_ready; now apply T|].
    apply denoted_shape; try assumption. apply Nat.lt_le_incl, nth_error_Some. congruence. }
  rewrite Ee in Ee'. injection Ee' as <-. apply H'.
Qed.
End Chain.

(** A well formed chain of layers can be built.  Its last expression, run in the training phase on a batch for which every layer can be
    taught, returns what the layers denote; backward( g ) then gives every element of every variable the derivative of
    <g, what the layers denote>, as a function of that element, plus the regularisers' cost. *)
Theorem C79_gradient act dbg eps m s ls ts ps :
  (N.of_nat m < 2147483648)%N -> within m s -> well_formed m [s] (chain ls) ts ps ->
  exists ns, build dbg (map N.of_nat s) (chain ls) = Ok (Net ns ps) /\
    let e := graph act 0 (last ns (Leaf 0)) in
    forall bs st who g, 1 <= bs -> (N.of_nat (bs * m) < 4294967296)%N -> supplied (leaf_of (env_of st)) (bs :: s) ps ->
      let f q := denoted eps ls s bs (length ps) q (length ls) in
      (forall k l, nth_error ls k = Some l -> teachable act l (denoted eps ls s bs (length ps) (env_of st) k)) ->
      separate e st who -> graded e st -> training st = true -> fst g = fst (f (env_of st)) -> sized g ->
      exists t s1 s2, run 0%R 1%R Rplus Rmult dbg e st = Ok (t, s1) /\ val_of (hp s1) t = f (env_of st) /\
        backs 0%R 1%R Rplus Rmult Ropp rleb eps dbg e [g] s1 = Ok (tt, s2) /\
        forall v i, v < length ps -> i < count_of st v -> (forall k, At e k (EVar v) -> trainable (vobjs st k) = true) ->
          let x0 := nth i (data_of st v) 0%R in
          (x0 <> 0%R \/ forall k, At e k (EVar v) -> (l1 (vobjs st k) < eps)%R) ->
          is_derive (fun x => inner (snd g) (snd (f (nudge (env_of st) v i x))) + cost eps (vobjs st) v (uses None e) x)%R x0 (nth i (grad_of s2 v) 0%R).
Proof.
  intros M W WF. destruct (C78_networks_compute dbg m s (chain ls) ts ps M W WF) as (ns & B & _). exists ns. split; [exact B|]. cbv zeta.
  intros bs st who g B1 B2 G T Sep Gr Tr Eg Sg.
  destruct (last_expression act dbg eps m s ls ts ps ns bs M W WF B B1 B2 (env_of st) G T) as (Mn & H). destruct (H 0) as ((E & F) & N).
  destruct (fine_trainable dbg _ st F (graph_tree act (last ns (Leaf 0)) 0)) as [Tt Rt].
  destruct (C27_gradient dbg eps _ st who g Tt Sep Gr Rt Tr) as (y & Ey & D). rewrite E in Ey. injection Ey as <-.
  destruct (D Eg Sg) as (t & s1 & s2 & R1 & V1 & R2 & K). exists t, s1, s2. split; [exact R1|]. split; [exact V1|]. split; [exact R2|].
  intros v i Hv Hi Ht Hx. destruct (mentions_at act _ _ v (Mn v Hv) 0 None (At_root _)) as (k & Hk).
  pose proof (K k v i Hk Ht Hi Hx) as De. revert De. apply is_derive_ext. intros x. rewrite N. reflexivity.
Qed.
Print Assumptions C79_gradient.

Lemma loss_ids act loss h wgt c p e : In (loss, h, wgt, c) difference_losses -> NoDup (ids (loss 0 (EHold p) (graph act 4 e))).
Proof.
  intros H. pose proof (graph_tree act e 4) as T.
  assert (I : forall i, In i (ids (graph act 4 e)) -> 4 <= i) by (intros i Hi; apply (graph_ids act e 4 i) in Hi; lia).
  cbn [difference_losses In] in H. destruct H as [E|[E|[E|[E|[]]]]]; injection E as <- _ _ _; unfold squared_loss, mean_squared_error, abs_loss, mean_absolute_error, e_minus; cbn [ids app Nat.add];
    (constructor; [cbn [In app]; intros Q; repeat (destruct Q as [Q|Q]; [lia|]); try (apply I in Q; lia); contradiction|]);
    (constructor; [cbn [In app]; intros Q; repeat (destruct Q as [Q|Q]; [lia|]); try (apply I in Q; lia); contradiction|]);
    (constructor; [cbn [In app]; intros Q; repeat (destruct Q as [Q|Q]; [lia|]); try (apply I in Q; lia); contradiction|]);
    (constructor; [cbn [In app]; intros Q; try (apply I in Q; lia); contradiction|]); exact T.
Qed.

(** One step of training: the last expression compared with a target, by squared or absolute differences (C58).  Run returns the loss of
    what the layers denote, and backward( 1 ) gives every element of every variable the derivative of c times the sum of h( target -
    what the layers denote ), plus the regularisers' cost. *)
Theorem C79_training act dbg eps m s ls ts ps loss h wgt c :
  (N.of_nat m < 2147483648)%N -> within m s -> well_formed m [s] (chain ls) ts ps -> In (loss, h, wgt, c) difference_losses ->
  exists ns, build dbg (map N.of_nat s) (chain ls) = Ok (Net ns ps) /\
    let out := graph act 4 (last ns (Leaf 0)) in
    forall bs st who p tgt target, let e := loss 0 (EHold p) out in
      1 <= bs -> (N.of_nat (bs * m) < 4294967296)%N -> supplied (leaf_of (env_of st)) (bs :: s) ps ->
      let f q := denoted eps ls s bs (length ps) q (length ls) in
      (forall k l, nth_error ls k = Some l -> teachable act l (denoted eps ls s bs (length ps) (env_of st) k)) ->
      separate out st who -> graded out st -> training st = true ->
      holders st p = Some tgt -> who (ref tgt) = OLeaf -> aside st out (ref tgt) -> nth_error (hp st) (ref tgt) = Some target ->
      shape tgt = fst (f (env_of st)) -> length target = prod (shape tgt) ->
      (forall i, i < length target -> ex_derive h (nth i target 0 - nth i (snd (f (env_of st))) 0)%R) ->
      exists t s1 s2, run 0%R 1%R Rplus Rmult dbg e st = Ok (t, s1) /\ val_of (hp s1) t = ([1], [(wgt (shape tgt) * spread h target (snd (f (env_of st))))%R]) /\
        backs 0%R 1%R Rplus Rmult Ropp rleb eps dbg e [([1], [1%R])] s1 = Ok (tt, s2) /\
        forall v i, v < length ps -> i < count_of st v -> (forall k, At e k (EVar v) -> trainable (vobjs st k) = true) ->
          let x0 := nth i (data_of st v) 0%R in
          (x0 <> 0%R \/ forall k, At e k (EVar v) -> (l1 (vobjs st k) < eps)%R) ->
          is_derive (fun x => c (shape tgt) * spread h target (snd (f (nudge (env_of st) v i x))) + cost eps (vobjs st) v (uses None e) x)%R x0 (nth i (grad_of s2 v) 0%R).
Proof.
  intros M W WF Hin. destruct (C78_networks_compute dbg m s (chain ls) ts ps M W WF) as (ns & B & _). exists ns. split; [exact B|]. cbv zeta.
  intros bs st who p tgt target B1 B2 G T Sep Gr Tr Hp Hw As Ht Et Lt Hd.
  destruct (last_expression act dbg eps m s ls ts ps ns bs M W WF B B1 B2 (env_of st) G T) as (Mn & H). destruct (H 4) as ((E & F) & N).
  destruct (fine_trainable dbg _ st F (graph_tree act (last ns (Leaf 0)) 4)) as [Tt Rt].
  assert (E' : evalR (env_of st) (graph act 4 (last ns (Leaf 0))) = Some (shape tgt, snd (denoted eps ls s bs (length ps) (env_of st) (length ls)))) by (rewrite E, Et; apply f_equal, surjective_pairing).
  destruct (C58_training dbg eps loss h wgt c 0 p tgt _ st who target _ Hin Tt Sep Gr Rt Tr (loss_ids act loss h wgt c p _ Hin) Hp Hw As Ht Lt ltac:(rewrite Et; discriminate) E' Hd)
    as (t & s1 & s2 & who2 & R1 & V1 & R2 & K & _).
  exists t, s1, s2. split; [exact R1|]. split; [exact V1|]. split; [exact R2|]. intros v i Hv Hi Ht' Hx.
  assert (Ao : exists k, At (loss 0 (EHold p) (graph act 4 (last ns (Leaf 0)))) k (graph act 4 (last ns (Leaf 0)))).
  { cbn [difference_losses In] in Hin. destruct Hin as [Q|[Q|[Q|[Q|[]]]]]; injection Q as <- _ _ _; eexists; eapply At_un, At_right, At_un, At_un, At_root. }
  destruct Ao as (k0 & Ao). destruct (mentions_at act _ _ v (Mn v Hv) 4 k0 Ao) as (k & Hk).
  destruct (K k v i Hk Ht' Hi Hx) as (l & De & Ex). unfold exactly in Ex. rewrite Ex. revert De. apply is_derive_ext. intros x. rewrite N. reflexivity.
Qed.
Print Assumptions C79_training.

(** ** Which activations can be taught *)

(** f is what an operator o does to every element; o has a right backward action everywhere *)
Definition smooth (o : uop R) (f : R -> R) : Prop := (exists own m b, o = UNew own (fun i => Some (fst i, map f (snd i))) m b) /\ forall v, sized v -> CalcSpec.right1 o v.

Theorem C79_smooth :
  Forall (fun p => smooth (fst p) (snd p))
    [(op_tanh, tanh); (op_sigmoid, fun x => 1 / (1 + exp (- x))); (op_softsign, fun x => x / (1 + Rabs x)); (op_exponential, exp); (op_sin, sin); (op_cos, cos); (op_square, fun x => x * x)]%R.
Proof.
  assert (A : forall o f, (exists own m b, o = UNew own (fun i => Some (fst i, map f (snd i))) m b) -> (forall v, sized v -> Forall (fun o => CalcSpec.right1 o v)
    [op_asinh; op_atan; op_cos; op_cosh; op_erf; op_erfc; op_exp; op_exp2; op_expm1; op_sin; op_sinh; op_tanh;
     op_negative; op_shift 0; op_scale 0; op_square; op_softsign; op_sigmoid; op_exponential] -> CalcSpec.right1 o v) -> smooth o f).
  { intros o f E H. split; [exact E|]. intros v Hv. apply H; [assumption|]. now apply C30_right_everywhere. }
  repeat (apply Forall_cons; [cbn [fst snd]; apply A; [do 3 eexists; reflexivity|]; intros v _ F; rewrite Forall_forall in F; apply F; cbn; tauto|]). constructor.
Qed.
Print Assumptions C79_smooth.

(** ** Dense, tanh, dense: two samples of two numbers, one output each *)
Module Case.
Definition ls : list layer1 := [Dense 2; Activation tanh; Dense 1].
Definition ps : list (list nat) := [[2; 2]; [1; 2]; [2; 1]; [1; 1]].
Definition act (_ : R -> R) : uop R := op_tanh.
Definition st : st R :=
  St [[1; 2; 0; -1]; [3; 5; 0; -1]; [1; 1]; [2; 1]; [7]; [0; 0; 0; 0]; [0; 0]; [0; 0]; [0]; [10; 20]]%R (fun _ => None) (fun _ => Obj None None None) (fun _ => VObj true true 0%R 0%R)
     (fun v => match v with 0 => VState (mkT [2; 2] 1) (mkT [2; 2] 5) | 1 => VState (mkT [1; 2] 2) (mkT [1; 2] 6) | 2 => VState (mkT [2; 1] 3) (mkT [2; 1] 7) | _ => VState (mkT [1; 1] 4) (mkT [1; 1] 8) end)
     (fun p => match p with 0 => Some (mkT [2; 2] 0) | _ => Some (mkT [2; 1] 9) end) (fun _ => None) (fun _ _ => None) true [].
Definition who (r : nat) : owner := match r with 5 => OGrad 0 | 6 => OGrad 1 | 7 => OGrad 2 | 8 => OGrad 3 | _ => OLeaf end.

Lemma within_small t : t <> [] -> forallb (fun n => 1 <=? n) t = true -> (prod t <=? 100) = true -> within 100 t.
Proof. intros N F L. split; [assumption|]. split; [|now apply Nat.leb_le]. apply Forall_forall. intros x Hx. apply Nat.leb_le. now apply (proj1 (forallb_forall _ _) F). Qed.

Lemma well : well_formed 100 [[2]] (chain ls) [[2]; [2]; [2]; [1]] ps.
Proof.
  unfold ps. change [[2; 2]; [1; 2]; [2; 1]; [1; 1]] with ([[2; 2]; [1; 2]] ++ [] ++ [[2; 1]; [1; 1]] ++ []).
  repeat (eapply wf_one; [reflexivity|constructor|now apply within_small|]). apply wf_done.
Qed.

Definition nodes : list ex :=
  let d := Bin Plus (Bin Matmul (Leaf 0) (Leaf 1)) (Leaf 2) in [Leaf 0; d; Un (Map tanh) d; Bin Plus (Bin Matmul (Un (Map tanh) d) (Leaf 3)) (Leaf 4)].
Lemma built : build true [2%N] (chain ls) = Ok (Net nodes ps).
Proof. reflexivity. Qed.

Lemma supply : supplied (leaf_of (env_of st)) (2 :: [2]) ps.
Proof.
  split; [split; reflexivity|]. intros k p H. destruct k as [|[|[|[|k]]]]; cbn in H; try (injection H as <-; split; reflexivity). now destruct k.
Qed.

Lemma teach eps : forall k l, nth_error ls k = Some l -> teachable act l (denoted eps ls [2] 2 (length ps) (env_of st) k).
Proof.
  intros k l H. destruct k as [|[|[|k]]]; cbn in H; [injection H as <-; exact I| |injection H as <-; exact I|now destruct k].
  injection H as <-. destruct (proj1 (proj1 (Forall_forall _ _) C79_smooth (op_tanh, tanh) (or_introl eq_refl))) as (own & mm & b & E). split; [now exists own, mm, b|].
  apply (proj2 (proj1 (Forall_forall _ _) C79_smooth (op_tanh, tanh) (or_introl eq_refl))). reflexivity.
Qed.

Ltac places H := apply At_all in H; cbn in H; repeat (destruct H as [H|H]; [try discriminate H|]); [..|now destruct H].

Lemma apart n : separate (graph act n (last nodes (Leaf 0))) st who.
Proof.
  split; [|split; [|split; [|split]]]; try discriminate.
  - intros k v H. places H; injection H as <- <-; cbn; repeat split; lia.
  - intros k p t H E. cbn in E. destruct p; injection E as <-; reflexivity.
  - intros k t H. places H.
Qed.

Lemma grades n : graded (graph act n (last nodes (Leaf 0))) st.
Proof. intros k v H. places H; injection H as <- <-; split; reflexivity. Qed.

Example C79_gradient_case :
  let e := graph act 0 (last nodes (Leaf 0)) in let f q := denoted 1 ls [2] 2 4 q 3 in
  exists t s1 s2, run 0%R 1%R Rplus Rmult true e st = Ok (t, s1) /\ val_of (hp s1) t = f (env_of st) /\
    backs 0%R 1%R Rplus Rmult Ropp rleb 1%R true e [([2; 1], [1; -3]%R)] s1 = Ok (tt, s2) /\
    forall v i, v < 4 -> i < count_of st v ->
      is_derive (fun x => inner [1; -3] (snd (f (nudge (env_of st) v i x))) + cost 1 (vobjs st) v (uses None e) x)%R (nth i (data_of st v) 0%R) (nth i (grad_of s2 v) 0%R).
Proof.
  destruct (C79_gradient act true 1 100 [2] ls _ ps ltac:(reflexivity) ltac:(now apply within_small) well) as (ns & B & H). change (map N.of_nat [2]) with [2%N] in B. rewrite built in B. injection B as <-.
  destruct (H 2 st who ([2; 1], [1; -3]%R) ltac:(lia) ltac:(reflexivity) supply (teach 1) (apart 0) (grades 0) eq_refl eq_refl eq_refl) as (t & s1 & s2 & R1 & V1 & R2 & D).
  exists t, s1, s2. split; [exact R1|]. split; [exact V1|]. split; [exact R2|]. intros v i Hv Hi. apply D; try assumption; [reflexivity|]. right. intros k _. cbn. lra.
Qed.

Example C79_training_case :
  let e := mean_squared_error 0 (EHold 1) (graph act 4 (last nodes (Leaf 0))) in let f q := denoted 1 ls [2] 2 4 q 3 in
  exists t s1 s2, run 0%R 1%R Rplus Rmult true e st = Ok (t, s1) /\
    val_of (hp s1) t = ([1], [/ 2 * spread (fun d => d * d) [10; 20] (snd (f (env_of st)))]%R) /\
    backs 0%R 1%R Rplus Rmult Ropp rleb 1%R true e [([1], [1%R])] s1 = Ok (tt, s2) /\
    forall v i, v < 4 -> i < count_of st v ->
      is_derive (fun x => / 2 * spread (fun d => d * d) [10; 20] (snd (f (nudge (env_of st) v i x))) + cost 1 (vobjs st) v (uses None e) x)%R (nth i (data_of st v) 0%R) (nth i (grad_of s2 v) 0%R).
Proof.
  destruct (C79_training act true 1 100 [2] ls _ ps mean_squared_error (fun d => d * d)%R (fun s => / elements s)%R (fun s => / samples s)%R
    ltac:(reflexivity) ltac:(now apply within_small) well (or_intror (or_introl eq_refl))) as (ns & B & H). change (map N.of_nat [2]) with [2%N] in B. rewrite built in B. injection B as <-.
  destruct (H 2 st who 1 (mkT [2; 1] 9) [10; 20]%R ltac:(lia) ltac:(reflexivity) supply (teach 1) (apart 4) (grades 4) eq_refl eq_refl eq_refl) as (t & s1 & s2 & R1 & V1 & R2 & D); try reflexivity.
  - split; [|split].
    + intros k v Hk. places Hk; injection Hk as <- <-; discriminate.
    + intros k p t Hk E. places Hk. injection Hk as <- <-. injection E as <-. discriminate.
    + intros k t Hk. places Hk.
  - intros i _. AutoDerive.auto_derive. trivial.
  - exists t, s1, s2. split; [exact R1|]. split; [exact V1|]. split; [exact R2|]. intros v i Hv Hi. apply D; try assumption; [reflexivity|]. right. intros k _. cbn. lra.
Qed.
End Case.
