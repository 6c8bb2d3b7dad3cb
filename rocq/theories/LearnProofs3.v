(** Chains of layers: their values are what they denote, and they can be trained. *)
From Coq Require Import List Arith Lia Bool PeanoNat NArith ZArith Reals Lra.
From Verif Require Import ListBase Loops TensorModel TensorSpec TensorProofs ArrayModel ArrayProofs LayerModel LayerSpec LayerProofs GraphModel GraphSpec GraphProofs GradSpec OpModel CalcSpec
  DeclModel DeclSpec DeclProofs DeclProofs2 NetModel NetSpec ValueModel ValueSpec NetProofs NetProofs2 NetProofs3 NetProps ValueProofs ValueProofs2 ValueProofs3 ValueProps
  LearnModel LearnSpec LearnProofs LearnProofs2.
Import ListNotations.
Local Open Scope nat_scope.

Definition chain_from (j : nat) (ls : list layer1) : list instr := map (fun p => Apply1 (snd p) (fst p)) (combine (seq j (length ls)) ls).

Lemma chain_from_cons j l ls : chain_from j (l :: ls) = Apply1 l j :: chain_from (S j) ls.
Proof. reflexivity. Qed.

Lemma app_keeps {A} (l l' : list A) k : k < length l -> nth_error (l ++ l') k = nth_error l k.
Proof. intros H. now apply nth_error_app1. Qed.

(** every property of expressions that the layers of a chain preserve holds of its last expression; K counts variables *)
Lemma chain_ind dbg m s : (N.of_nat m < 2147483648)%N -> forall ls j ts ts' ps1 ns ps ns',
  well_formed m ts (chain_from j ls) ts' ps1 -> Forall (within m) ts -> Forall2 (sound m s ps) ns ts -> length ns = S j ->
  steps dbg (shape_N (1 :: s)) (Net ns ps) (chain_from j ls) = Ok (Net ns' (ps ++ ps1)) -> forall P : ex -> nat -> nat -> Prop,
  (forall e, nth_error ns j = Some e -> P e j (length ps)) ->
  (forall i l e t t' ps0 K, nth_error ls i = Some l -> nth_error ns' (j + i) = Some e -> nth_error ts' (j + i) = Some t -> makes m l t t' ps0 -> within m t -> within m t' ->
     (forall v p, nth_error ps0 v = Some p -> nth_error (ps ++ ps1) (K + v) = Some p) -> P e (j + i) K -> P (made l t e K) (S (j + i)) (K + length ps0)) ->
  length ns' = S (j + length ls) /\ length ts' = S (j + length ls) /\ (forall k, k <= j -> nth_error ns' k = nth_error ns k /\ nth_error ts' k = nth_error ts k) /\
  exists e, nth_error ns' (j + length ls) = Some e /\ P e (j + length ls) (length ps + length ps1).
Proof.
  intros M. induction ls as [|l ls IH]; intros j ts ts' ps1 ns ps ns' WF Wt Ht Ln Es P P0 PS.
  - inversion WF; subst. cbn in Es. injection Es as <- _. pose proof (Forall2_len _ _ _ Ht) as Lt. cbn [length]. rewrite !Nat.add_0_r. split; [assumption|]. split; [congruence|]. split; [auto|].
    destruct (nth_error ns j) as [e|] eqn:E; [|apply nth_error_None in E; lia]. exists e. auto.
  - rewrite chain_from_cons in *. inversion WF as [ts0|ts0 l0 i t t' ps0 p0 ts0' ps2 Ei Mk W' WF' X1 X2 X3 X4|]; subst.
    destruct (Forall2_nth_error_r _ _ _ _ _ Ht Ei) as (e & En & Se). pose proof (proj1 (Forall_forall _ _) Wt _ (nth_error_In _ _ Ei)) as W.
    destruct (apply1_ok dbg m s l t t' ps0 ps e M Mk W W' Se) as (Ee & Se'). set (e' := made l t e (length ps)) in *.
    pose proof (Forall2_len _ _ _ Ht) as Lt.
    assert (Wt' : Forall (within m) (ts ++ [t'])) by (apply Forall_app; auto).
    assert (Ht' : Forall2 (sound m s (ps ++ ps0)) (ns ++ [e']) (ts ++ [t'])).
    { apply Forall2_app; [|auto]. clear - Ht. induction Ht; constructor; [now apply sound_more|assumption]. }
    assert (Es' : steps dbg (shape_N (1 :: s)) (Net (ns ++ [e']) (ps ++ ps0)) (chain_from (S j) ls) = Ok (Net ns' ((ps ++ ps0) ++ ps2))).
    { rewrite <- app_assoc, <- Es. cbn [steps step nodes params]. rewrite En, Ee. reflexivity. }
    assert (Ln' : length (ns ++ [e']) = S (S j)) by (rewrite app_length; cbn [length]; lia).
    assert (Keep : forall k, k <= S j -> nth_error ns' k = nth_error (ns ++ [e']) k /\ nth_error ts' k = nth_error (ts ++ [t']) k).
    { intros k Hk. destruct (IH (S j) _ _ _ _ _ _ WF' Wt' Ht' Ln' Es' (fun (_ : ex) (_ _ : nat) => True)) as (_ & _ & Kp & _); auto. }
    destruct (IH (S j) _ _ _ _ _ _ WF' Wt' Ht' Ln' Es' P) as (L1 & L2 & _ & e2 & E2 & P2).
    + intros e0 E0. rewrite nth_error_app2 in E0 by lia. rewrite Ln, Nat.sub_diag in E0. cbn [nth_error] in E0. injection E0 as <-.
      rewrite app_length. specialize (PS 0 l e t t' ps0 (length ps) eq_refl). rewrite Nat.add_0_r in PS. apply PS; auto; [| |].
      * destruct (Keep j ltac:(lia)) as [-> _]. now rewrite app_keeps by lia.
      * destruct (Keep j ltac:(lia)) as [_ ->]. rewrite app_keeps by lia. exact Ei.
      * intros v p Hv. rewrite nth_error_app2 by lia. replace (length ps + v - length ps) with v by lia. rewrite nth_error_app1; [assumption|]. apply nth_error_Some. congruence.
    + intros i l0 e0 t0 t0' q K Hi. specialize (PS (S i) l0 e0 t0 t0' q K Hi). rewrite <- Nat.add_succ_comm, app_assoc in PS. exact PS.
    + cbn [length]. rewrite Nat.add_succ_r. split; [lia|]. split; [lia|]. split.
      * intros k Hk. destruct (Keep k ltac:(lia)) as [A B]. rewrite A, B, !app_keeps by lia. auto.
      * exists e2. rewrite app_length in P2. rewrite app_length, Nat.add_assoc. cbn [Nat.add] in E2, P2. auto.
Qed.

(** ** The variables *)

Lemma makes_variables_pos m l t t' ps : makes m l t t' ps -> within m t -> within m t' -> Forall (fun p => p <> [] /\ prod p <> 0) ps.
Proof.
  intros Mk W W'. destruct Mk as [out n|out kx ky p sx sy dx dy r c ch t' Cv|out k st p d n ch n' Cv|out kx ky p sx sy dx dy r c ch r1 c1 t' E1 E2 W1 Cv|f t|t|t new P|t|n r c k Hn|n r c k Hn|n r c k];
    try constructor.
  - destruct W as (_ & F & _). destruct W' as (_ & F' & _). inversion F. inversion F'. unfold prod. cbn [fold_right]. split; [discriminate|nia].
  - destruct W' as (_ & F' & _). inversion F'. constructor; [|constructor]. unfold prod. cbn [fold_right]. split; [discriminate|lia].
  - destruct Cv as (? & ? & ? & ? & ? & ? & E & _ & _ & _ & (K1 & _) & (K2 & _) & Ho & _). injection E as <- <- <-. destruct (within3 _ _ _ _ W) as (_ & _ & Hc & _). unfold prod. cbn [fold_right]. split; [discriminate|nia].
  - destruct Cv as (? & ? & ? & ? & ? & ? & E & _ & _ & _ & (K1 & _) & (K2 & _) & Ho & _). constructor; [|constructor]. unfold prod. cbn [fold_right]. split; [discriminate|nia].
  - destruct Cv as (? & ? & ? & ? & ? & ? & E & _ & _ & _ & (K1 & _) & (K2 & _) & Ho & _). injection E as <- _ <-. destruct W as (_ & F & _). inversion F as [|? ? _ F2]. inversion F2. unfold prod. cbn [fold_right]. split; [discriminate|nia].
  - destruct Cv as (? & ? & ? & ? & ? & ? & E & _ & _ & _ & (K1 & _) & (K2 & _) & Ho & _). constructor; [|constructor]. unfold prod. cbn [fold_right]. split; [discriminate|nia].
  - destruct Cv as (? & ? & ? & ? & ? & ? & E & _ & _ & _ & (K1 & _) & (K2 & _) & Ho & _). injection E as <- <- <-. destruct (within3 _ _ _ _ W) as (_ & _ & Hc & _). unfold prod. cbn [fold_right]. split; [discriminate|nia].
  - destruct Cv as (? & ? & ? & ? & ? & ? & E & _ & _ & _ & (K1 & _) & (K2 & _) & Ho & _). constructor; [|constructor]. unfold prod. cbn [fold_right]. split; [discriminate|nia].
Qed.

Lemma well_formed_variables m prog : forall ts ts' ps, well_formed m ts prog ts' ps -> Forall (within m) ts -> Forall (fun p => p <> [] /\ prod p <> 0) ps.
Proof.
  induction prog as [|c prog IH]; intros ts ts' ps WF Wt;
    inversion WF as [ts0|ts0 l i t t' ps0 p0 ts0' ps2 Ei Mk W' WF' X1 X2 X3 X4|ts0 l i j a b t p0 ts0' ps2 Ei Ej Jn W' WF' X1 X2 X3 X4]; subst; [constructor| |].
  - apply Forall_app. split.
    + apply (makes_variables_pos m l t t'); try assumption. exact (proj1 (Forall_forall _ _) Wt _ (nth_error_In _ _ Ei)).
    + apply (IH _ _ _ WF'). apply Forall_app. auto.
  - apply (IH _ _ _ WF'). apply Forall_app. auto.
Qed.

(** ** The value *)

Lemma flat_parts {A} n b (d : list A) : length d = b * n -> flat_map (fun i => part n i d) (seq 0 b) = d.
Proof.
  revert d. induction b as [|b IH]; intros d L; [now destruct d|]. cbn [seq flat_map]. transitivity (firstn n d ++ skipn n d); [|apply firstn_skipn]. f_equal.
  rewrite <- seq_shift, flat_map_concat_map, map_map, <- flat_map_concat_map. transitivity (flat_map (fun i => part n i (skipn n d)) (seq 0 b)); [|apply IH; rewrite skipn_length; lia].
  apply flat_map_ext. intros i. unfold part. rewrite skipn_more. reflexivity.
Qed.

Section Chain.
Variables (act : (R -> R) -> uop R) (dbg : bool) (eps : R) (m : nat) (s : list nat) (ls : list layer1) (ts : list (list nat)) (ps : list (list nat)) (ns : list ex) (bs : nat).
Hypotheses (M : (N.of_nat m < 2147483648)%N) (W : within m s) (WF : well_formed m [s] (chain ls) ts ps) (B : build dbg (map N.of_nat s) (chain ls) = Ok (Net ns ps))
  (B1 : 1 <= bs) (B2 : (N.of_nat (bs * m) < 4294967296)%N).

Definition given (q : env R) : Prop := supplied (leaf_of q) (bs :: s) ps.

Lemma value_denoted q k e y : given q -> nth_error ns k = Some e -> computes true eps (leaf_of q) e y -> val_arr y = denoted eps ls s bs (length ps) q k.
Proof.
  intros G E C. destruct (C78_networks_compute dbg m s (chain ls) ts ps M W WF) as (ns' & B' & _ & H). rewrite B in B'. injection B' as <-.
  destruct (H bs (leaf_of q) eps B1 B2 G k e E) as (_ & H'). clear H. unfold denoted.
  assert (EI : (match e_hold q 0 with Some v => snd v | None => [] end) = adata (leaf_of q 0)) by (cbn [leaf_of]; now destruct (e_hold q 0)).
  rewrite EI. change (map (fun v => snd (e_var q v)) (seq 0 (length ps))) with (variables (leaf_of q) (length ps)).
  set (z := fun i => nth k (means eps (chain ls) (variables (leaf_of q) (length ps)) [(s, part (prod s) i (adata (leaf_of q 0)))]) ([], [])).
  assert (Hz : forall i, i < bs -> is_array y (bs :: fst (z i)) /\ part (prod (fst (z i))) i (adata y) = snd (z i)) by (intros i Hi; exact (H' true y i C Hi)).
  destruct (Hz 0 ltac:(lia)) as [[S0 L0] _]. unfold val_arr.
  f_equal; [assumption|]. rewrite prod_cons in L0.
  rewrite <- (flat_parts (prod (fst (z 0))) bs (adata y)) by assumption.
  rewrite !flat_map_concat_map. f_equal. apply map_ext_in. intros i Hi. apply in_seq in Hi. destruct (Hz i ltac:(lia)) as [[Si _] Pi]. transitivity (part (prod (fst (z i))) i (adata y)); [|exact Pi]. f_equal. f_equal. congruence.
Qed.

Lemma built : exists prog', steps dbg (shape_N (1 :: s)) (Net [Leaf 0] []) (chain ls) = Ok (Net ns ps) /\ prog' = chain ls.
Proof. exists (chain ls). split; [|reflexivity]. rewrite <- B. unfold build. now rewrite (hint_ok m s M W). Qed.

Lemma leaf_sound : Forall2 (sound m s []) [Leaf 0] [s].
Proof. constructor; [|constructor]. intros b Hb. apply J_leaf'; [reflexivity|discriminate|now apply (within_fits m)]. Qed.

Lemma all_sound : Forall2 (sound m s ps) ns ts /\ Forall (within m) ts.
Proof.
  destruct built as (_ & E & _). destruct (steps_ok dbg m s M (chain ls) [s] ts ps [Leaf 0] [] WF ltac:(auto) leaf_sound) as (ns' & E' & Wt & Hn).
  rewrite E in E'. injection E' as <-. auto.
Qed.

Lemma leaves_given q : given q -> forall n, shapes bs s ps n <> [] -> wf (leaf_of q n) /\ ashape (leaf_of q n) = shapes bs s ps n /\ prod (shapes bs s ps n) <> 0.
Proof.
  intros G n N. destruct (supplied_shapes _ _ _ _ G n N) as [A C]. split; [assumption|]. split; [assumption|]. destruct n as [|k]; cbn [shapes] in *.
  - rewrite prod_cons. destruct W as (_ & F & _). pose proof (prod_pos s F). nia.
  - destruct (nth_error ps k) as [p|] eqn:E; [|apply nth_error_None in E; now rewrite nth_overflow in N].
    rewrite (nth_error_nth _ _ [] E). pose proof (well_formed_variables m (chain ls) [s] ts ps WF ltac:(auto)) as F. exact (proj2 (proj1 (Forall_forall _ _) F _ (nth_error_In _ _ E))).
Qed.

(** ** Every layer *)

Lemma computes_shape q k e t y : given q -> nth_error ns k = Some e -> nth_error ts k = Some t -> computes true eps (leaf_of q) e y -> wf y /\ ashape y = bs :: t.
Proof.
  intros G E Et C. destruct all_sound as [Sn _]. destruct (Forall2_nth_error_r _ _ _ _ _ Sn Et) as (e' & E' & Se). rewrite E in E'. injection E' as <-.
  apply (J_all (shapes bs s ps) e (bs :: t) (leaf_of q) true); [apply Se; now split| |now apply (computes_evaluates _ eps)].
  intros n N. destruct (leaves_given q G n N) as (A & C' & _). auto.
Qed.

(** with [deep] of the layer's condition only what does not depend on values *)
Definition ready (deep : bool) (l : layer1) (v : val R) : Prop :=
  match l with
  | Activation f => applies act f /\ (deep = true -> CalcSpec.right1 (act f) v)
  | AveragePooling2D n => exists r c k, tl (fst v) = [r * n; c * n; k]
  | SoftmaxLayer | MaxPooling2D _ => False
  | _ => True
  end.

Lemma made_okay deep q k l e t t' ps0 K : given q -> nth_error ns k = Some e -> nth_error ts k = Some t -> makes m l t t' ps0 -> within m t -> within m t' -> (forall v p, nth_error ps0 v = Some p -> nth_error ps (K + v) = Some p) ->
  ready deep l (denoted eps ls s bs (length ps) q k) -> okay act eps q deep e -> okay act eps q deep (made l t e K).
Proof.
  intros G E Et Mk Wt Wt' Hv Rd O.
  assert (V : forall y, computes true eps (leaf_of q) e y -> wf y /\ ashape y = bs :: t /\ val_arr y = denoted eps ls s bs (length ps) q k).
  { intros y C. destruct (computes_shape q k e t y G E Et C) as [A A']. split; [assumption|]. split; [assumption|]. now apply (value_denoted q k e y). }
  destruct Mk as [out n|out kx ky p sx sy dx dy r c ch t' Cv|out kx st p d n ch n' Cv|out kx ky p sx sy dx dy r c ch r1 c1 t' E1 E2 W1 Cv|f t|t|t new P|t|n r c ch Hn|n r c ch Hn|n r c ch];
    cbn [made okay ready] in *; try contradiction.
  - cbn [solid okay2]. auto 10.
  - unfold conv_at, conv_ex. cbv zeta. cbn [okay okay1 okay2 solid]. split; [|split; [exact I|split; [exact I|exact I]]].
    split; [|auto]. split; [|auto]. split; [split; [exact I|auto]|]. split; [|auto]. split; [exact O|].
    intros y C. cbn [val_arr fst]. destruct (V y C) as (_ & Sy & _). rewrite Sy. apply (size_ok m bs); try assumption. now split.
  - unfold conv_at, conv_ex. cbv zeta. cbn [okay okay1 okay2 solid]. split; [|auto]. split; [|auto].
    split; [|auto]. split; [|auto]. split; [split; [exact I|auto]|]. split; [|auto]. split; [split; [exact O|auto]|].
    intros y C. inversion C as [|o0 e0 x y0 Cx Fx X1 X2|]; subst. destruct (V x Cx) as (Wx & Sx & _). cbn [val_arr fst].
    apply run1_forward1 in Fx. destruct (forward1_gives _ _ _ _ Fx Wx I) as [Wy Gv]. cbn [gives1] in Gv. rewrite Sx in Gv.
    destruct Gv as (_ & ->). cbn [firstn skipn app]. destruct Cv as (? & ? & ? & ? & ? & ? & Et0 & _). apply (size_ok m bs); [assumption|now split|]. destruct Wt as (_ & F & L).
    split; [discriminate|]. inversion F as [|? ? F1 F2]; inversion F2; subst. split; [repeat constructor; lia|]. revert L. unfold prod. cbn [fold_right]. lia.
  - pose proof Cv as (? & ? & ? & ro & co & pad & Eq & -> & _ & _ & Wr & Wc & Ho & _). injection Eq as <- <- <-. destruct Wr as (K1 & S1 & _). destruct Wc as (K2 & S2 & _).
    unfold conv_at, conv_ex. cbv zeta. cbn [okay okay1 okay2 solid]. split; [|split; [exact I|split; [exact I|exact I]]].
    split; [|auto]. split; [|auto]. split; [split; [split; [split; [exact I|]|]|auto]|].
    + intros y C. inversion C; subst. destruct G as [_ Gp]. destruct (Gp K _ ltac:(now rewrite <- (Nat.add_0_r K); apply Hv)) as [Sy _]. cbn [val_arr fst]. rewrite Sy. exists [out; kx], ky, [ch]. split; [reflexivity|]. split; [cbn; lia|reflexivity].
    + intros y C. inversion C as [|o0 e0 x y0 Cx Fx X1 X2|]; subst. inversion Cx; subst. destruct G as [_ Gp]. destruct (Gp K _ ltac:(now rewrite <- (Nat.add_0_r K); apply Hv)) as [Sx Lx]. cbn [val_arr fst].
      assert (Wx : wf (leaf_of q (S K))) by (unfold wf; now rewrite Lx, Sx). apply run1_forward1 in Fx.
      assert (Px : prod [out; kx; ky; ch] <> 0) by (rewrite LearnProofs.prod4; destruct (within3 _ _ _ _ Wt) as (_ & _ & Hc & _); repeat (apply Nat.neq_mul_0; split); lia).
      assert (Rx : right1 (Flip 2) (ashape (leaf_of q (S K)))) by (cbn [right1]; now rewrite Sx).
      destruct (forward1_gives _ _ _ _ Fx Wx Rx) as [Wy Gv]. cbn [gives1] in Gv. rewrite Sx in Gv. rewrite (Gv Px). exists [out], kx, [ky; ch]. split; [reflexivity|]. split; [cbn; lia|reflexivity].
    + split; [|auto]. split; [split; [exact O|]|].
      * intros y C. lia.
      * intros y C. inversion C as [|o0 e0 x y0 Cx Fx X1 X2|]; subst. destruct (V x Cx) as (Wx & Sx & _). cbn [val_arr fst].
        apply run1_forward1 in Fx. assert (Rx : right1 (Spread kx ky sx sy (match p with PValid => true | _ => false end)) (ashape x)) by (cbn [right1]; lia).
        destruct (forward1_gives _ _ _ _ Fx Wx Rx) as [Wy Gv]. cbn [gives1] in Gv. rewrite Sx in Gv. destruct Gv as (b0 & r0 & c0 & k0 & Eb & ->). injection Eb as <- <- <- <-.
        replace (spread_extent r kx sx (match p with PValid => true | _ => false end)) with (r * sx + match p with PValid => 2 * kx - 2 | _ => 0 end) by (unfold spread_extent; destruct p; lia).
        replace (spread_extent c ky sy (match p with PValid => true | _ => false end)) with (c * sy + match p with PValid => 2 * ky - 2 | _ => 0 end) by (unfold spread_extent; destruct p; lia).
        apply (size_ok m bs); [assumption|now split|assumption].
  - split; [exact O|]. intros y C. destruct (V y C) as (_ & _ & ->). exact Rd.
  - auto.
  - auto.
  - split; [exact O|]. intros y C. destruct (V y C) as (_ & Sy & Ey). destruct Rd as (r0 & c0 & k0 & Ht). rewrite <- Ey in Ht. cbn [okay1 val_arr fst] in *. rewrite Sy in Ht. rewrite Sy. cbn [tl] in Ht. rewrite Ht. exists bs, r0, c0, k0. reflexivity.
  - split; [exact O|]. intros y C. cbn [okay1]. destruct (within3 _ _ _ _ Wt') as (H & _). intros ->. lia.
Qed.

Fixpoint mentions (e : ex) (n : nat) : Prop :=
  match e with Leaf k => k = n | Value _ => False | Un _ x => mentions x n | Bin _ l r => mentions l n \/ mentions r n end.

Lemma mentions_at root e v : mentions e (S v) -> forall n k, At root k (graph act n e) -> exists k', At root k' (EVar v).
Proof.
  induction e as [i|c|o e IH|o l IHl r IHr]; intros H n k A; cbn [mentions] in H; try contradiction.
  - subst i. exists k. exact A.
  - cbn [graph] in A. exact (IH H _ _ (At_un _ _ _ _ _ A)).
  - cbn [graph] in A. destruct H as [H|H]; [exact (IHl H _ _ (At_left _ _ _ _ _ _ A))|exact (IHr H _ _ (At_right _ _ _ _ _ _ A))].
Qed.

Lemma made_mentions l t t' ps0 e K : makes m l t t' ps0 -> (forall v, v < K -> mentions e (S v)) -> forall v, v < K + length ps0 -> mentions (made l t e K) (S v).
Proof.
  intros Mk H v Hv.
  assert (D : v < K \/ v = K \/ v = S K \/ length ps0 <> 2 /\ v < K + length ps0) by lia.
  destruct Mk; cbn [made length] in *; unfold conv_at, conv_ex; cbv zeta; cbn [mentions];
    (destruct D as [D|[->|[->|[D1 D2]]]]; [specialize (H v D); tauto| | |]; try lia; auto 10; try (apply H; lia)).
Qed.

(** the last expression of a chain *)
Theorem chain_last deep q : given q -> (exists v, e_hold q 0 = Some v) ->
  (forall k l, nth_error ls k = Some l -> ready deep l (denoted eps ls s bs (length ps) q k)) ->
  exists e t, nth_error ns (length ls) = Some e /\ length ns = S (length ls) /\ (forall v, v < length ps -> mentions e (S v)) /\
    fst (denoted eps ls s bs (length ps) q (length ls)) = bs :: t /\
    forall n, evalR q (graph act n e) = Some (denoted eps ls s bs (length ps) q (length ls)) /\ (deep = true -> fine dbg q (graph act n e)).
Proof.
  intros G Hh Rd. destruct built as (_ & E & _).
  destruct (chain_ind dbg m s M ls 0 [s] ts ps [Leaf 0] [] ns WF ltac:(auto) leaf_sound eq_refl E
    (fun e _ K => okay act eps q deep e /\ forall v, v < K -> mentions e (S v))) as (L1 & L2 & _ & e & Ee & O & Mn).
  - intros e He. injection He as <-. split; [exact I|]. cbn [length]. lia.
  - intros i l e t t' ps0 K Hl He Ht Mk Wt Wt' Hv [O Mn]. split; [|now apply (made_mentions l t t')]. now apply (made_okay deep q i l e t t' ps0); auto.
  - cbn [Nat.add length] in *. destruct all_sound as [Sn _].
    destruct (nth_error ts (length ls)) as [t|] eqn:Et; [|apply nth_error_None in Et; lia].
    destruct (Forall2_nth_error_r _ _ _ _ _ Sn Et) as (e' & E' & Se). rewrite Ee in E'. injection E' as <-.
    destruct (J_graph act dbg eps q deep (shapes bs s ps) e (bs :: t) Hh (leaves_given q G) (Se bs (conj B1 B2)) O) as (y & C & Wy & Sy & _ & _ & H).
    pose proof (value_denoted q (length ls) e y G Ee C) as V. exists e, t. split; [assumption|]. split; [assumption|]. split; [assumption|]. rewrite <- V. split; [exact Sy|exact H].
Qed.
End Chain.
