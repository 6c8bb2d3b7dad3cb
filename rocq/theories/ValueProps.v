(** C78: a network computes the function that its layers denote, sample by sample. *)
From Coq Require Import List Arith Lia Bool PeanoNat NArith ZArith Reals Lra.
From Verif Require Import ListBase Loops TensorModel TensorSpec TensorProofs ArrayModel ArrayProofs LayerModel LayerProofs DeclModel DeclSpec DeclProofs DeclProofs2
  NetModel NetSpec ValueModel ValueSpec NetProofs NetProofs2 NetProofs3 NetProps ValueProofs ValueProofs2 ValueProofs3.
Import ListNotations.
Local Open Scope nat_scope.

(** the variables of a network, in the order in which the layers made them *)
Definition variables (leaf : nat -> arr R) (n : nat) : list (list R) := map (fun k => adata (leaf (S k))) (seq 0 n).

(** A well formed network can be built, and every expression in it has a value for every batch.  Every value it can have, in a debug
    build or not and whatever earlier runs left in buffers and index tables, is a batch of samples, and sample i of it is what the
    layers denote of sample i of the input. *)
Theorem C78_networks_compute dbg m s prog ts ps :
  (N.of_nat m < 2147483648)%N -> within m s -> well_formed m [s] prog ts ps ->
  exists ns, build dbg (map N.of_nat s) prog = Ok (Net ns ps) /\ length ns = length ts /\
    forall bs leaf eps, 1 <= bs -> (N.of_nat (bs * m) < 4294967296)%N -> supplied leaf (bs :: s) ps ->
      forall k e, nth_error ns k = Some e ->
        (exists y, computes true eps leaf e y) /\
        forall dbg' y i, computes dbg' eps leaf e y -> i < bs ->
          let z := nth k (means eps prog (variables leaf (length ps)) [(s, part (prod s) i (adata (leaf 0)))]) ([], []) in
          is_array y (bs :: fst z) /\ part (prod (fst z)) i (adata y) = snd z.
Proof.
  intros M W WF. destruct (steps_ok dbg m s M prog [s] ts ps [Leaf 0] [] WF) as (ns & Es & _ & Hn).
  { constructor; [assumption|constructor]. }
  { constructor; [|constructor]. intros bs B. apply J_leaf'; [reflexivity|discriminate|now apply (within_fits m)]. }
  cbn [app] in *. exists ns. split; [unfold build; rewrite (hint_ok m s M W); exact Es|]. pose proof (Forall2_len _ _ _ Hn) as Ln. split; [exact Ln|].
  intros bs leaf eps Hb Hm Sp k e Ek.
  destruct (nth_error ts k) as [t|] eqn:Et; [|apply nth_error_None in Et; rewrite <- Ln in Et; apply nth_error_None in Et; congruence].
  destruct (Forall2_nth_error_r _ _ _ _ _ Hn Et) as (e' & Ek' & Se). assert (e' = e) by congruence. subst e'. split.
  - destruct (J_exists _ _ _ eps leaf (Se bs (conj Hb Hm)) (supplied_shapes _ _ _ _ Sp)) as (y & C & _). eauto.
  - destruct (steps_values dbg m s eps leaf bs M (conj Hb Hm) prog [s] ts ps [Leaf 0] [] ns (fun i => [(s, part (prod s) i (adata (leaf 0)))])) with (k := k) (e := e) (t := t) as [F [V1 V2]]; try assumption.
    + constructor; [assumption|constructor].
    + constructor; [|constructor]. intros b B. apply J_leaf'; [reflexivity|discriminate|now apply (within_fits m)].
    + reflexivity.
    + intros k0 e0 t0 E0 T0. destruct k0 as [|[|]]; try discriminate. injection E0 as <-. injection T0 as <-. split; [reflexivity|]. split.
      * intros d y C. inversion C; subst. apply Sp.
      * intros d y i C _. inversion C; subst. reflexivity.
    + intros dbg' y i C Hi. cbv zeta. cbn [length] in F, V2. specialize (F i). cbv beta in F. fold (variables leaf (length ps)) in F. rewrite F. split; [now apply (V1 dbg')|].
      exact (V2 dbg' y i C Hi).
Qed.
Print Assumptions C78_networks_compute.

Lemma skipn_more {A} a b (l : list A) : skipn a (skipn b l) = skipn (b + a) l.
Proof. revert l. induction b as [|b IH]; intros l; [reflexivity|]. destruct l; [now rewrite !skipn_nil|apply IH]. Qed.

Lemma parts_all {A} n b (x y : list A) : length x = b * n -> length y = b * n -> (forall i, i < b -> part n i x = part n i y) -> x = y.
Proof.
  revert x y. induction b as [|b IH]; intros x y Lx Ly H.
  - destruct x; [|discriminate]. destruct y; [reflexivity|discriminate].
  - rewrite <- (firstn_skipn n x), <- (firstn_skipn n y). f_equal.
    + specialize (H 0 ltac:(lia)). unfold part in H. rewrite Nat.mul_0_l in H. exact H.
    + apply IH; [rewrite skipn_length; lia|rewrite skipn_length; lia|]. intros i Hi. specialize (H (S i) ltac:(lia)). unfold part in *. rewrite !skipn_more.
      replace (n + i * n) with (S i * n) by lia. exact H.
Qed.

(** Two runs with the same input and variables give the same result, in a debug build or not and whatever went on before. *)
Theorem C78_deterministic dbg m s prog ts ps ns :
  (N.of_nat m < 2147483648)%N -> within m s -> well_formed m [s] prog ts ps -> build dbg (map N.of_nat s) prog = Ok (Net ns ps) ->
  forall bs leaf eps, 1 <= bs -> (N.of_nat (bs * m) < 4294967296)%N -> supplied leaf (bs :: s) ps ->
    forall e dbg1 dbg2 y1 y2, In e ns -> computes dbg1 eps leaf e y1 -> computes dbg2 eps leaf e y2 -> ashape y1 = ashape y2 /\ adata y1 = adata y2.
Proof.
  intros M W WF B bs leaf eps Hb Hm Sp e dbg1 dbg2 y1 y2 Hin C1 C2. apply In_nth_error in Hin. destruct Hin as (k & Ek).
  destruct (C78_networks_compute dbg m s prog ts ps M W WF) as (ns' & B' & _ & H). rewrite B in B'. injection B' as <-.
  destruct (H bs leaf eps Hb Hm Sp k e Ek) as [_ G]. clear H.
  set (z := fun i => nth k (means eps prog (variables leaf (length ps)) [(s, part (prod s) i (adata (leaf 0)))]) ([], [])).
  assert (G1 : forall i, i < bs -> is_array y1 (bs :: fst (z i)) /\ part (prod (fst (z i))) i (adata y1) = snd (z i)) by (intros i; now apply (G dbg1)).
  assert (G2 : forall i, i < bs -> is_array y2 (bs :: fst (z i)) /\ part (prod (fst (z i))) i (adata y2) = snd (z i)) by (intros i; now apply (G dbg2)).
  clearbody z. clear G. destruct (G1 0 ltac:(lia)) as [[S1 L1] _]. destruct (G2 0 ltac:(lia)) as [[S2 L2] _].
  split; [congruence|]. apply (parts_all (prod (fst (z 0))) bs); [rewrite L1; apply prod_cons|rewrite L2; apply prod_cons|]. intros i Hi.
  destruct (G1 i Hi) as [[S1' _] P1]. destruct (G2 i Hi) as [_ P2]. assert (E : fst (z i) = fst (z 0)) by congruence. rewrite E in *. congruence.
Qed.
Print Assumptions C78_deterministic.

(** The result for a sample depends on the variables and on that sample alone: not on the size of the batch, its place in the batch, or
    the other samples. *)
Theorem C78_batch_independence dbg m s prog ts ps ns :
  (N.of_nat m < 2147483648)%N -> within m s -> well_formed m [s] prog ts ps -> build dbg (map N.of_nat s) prog = Ok (Net ns ps) ->
  forall bs bs' leaf leaf' eps, 1 <= bs -> (N.of_nat (bs * m) < 4294967296)%N -> supplied leaf (bs :: s) ps ->
    1 <= bs' -> (N.of_nat (bs' * m) < 4294967296)%N -> supplied leaf' (bs' :: s) ps -> (forall k, adata (leaf (S k)) = adata (leaf' (S k))) ->
    forall i i', i < bs -> i' < bs' -> part (prod s) i (adata (leaf 0)) = part (prod s) i' (adata (leaf' 0)) ->
    forall k e t dbg1 dbg2 y y', nth_error ns k = Some e -> nth_error ts k = Some t -> computes dbg1 eps leaf e y -> computes dbg2 eps leaf' e y' ->
      part (prod t) i (adata y) = part (prod t) i' (adata y').
Proof.
  intros M W WF B bs bs' leaf leaf' eps Hb Hm Sp Hb' Hm' Sp' Ev i i' Hi Hi' Ex k e t dbg1 dbg2 y y' Ek Et C C'.
  destruct (C78_networks_compute dbg m s prog ts ps M W WF) as (ns' & B' & _ & H). rewrite B in B'. injection B' as <-.
  destruct (H bs leaf eps Hb Hm Sp k e Ek) as [_ G]. destruct (H bs' leaf' eps Hb' Hm' Sp' k e Ek) as [_ G'].
  destruct (G dbg1 y i C Hi) as [[S1 _] P1]. destruct (G' dbg2 y' i' C' Hi') as [_ P2]. clear G G' H.
  assert (V : variables leaf (length ps) = variables leaf' (length ps)) by (unfold variables; apply map_ext; intros; apply Ev).
  rewrite <- V, <- Ex in P2. set (z := nth k _ _) in *.
  assert (T : fst z = t).
  { destruct (C77_networks_run dbg m s prog ts ps M W WF) as (ns' & B' & _ & H). rewrite B in B'. injection B' as <-. destruct (H k e t Ek Et) as [_ G].
    destruct (G bs leaf Hb Hm Sp) as [_ G']. destruct (G' dbg1 y (computes_evaluates _ _ _ _ _ C)) as [S2 _]. rewrite S1 in S2. now injection S2. }
  rewrite T in *. congruence.
Qed.
Print Assumptions C78_batch_independence.

(** A transposed convolution turns the weights around in the axes 1 and 2 of [out; kx; ky; ch], but the convolution reads filters of
    ch x kx x ky.  So the kernels that are used are the kernels turned around exactly if there is one input channel or a kernel of one
    pixel. *)
Theorem C78_transposed_kernel_exactly out kx ky ch : 1 <= out -> 1 <= kx -> 1 <= ky -> 1 <= ch ->
  (forall w, length w = out * kx * ky * ch -> forall o q i j, o < out -> q < ch -> i < kx -> j < ky ->
     at1 (turned out kx ky ch w) (((o * ch + q) * kx + i) * ky + j) = at1 w (((o * ch + q) * kx + (kx - 1 - i)) * ky + (ky - 1 - j)))
  <-> ch = 1 \/ kx * ky = 1.
Proof.
  intros Ho Hx Hy Hc. split.
  - intros H. destruct (Nat.eq_dec ch 1) as [|N1]; [now left|]. destruct (Nat.eq_dec (kx * ky) 1) as [|N2]; [now right|]. exfalso.
    assert (K : 2 <= kx * ky) by nia. set (w := tab (out * kx * ky * ch) (fun p => INR p)).
    specialize (H w (tab_length _ _) 0 0 0 0 Ho Hc Hx Hy). unfold at1, turned in H.
    replace (((0 * ch + 0) * kx + 0) * ky + 0) with (pos4 kx ky ch 0 0 0 0) in H by (unfold pos4; lia). rewrite nth_loop4 in H by assumption. unfold at1 in H.
    assert (B : out * kx * ky * ch = out * (kx * ky * ch)) by ring. assert (B1 : kx * ky * ch <= out * kx * ky * ch) by nia.
    assert (E1 : ((0 * kx + (kx - 1 - 0)) * ky + (ky - 1 - 0)) * ch + 0 = (kx * ky - 1) * ch). { replace ((0 * kx + (kx - 1 - 0)) * ky + (ky - 1 - 0)) with (kx * ky - 1) by nia. lia. }
    assert (E2 : ((0 * ch + 0) * kx + (kx - 1 - 0)) * ky + (ky - 1 - 0) = kx * ky - 1) by nia.
    rewrite E1, E2 in H. unfold w in H. rewrite !nth_tab in H by nia. apply INR_eq in H. nia.
  - intros [->|K] w L o q i j Lo Lq Li Lj; unfold at1, turned.
    + assert (q = 0) by lia. subst q. replace (((o * 1 + 0) * kx + i) * ky + j) with (pos4 kx ky 1 o i j 0) by (unfold pos4; ring). rewrite nth_loop4 by lia.
      unfold at1. f_equal. ring.
    + assert (kx = 1) by nia. assert (ky = 1) by nia. subst kx ky. assert (i = 0) by lia. assert (j = 0) by lia. subst i j.
      replace (((o * ch + q) * 1 + 0) * 1 + 0) with (pos4 1 1 ch o 0 0 q) by (unfold pos4; ring). rewrite nth_loop4 by lia. unfold at1. f_equal. cbn [Nat.sub]. ring.
Qed.
Print Assumptions C78_transposed_kernel_exactly.

(** ** A case: two dense layers that compute the exclusive or *)
Module Case.

Definition prog : list instr := [ Apply1 (Dense 2) 0; Apply1 (Activation (fun x => Rmax x 0)) 1; Apply1 (Dense 1) 2 ].

Lemma well : well_formed 100 [[2]] prog [[2]; [2]; [2]; [1]] [[2; 2]; [1; 2]; [2; 1]; [1; 1]].
Proof.
  assert (S : forall t, t <> [] -> forallb (fun n => 1 <=? n) t = true -> (prod t <=? 100) = true -> within 100 t).
  { intros t N F L. split; [assumption|]. split; [|now apply Nat.leb_le]. apply Forall_forall. intros x Hx. apply Nat.leb_le. now apply (proj1 (forallb_forall _ _) F). }
  change [[2; 2]; [1; 2]; [2; 1]; [1; 1]] with ([[2; 2]; [1; 2]] ++ [] ++ [[2; 1]; [1; 1]] ++ []).
  eapply wf_one with (t' := [2]); [reflexivity|constructor|now apply S|].
  eapply wf_one with (t' := [2]); [reflexivity|constructor|now apply S|].
  eapply wf_one with (t' := [1]); [reflexivity|constructor|now apply S|]. constructor.
Qed.

Lemma xor eps a b : nth 3 (means eps prog [[1; 1; 1; 1]; [0; -1]; [1; -2]; [0]]%R [([2], [a; b])]) ([], []) = ([1], [Rmax (a + b) 0 - 2 * Rmax (a + b - 1) 0]%R).
Proof.
  unfold prog. cbn [means with_variables nth skipn app means1]. unfold dense, at1, tab. cbn [seq map nth Nat.mul Nat.add LayerSpec.rsum].
  f_equal. f_equal.
  match goal with |- (Rmax ?u 0 * _ + (Rmax ?v 0 * _ + 0) + 0 = _)%R => replace u with (a + b)%R by ring; replace v with (a + b - 1)%R by ring end. ring.
Qed.

(** the truth table, as one batch of four; the result is computed whatever ran before *)
Definition leaf (n : nat) : arr R :=
  match n with
  | 0 => Arr [4; 2] [0; 0; 0; 1; 1; 0; 1; 1]%R
  | 1 => Arr [2; 2] [1; 1; 1; 1]%R
  | 2 => Arr [1; 2] [0; -1]%R
  | 3 => Arr [2; 1] [1; -2]%R
  | _ => Arr [1; 1] [0]%R
  end.

Example truth_table : exists ns e, build true [2%N] prog = Ok (Net ns [[2; 2]; [1; 2]; [2; 1]; [1; 1]]) /\ nth_error ns 3 = Some e /\
  (exists y, computes true 0 leaf e y) /\ forall dbg y, computes dbg 0 leaf e y -> ashape y = [4; 1] /\ adata y = [0; 1; 1; 0]%R.
Proof.
  destruct (C78_networks_compute true 100 [2] prog _ _ ltac:(reflexivity) ltac:(split; [discriminate|split; [repeat constructor|apply Nat.leb_le; reflexivity]]) well) as (ns & Eb & Ln & H).
  destruct (nth_error ns 3) as [e|] eqn:Ee; [|apply nth_error_None in Ee; rewrite Ln in Ee; cbn [length] in Ee; lia].
  exists ns, e. split; [exact Eb|]. split; [exact Ee|].
  assert (Sp : supplied leaf [4; 2] [[2; 2]; [1; 2]; [2; 1]; [1; 1]]).
  { split; [now split|]. intros k t E. destruct k as [|[|[|[|k]]]]; try (injection E as <-; now split). destruct k; discriminate E. }
  destruct (H 4 leaf 0%R ltac:(lia) ltac:(reflexivity) Sp 3 e Ee) as [X G]. split; [exact X|]. intros dbg y C.
  assert (V : variables leaf (length [[2; 2]; [1; 2]; [2; 1]; [1; 1]]) = [[1; 1; 1; 1]; [0; -1]; [1; -2]; [0]]%R) by reflexivity. rewrite V in G.
  assert (P : forall i, i < 4 -> is_array y [4; 1] /\ part 1 i (adata y) = [nth i [0; 1; 1; 0] 0]%R).
  { intros i Hi. specialize (G dbg y i C Hi). cbv zeta in G.
    assert (I : exists a b, part (prod [2]) i (adata (leaf 0)) = [a; b] /\ (Rmax (a + b) 0 - 2 * Rmax (a + b - 1) 0 = nth i [0; 1; 1; 0] 0)%R).
    { destruct i as [|[|[|[|]]]]; [| | | |lia]; unfold part; cbn [prod fold_right Nat.mul Nat.add skipn firstn leaf adata nth]; eexists; eexists; (split; [reflexivity|]); 
        repeat match goal with |- context [Rmax ?u ?v] => first [rewrite (Rmax_left u v) by lra|rewrite (Rmax_right u v) by lra] end; lra. }
    destruct I as (a & b & E & Ev). rewrite E, xor in G. cbn [fst snd] in G. rewrite Ev in G. exact G. }
  destruct (P 0 ltac:(lia)) as [[S L] _]. split; [exact S|]. apply (parts_all 1 4); [exact L|reflexivity|]. intros i Hi. rewrite (proj2 (P i Hi)).
  destruct i as [|[|[|[|]]]]; [reflexivity..|lia].
Qed.

End Case.
