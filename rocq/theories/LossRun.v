(** Runs of losses whose left operand is a place holder: the difference is computed inside the tensor bound to it. *)
From Coq Require Import List Arith Lia Bool PeanoNat.
From Verif Require Import ListBase TensorModel TensorSpec TensorProofs TensorProofs2 GraphModel GraphSpec GraphProofs GraphProofs2
  GraphProofs3 GraphProofs4 GradSpec GradProofs GradProofs2 ComplexRun.
Import ListNotations.

Section Loss.
Context {A : Type} (zero one : A) (add mul : A -> A -> A).
Variable dbg : bool.
Variable n1 : nat.
Variable r : expr A.
Hypothesis Vr : forall c, r <> EVal c.
Hypothesis Htree : NoDup (n1 :: ids r).

Notation eval := (eval zero one add mul).
Notation forward := (forward zero one add mul dbg).
Notation run := (run zero one add mul dbg).
Notation binv := (binv zero one add mul).
Notation sizes_ok := (sizes_ok zero one add mul).
Notation disciplined := (disciplined zero one add mul).
Notation legible := (legible zero one add mul).

Definition down (k : slot) : slot := match k with None => Some (n1, true) | _ => k end.

(** the same right operand, at the same place, under an operator that works in no storage of the user's *)
Definition frame0 : expr A := EBin n1 (BNew false (fun _ b => Some b) false (fun _ _ _ _ => None)) (EVal zero) r.

Lemma At_frame k x : At frame0 k x -> (k = None /\ x = frame0) \/ x = EVal zero \/ exists k', At r k' x /\ k = down k'.
Proof.
  intros H. induction H as [|k n o x H IH|k n o l r' H IH|k n o l r' H IH].
  - auto.
  - destruct IH as [[_ E]|[E|(k' & Hk & _)]]; try discriminate E.
    right; right. exists (Some (n, false)). split; [exact (At_un _ _ _ _ _ Hk)|reflexivity].
  - destruct IH as [[_ E]|[E|(k' & Hk & _)]]; try discriminate E; [injection E as -> _ -> _; auto|].
    right; right. exists (Some (n, false)). split; [exact (At_left _ _ _ _ _ _ Hk)|reflexivity].
  - destruct IH as [[_ E]|[E|(k' & Hk & _)]]; try discriminate E.
    + injection E as -> _ _ ->. right; right. exists None. split; [constructor|reflexivity].
    + right; right. exists (Some (n, true)). split; [exact (At_right _ _ _ _ _ _ Hk)|reflexivity].
Qed.

Lemma frame_root : At frame0 (Some (n1, true)) r.
Proof. exact (At_right _ None n1 _ _ r (At_root _)). Qed.
Lemma frame_At k x : At r k x -> At frame0 (down k) x.
Proof.
  intros H. destruct (At_trans _ _ _ frame_root _ _ H) as (k' & H' & K). destruct k as [k|]; cbn [down]; [now rewrite (K ltac:(discriminate)) in H'|].
  inversion H; subst. exact frame_root.
Qed.

Lemma frame_tree : NoDup (ids frame0).
Proof. exact Htree. Qed.

Variable q : env A.
Hypothesis Zr : sizes_ok q r.
Hypothesis Dr : disciplined q r.
Hypothesis Lr : legible q r.

Lemma frame_eval : eval q frame0 = eval q r.
Proof.
  destruct (Zr None r (At_root r) Vr) as (w & Ew & _). unfold frame0. cbn [GraphSpec.eval]. rewrite Ew. reflexivity.
Qed.
Lemma frame_sizes : sizes_ok q frame0.
Proof.
  intros k x H N. destruct (At_frame k x H) as [[_ ->]|[->|(k' & H' & _)]].
  - rewrite frame_eval. exact (Zr None r (At_root r) Vr).
  - exfalso. exact (N _ eq_refl).
  - exact (Zr k' x H' N).
Qed.
Lemma frame_sum k n l r' : At frame0 k (EBin n BPlus l r') -> exists k', At r k' (EBin n BPlus l r').
Proof. intros H. destruct (At_frame _ _ H) as [[_ E]|[E|(k' & H' & _)]]; try discriminate E. eauto. Qed.
Lemma frame_disciplined : disciplined q frame0.
Proof.
  intros k n l r' H In_ x Hx. destruct (frame_sum _ _ _ _ H) as (k' & H'). destruct (Dr k' n l r' H' In_ x Hx) as [L _]. split; [exact L|].
  intros k1 k2 H1 H2 N. destruct (node_id x) as [i|] eqn:E; [|contradiction]. exact (proj1 (tree_unique frame0 frame_tree k1 k2 x x i H1 H2 E E)).
Qed.
Lemma frame_legible : legible q frame0.
Proof. intros k n l r' H In_ x Hx. destruct (frame_sum _ _ _ _ H) as (k' & H'). exact (Lr k' n l r' H' In_ x Hx). Qed.

(** storing the result of an operator *)
Lemma un_step n own_ f m b i (s : st A) who v : (forall n t, own s n = Some t -> who (ref t) = OOp n /\ ref t < length (hp s)) ->
  f (val_of (hp s) i) = Some v ->
  exists t h' own' who', un_forward n (UNew own_ f m b) i s = Ok (t, set_own (set_hp s h') own') /\ val_of h' t = v /\ ref t < length h' /\
    who' (ref t) = OOp n /\ length (hp s) <= length h' /\ (forall a, a < length (hp s) -> who' a = who a) /\
    (forall a, a < length (hp s) -> who a <> OOp n -> nth_error h' a = nth_error (hp s) a) /\
    (forall n t, own' n = Some t -> who' (ref t) = OOp n /\ ref t < length h').
Proof.
  intros S4 Ef. cbn [un_forward]. rewrite (gbind_ok (get (@hp A)) _ s (hp s) s eq_refl). rewrite Ef. cbn [the]. rewrite (gbind_ok (gret v) _ s v s eq_refl).
  assert (Happ : forall own', (forall m u, own' m = Some u -> (u = mkT (fst v) (length (hp s)) /\ m = n) \/ own s m = Some u) ->
    let t := mkT (fst v) (length (hp s)) in let h' := hp s ++ [snd v] in let who' := who_new who (length (hp s)) (OOp n) in
    val_of h' t = v /\ ref t < length h' /\
    who' (ref t) = OOp n /\ length (hp s) <= length h' /\ (forall a, a < length (hp s) -> who' a = who a) /\
    (forall a, a < length (hp s) -> who a <> OOp n -> nth_error h' a = nth_error (hp s) a) /\
    (forall n t, own' n = Some t -> who' (ref t) = OOp n /\ ref t < length h')).
  { intros own' Ho t h' who'. unfold t, h', who'. cbn [ref]. rewrite app_length. cbn [length].
    split; [unfold val_of; cbn [shape ref]; rewrite nth_middle; now destruct v|]. split; [lia|]. split; [apply who_new_new; lia|]. split; [lia|].
    split; [intros a Ha; now apply who_new_old|]. split; [intros a Ha _; now apply nth_error_app1|].
    intros m' u Eu. destruct (Ho m' u Eu) as [[-> ->]|Eo]; cbn [ref]; [split; [apply who_new_new; lia|lia]|].
    destruct (S4 m' u Eo) as [W L]. rewrite who_new_old by exact L. split; [exact W|lia]. }
  destruct own_; [unfold into_own; destruct (own s n) as [u|] eqn:Eu|].
  - destruct (S4 n u Eu) as [W L].
    exists (mkT (fst v) (ref u)), (upd (hp s) (ref u) (snd v)), (fupd (own s) n (Some (mkT (fst v) (ref u)))), who.
    split; [reflexivity|]. cbn [ref]. rewrite upd_length.
    split; [unfold val_of; cbn [shape ref]; rewrite (nth_error_nth _ _ [] (nth_error_upd_same _ _ _ L)); now destruct v|].
    split; [exact L|]. split; [exact W|]. split; [lia|]. split; [reflexivity|]. split.
    + intros a Ha Na. apply nth_error_upd_other. intros <-. contradiction.
    + intros m' u' E'. unfold fupd in E'. destruct (Nat.eqb_spec m' n) as [->|]; [injection E' as <-; auto|]. exact (S4 m' u' E').
  - eexists _, _, (fupd (own s) n (Some (mkT (fst v) (length (hp s))))), _. split; [reflexivity|]. apply Happ.
    intros m' u E'. unfold fupd in E'. destruct (Nat.eqb_spec m' n) as [->|]; [injection E' as <-; auto|auto].
  - eexists _, _, (own s), _. split; [reflexivity|]. apply Happ. auto.
Qed.

(** the owners of what a finished operator has read and written *)
Lemma owner_in (x : expr A) m : owner_of zero one add mul q x = OOp m -> In m (ids x).
Proof. intros E. destruct (owner_path zero one add mul q x m E) as (y & H1 & H2 & _). exact (path_ids _ _ _ _ _ _ _ _ H1 H2). Qed.

Notation inv := (GraphProofs2.inv zero one add mul frame0 q).

Lemma loc_owner s who k x n c b u m : inv s who -> (forall m, In m (ids x) -> cache s m <> None) -> At frame0 k x -> node_id x = Some n ->
  At x (Some (n, b)) c -> loc s c = Some u -> who (ref u) = OOp m -> In m (ids x).
Proof.
  intros I All H En Hc El W.
  assert (Hc0 : At frame0 (Some (n, b)) c).
  { destruct (At_trans _ _ _ H _ _ Hc) as (k2 & H2 & K2). now rewrite (K2 ltac:(discriminate)) in H2. }
  destruct (is_leaf c) eqn:L.
  - destruct (leaf_good zero one add mul frame0 q frame_sizes s who _ c I Hc0 L) as (t & E1 & _ & E3 & _). congruence.
  - destruct (is_value c) eqn:V; [destruct c; discriminate|].
    assert (exists i, node_id c = Some i /\ loc s c = cache s i) as (i & Ei & El') by (destruct c; try discriminate; cbn; eauto).
    assert (Hi : In i (ids x)) by (apply ids_At; eauto).
    destruct (tree_cached zero one add mul frame0 q frame_tree s who _ c i I Hc0 Ei (All i Hi)) as (t & Et & R).
    assert (u = t) by congruence. subst u. rewrite (c_who _ _ _ _ _ _ _ _ _ _ _ _ R) in W.
    apply owner_in in W. apply ids_At in W. destruct W as (k1 & y & Hy & Ey). apply ids_At.
    destruct (At_trans _ _ _ Hc _ _ Hy) as (k3 & H3 & _). eauto.
Qed.

Lemma slot_owner s who k x : inv s who -> At frame0 k x -> (forall m, In m (ids x) -> cache s m <> None) ->
  match x with EUn _ (UNew _ _ _ _) _ | EBin _ (BNew _ _ _ _) _ _ => True | _ => False end ->
  forall u m, in1 (objs s k) = Some u \/ (match x with EBin _ _ _ _ => True | _ => False end /\ in2 (objs s k) = Some u) \/ out (objs s k) = Some u ->
  who (ref u) = OOp m -> In m (ids x).
Proof.
  intros I H All Hx u m Hu W.
  assert (exists n, node_id x = Some n) as (n & En) by (destruct x; try contradiction; cbn; eauto).
  assert (Hn : In n (ids x)) by (apply ids_At; exists None, x; split; [constructor|exact En]).
  destruct (tree_cached zero one add mul frame0 q frame_tree s who k x n I H En (All n Hn)) as (t & Et & R).
  pose proof (c_in _ _ _ _ _ _ _ _ _ _ _ _ R) as Ci. pose proof (c_out _ _ _ _ _ _ _ _ _ _ _ _ R) as Co.
  assert (Hout : out (objs s k) = Some u -> In m (ids x)).
  { intros Ho. assert (u = t) by congruence. subst u. rewrite (c_who _ _ _ _ _ _ _ _ _ _ _ _ R) in W. exact (owner_in x m W). }
  destruct x as [| | | |i [ow f mo bk|f] c|i [|ow f bo bk] l r']; try contradiction; cbn [node_id] in En; injection En as ->.
  - cbn [inputs] in Ci. destruct Hu as [Hu|[[[] _]|Hu]]; [|now apply Hout]. rewrite Ci in Hu.
    exact (loc_owner s who k _ n c false u m I All H eq_refl (At_un _ None _ _ _ (At_root _)) Hu W).
  - assert (Hl : forall b c, At (EBin n (BNew ow f bo bk) l r') (Some (n, b)) c -> loc s c = Some u -> In m (ids (EBin n (BNew ow f bo bk) l r'))).
    { intros b c Hc El. exact (loc_owner s who k _ n c b u m I All H eq_refl Hc El W). }
    pose proof (At_left _ None _ _ _ _ (At_root (EBin n (BNew ow f bo bk) l r'))) as A1.
    pose proof (At_right _ None _ _ _ _ (At_root (EBin n (BNew ow f bo bk) l r'))) as A2.
    assert (Tm : forall c v i, temp one mul s who false c v i -> i = Some u -> False).
    { intros c v i (u' & E1 & _ & T) E2. destruct (T eq_refl) as (_ & T2 & _). congruence. }
    destruct Hu as [Hu|[[_ Hu]|Hu]]; [| |now apply Hout].
    + cbn [inputs is_plus] in Ci. destruct l; destruct r'; try (destruct Ci as [C1 C2]); try (apply (Hl false _ A1); congruence);
        try (destruct C2 as (v' & _ & T); exfalso; exact (Tm _ _ _ T Hu)).
    + cbn [inputs is_plus] in Ci. destruct l; destruct r'; try (destruct Ci as [C1 C2]); try (apply (Hl true _ A2); congruence);
        try (destruct C2 as (v' & _ & T); exfalso; exact (Tm _ _ _ T Hu)).
Qed.

(** a state that shows the same in the same places is read in the same way *)
Lemma reads_kept (P : nat -> Prop) s s' who who' k k' x : objs s' k' = objs s k -> length (hp s) <= length (hp s') ->
  (forall a, a < length (hp s) -> (forall m b, who a <> OBack m b) -> (forall v, who a <> OGrad v) -> (forall m, who a = OOp m -> P m) ->
     nth_error (hp s') a = nth_error (hp s) a /\ (forall m b, who' a <> OBack m b) /\ (forall v, who' a <> OGrad v)) ->
  (forall u m, match x with EUn _ (UNew _ _ _ _) _ | EBin _ (BNew _ _ _ _) _ _ => True | _ => False end ->
     in1 (objs s k) = Some u \/ (match x with EBin _ _ _ _ => True | _ => False end /\ in2 (objs s k) = Some u) \/ out (objs s k) = Some u ->
     who (ref u) = OOp m -> P m) ->
  reads zero one add mul q s who k x -> reads zero one add mul q s' who' k' x.
Proof.
  intros Eo Hl Hs Hown. unfold reads.
  assert (Hsafe : forall o, safe s who o -> (forall u m, o = Some u -> who (ref u) = OOp m -> P m) ->
     safe s' who' o /\ val_opt (hp s') o = val_opt (hp s) o).
  { intros o (u & -> & L & S1 & S2) Ho. destruct (Hs (ref u) L S1 S2 (fun m => Ho u m eq_refl)) as (E & N1 & N2). split.
    - exists u. split; [reflexivity|]. split; [lia|]. split; assumption.
    - cbn [val_opt]. now apply val_of_eq. }
  assert (Hsh : forall o : option tensor, fst (val_opt (hp s') o) = fst (val_opt (hp s) o)) by (intros [u|]; reflexivity).
  destruct x as [| | | |i [ow f mo bk|f] c|i [|ow f bo bk] l r']; auto; rewrite Eo.
  - intros (w & E1 & E2 & E3 & E4 & E5). exists w.
    destruct (Hsafe _ E3) as [S1 V1]; [intros; eapply Hown; eauto|]. destruct (Hsafe _ E4) as [S2 V2]; [intros; eapply Hown; eauto|].
    rewrite V1, V2. auto 6.
  - intros (w & E1 & E2). exists w. rewrite Hsh. auto.
  - intros (a & b & E1 & E2 & E3). exists a, b. rewrite !Hsh. auto.
  - intros (a & b & E1 & E2 & E3 & E4 & E5 & E6 & E7). exists a, b.
    destruct (Hsafe _ E3) as [S1 V1]; [intros; eapply Hown; eauto|]. destruct (Hsafe _ E5) as [S2 V2]; [intros; eapply Hown; eauto|].
    destruct (Hsafe _ E6) as [S3 V3]; [intros; eapply Hown; eauto|].
    rewrite V1, V2, V3. auto 8.
Qed.

End Loss.
