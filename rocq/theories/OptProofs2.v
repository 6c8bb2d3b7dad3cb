(** Proofs about training: binding a batch, running the loss, back-propagating, updating the variables. *)
From Coq Require Import List Arith Lia Bool PeanoNat Reals Lra.
From Coquelicot Require Import Rcomplements Hierarchy Derive.
From Verif Require Import ListBase TensorModel TensorSpec ArrayModel GraphModel GraphSpec GradSpec LayerSpec GraphProofs GraphProofs2 GraphProofs3 GradProofs GradProofs2 GradProofs3
  CalcSpec CalcProofs CalcProofs2 CalcProofs3 GradProps OptModel OptSpec OptProofs.
Import ListNotations.
Local Open Scope nat_scope.

(** ** backward does not look at the forward cache *)

Section Blind.
Context {A : Type} (zero one : A) (add mul : A -> A -> A) (opp : A -> A) (leb : A -> A -> bool) (eps : A).
Variable dbg : bool.

Definition uncached {T} (m : G (A:=A) T) : Prop :=
  forall s c, m (set_cache s c) = match m s with Ok (v, s') => Ok (v, set_cache s' c) | Abort => Abort | UB => UB end.

Lemma un_ret {T} (v : T) : uncached (gret v).
Proof. intros s c. reflexivity. Qed.

Lemma un_bind {S T} (m : G (A:=A) S) (f : S -> G T) : uncached m -> (forall x, uncached (f x)) -> uncached (gbind m f).
Proof. intros Hm Hf s c. unfold gbind. rewrite Hm. destruct (m s) as [[v s']| |]; [apply Hf|reflexivity|reflexivity]. Qed.

Lemma un_heaply {T} (m : M (A:=A) T) : uncached (heaply m).
Proof. intros s c. unfold heaply. cbn [set_cache hp]. destruct (m (hp s)) as [[v h]| |]; reflexivity. Qed.

Lemma un_get {T} (f : st A -> T) : (forall s c, f (set_cache s c) = f s) -> uncached (get f).
Proof. intros H s c. unfold get. now rewrite H. Qed.

Lemma un_modify (f : st A -> st A) : (forall s c, f (set_cache s c) = set_cache (f s) c) -> uncached (modify f).
Proof. intros H s c. unfold modify. now rewrite H. Qed.

Lemma un_the {T} (o : option T) : uncached (the (A:=A) o).
Proof. destruct o; [apply un_ret|]. intros s c. reflexivity. Qed.

Lemma un_ownb n b v : uncached (into_ownb n b v).
Proof. intros s c. unfold into_ownb. cbn [set_cache ownb hp]. destruct (ownb s n b); reflexivity. Qed.

Ltac un := repeat first [apply un_ret | apply un_bind; [|intros ?] | apply un_heaply | apply un_get; reflexivity | apply un_modify; reflexivity | apply un_the | apply un_ownb].

Lemma un_backward k e : forall g, uncached (backward zero one add mul opp leb eps dbg k e g).
Proof.
  revert k. induction e as [v|p|t|c|n o x IH|n o l IHl r IHr]; intros k g; cbn [backward]; try apply un_ret.
  - unfold var_backward. apply un_bind; [un|]. intros o. destruct (negb (trainable o)); [un|]. apply un_bind; [un|]. intros vs.
    apply un_bind; [destruct (list_eqb _ _); un|]. intros gt. apply un_bind; [un|]. intros _. apply un_bind; [un|]. intros _. destruct (synced o); un.
  - apply un_bind; [un|]. intros b. apply un_bind; [|intros; apply IH]. unfold un_backward. apply un_bind; [un|]. intros h. destruct o as [own f m bk|f]; [|un].
    apply un_bind; [un|]. intros v. destruct m; [unfold new_tensor; un|un|un].
  - apply un_bind; [un|]. intros b. apply un_bind; [|intros; apply un_bind; [apply IHl|intros; apply IHr]]. unfold bin_backward. apply un_bind; [un|]. intros h.
    unfold new_tensor. destruct o as [|own f bown bk]; [un|]. apply un_bind; [un|]. intros q. destruct bown; un.
Qed.

End Blind.

Lemma at_uses {A} (e : expr A) k x : At e k x -> incl (uses k x) (uses None e).
Proof.
  induction 1 as [|k n o x H IH|k n o l r H IH|k n o l r H IH]; [apply incl_refl|exact IH|..]; cbn [uses] in IH.
  - intros u Hu. apply IH. apply in_or_app. now left.
  - intros u Hu. apply IH. apply in_or_app. now right.
Qed.

Lemma occurs_dec {A} (e : expr A) v : (exists k, At e k (EVar v)) \/ (forall k, ~ At e k (EVar v)).
Proof.
  destruct (in_dec Nat.eq_dec v (map snd (uses None e))) as [H|H].
  - left. apply in_map_iff in H. destruct H as ([k v'] & E & H). cbn in E. subst v'. exists k. exact (uses_at e e None (At_root e) k v H).
  - right. intros k Hk. apply H. apply in_map_iff. exists (k, v). split; [reflexivity|]. apply (at_uses e k (EVar v) Hk). now left.
Qed.

Lemma bind_all_ok feed : forall s, bind_all feed s = Ok (tt, bound feed s).
Proof. induction feed as [|[p x] feed IH]; intros s; [reflexivity|]. cbn [bind_all bound]. unfold gbind, new_tensor, heaply, alloc, modify. apply IH. Qed.

Section Ready.
Variables (sess : list (nat * bool)) (e : expr R).

(** nothing but new storages: everything stays ready *)
Lemma ready_bound1 s c who p x : ready sess e (W s c) who ->
  ready sess e (W (set_holders (set_hp s (hp s ++ [snd x])) (fupd (holders s) p (Some (mkT (fst x) (length (hp s)))))) c) (who_new who (length (hp s)) OLeaf).
Proof.
  intros [(S1 & S2 & S3 & S4 & S5) [O1 O2 O3] Rv Rl Ri Rc Rh Rt]. cbn [gr ctx] in *. set (s' := set_holders _ _).
  assert (L : length (hp s') = S (length (hp s))) by (unfold s'; cbn; rewrite app_length; cbn; lia).
  assert (W0 : forall r, r < length (hp s) -> who_new who (length (hp s)) OLeaf r = who r) by (intros; now apply who_new_old).
  assert (WL : forall r, who r = OLeaf -> who_new who (length (hp s)) OLeaf r = OLeaf).
  { intros r Hr. unfold who_new. destruct (r <? length (hp s)); auto. }
  assert (N0 : forall r, r < length (hp s) -> nth r (hp s') [] = nth r (hp s) []) by (intros r Hr; unfold s'; cbn; now rewrite app_nth1).
  assert (T' : forall v b, In (v, b) sess -> tidy (W s' c) v).
  { intros v b Hv. apply (tidy_same (W s c) (W s' c) v); cbn [gr ctx]; auto; [|lia|exact (O2 v b Hv)].
    intros r Hr. apply N0. apply (t_live (W s c) v (O2 v b Hv) r Hr). }
  constructor; cbn [gr ctx].
  - split; [|split; [|split; [|split]]].
    + intros k v Hk. destruct (S1 k v Hk) as (W1 & W2 & L2). split; [now apply WL|]. change (vars s' v) with (vars s v). rewrite W0 by assumption. split; [assumption|lia].
    + intros k p' t Hk E. unfold s' in E. cbn [set_holders holders] in E. unfold fupd in E. destruct (p' =? p).
      * injection E as <-. now apply who_new_new.
      * apply WL. now apply (S2 k p' t).
    + intros k t Hk. apply WL. now apply (S3 k).
    + intros n t E. destruct (S4 n t E) as [W1 L1]. rewrite W0 by assumption. split; [assumption|lia].
    + intros n b t E. destruct (S5 n b t E) as [W1 L1]. rewrite W0 by assumption. split; [assumption|lia].
  - constructor; [exact O1|exact T'|exact O3].
  - exact Rv.
  - intros v b r Hv Hr. apply WL. exact (Rl v b r Hv Hr).
  - intros v b Hv Hn. apply WL. exact (Ri v b Hv Hn).
  - intros k t Hk. destruct (Rc k t Hk) as [L1 Nf]. split; [lia|exact Nf].
  - intros k p' t Hk E. unfold s' in E. cbn [set_holders holders] in E. unfold fupd in E. destruct (p' =? p).
    + injection E as <-. cbn [ref]. split; [lia|]. intros v b Hv Hr. destruct (t_live (W s c) v (O2 v b Hv) _ Hr) as [Q _]. cbn in Q. lia.
    + destruct (Rh k p' t Hk E) as [L1 Nf]. split; [lia|exact Nf].
  - exact Rt.
Qed.

Lemma ready_bound feed : forall s c who, ready sess e (W s c) who -> exists who', ready sess e (W (bound feed s) c) who'.
Proof.
  induction feed as [|[p x] feed IH]; intros s c who H; [eauto|]. cbn [bound]. apply (ready_bound1 s c who p x) in H. exact (IH _ _ _ H).
Qed.

Lemma bound_keeps feed : forall s, vars (bound feed s) = vars s /\ vobjs (bound feed s) = vobjs s /\ training (bound feed s) = training s /\
  length (hp s) <= length (hp (bound feed s)) /\ (forall r, r < length (hp s) -> nth r (hp (bound feed s)) [] = nth r (hp s) []).
Proof.
  induction feed as [|[p x] feed IH]; intros s; [auto|]. cbn [bound].
  destruct (IH (set_holders (set_hp s (hp s ++ [snd x])) (fupd (holders s) p (Some (mkT (fst x) (length (hp s))))))) as (E1 & E2 & E3 & E4 & E5).
  cbn [set_holders set_hp hp vars vobjs training] in *. rewrite app_length in *. cbn [length] in *. split; [exact E1|]. split; [exact E2|]. split; [exact E3|]. split; [lia|].
  intros r Hr. rewrite E5 by lia. now apply app_nth1.
Qed.

Lemma ready_graded w who : ready sess e w who -> graded e (gr w).
Proof.
  intros H k v Hk. destruct (r_vars _ _ _ _ H k v Hk) as [b Hb]. destruct (o_tidy _ _ (r_ord _ _ _ _ H) v b Hb) as [T1 T2 T3 T4]. split; [exact T1|].
  apply (T3 (ref (vgrad (vars (gr w) v)))). now left.
Qed.

End Ready.

Lemma arrived_frozen vo v p (ds : list (delivery (A:=R))) us : map fst ds = us -> (forall k, In (k, v) us -> trainable (vo k) = false) -> arrived vo v p ds = 0%R.
Proof.
  intros <- H. unfold arrived. induction ds as [|[[k u] g] ds IH]; [reflexivity|]. cbn [map rsum].
  rewrite IH by (intros k' Hk; apply H; now right). destruct (Nat.eqb_spec u v) as [->|]; cbn [andb]; [|ring]. rewrite (H k (or_introl eq_refl)). ring.
Qed.

Lemma penalty_frozen eps vo v x us : (forall k, In (k, v) us -> trainable (vo k) = false) -> penalty eps vo v x us = 0%R.
Proof.
  intros H. unfold penalty. induction us as [|[k u] us IH]; [reflexivity|]. cbn [map rsum fst snd]. rewrite IH by (intros k' Hk; apply H; now right).
  destruct (Nat.eqb_spec u v) as [->|]; cbn [andb]; [|ring]. rewrite (H k (or_introl eq_refl)). ring.
Qed.

Lemma once_fun {B} (l : list (nat * B)) v a b : NoDup (map fst l) -> In (v, a) l -> In (v, b) l -> a = b.
Proof.
  induction l as [|[u x] l IH]; [contradiction|]. cbn [map fst]. intros Nd. inversion Nd as [|? ? N1 N2]; subst. intros [E|Ha] [E'|Hb].
  - congruence.
  - injection E as -> ->. exfalso. apply N1. exact (in_map fst _ _ Hb).
  - injection E' as -> ->. exfalso. apply N1. exact (in_map fst _ _ Ha).
  - now apply IH.
Qed.

Section Batch.
Variable dbg : bool.
Variable eps : R.
Notation run := (run 0%R 1%R Rplus Rmult dbg).
Notation backs := (backs 0%R 1%R Rplus Rmult Ropp rleb eps dbg).
Notation backward := (backward 0%R 1%R Rplus Rmult Ropp rleb eps dbg).

Lemma paired_loss E e : paired [1%R] (evalR E e) = loss E e.
Proof. unfold paired, loss. destruct (evalR E e) as [y|]; [|reflexivity]. destruct (snd y) as [|a l]; unfold inner; cbn; [reflexivity|]. destruct l; cbn; ring. Qed.

(** a state in which e, a loss, can be trained and every rule is right *)
Definition trainable_loss (e : expr R) (s : st R) : Prop :=
  trainable_tree e s /\ right_everywhere dbg (env_of s) e /\ exists y, evalR (env_of s) e = Some y /\ fst y = [1].

Lemma un_backs e gs : uncached (backs e gs).
Proof.
  induction gs as [|g gs IH]; [apply un_ret|]. apply un_bind; [unfold new_tensor; apply un_heaply|]. intros t. apply un_bind; [apply un_backward|]. intros _. exact IH.
Qed.

Lemma nth_of_error {A} (l l' : list A) i d : nth_error l i = nth_error l' i -> nth i l d = nth i l' d.
Proof. intros H. destruct (nth_error l' i) as [x|] eqn:E.
  - rewrite (nth_error_nth l' i d E). exact (nth_error_nth l i d H).
  - rewrite nth_overflow by (now apply nth_error_None). symmetry. apply nth_overflow. now apply nth_error_None.
Qed.

Theorem batch_ok sess e w who feed o : ready sess e w who -> trainable_loss e (bound feed (gr w)) -> (forall v, In (v, true) sess -> stocked (alg o) w v) ->
  exists y w' who' h, train_batch dbg eps sess e feed o w = Ok (y, Opt (alg o) (next_rate o) (S (steps o)), w') /\
    evalR (env_of (bound feed (gr w))) e = Some (val_of h y) /\
    (exists s1, run e (bound feed (gr w)) = Ok (y, s1) /\ hp s1 = h) /\
    ready sess e w' who' /\ (forall v, In (v, true) sess -> stocked (alg o) w' v) /\ holders (gr w') = holders (bound feed (gr w)) /\
    advanced eps sess e o feed w w'.
Proof.
  destruct w as [s0 c]. cbn [gr]. intros Rd0 (TT & RE & y0 & Ey0 & Fy0) St.
  destruct (ready_bound sess e feed s0 c who Rd0) as [whob Rd]. destruct (bound_keeps feed s0) as (BV & BO & BT & BL & BF).
  set (s := bound feed s0) in *.
  pose proof (r_ord _ _ _ _ Rd0) as Or0. pose proof (r_ord _ _ _ _ Rd) as Or. pose proof (ready_graded sess e _ _ Rd) as Gd. cbn [gr] in Gd.
  destruct TT as (V & T & Z & D & L).
  assert (Nv : evalue e = false). { destruct e; try reflexivity. now destruct (V c0). }
  destruct (grads_derive dbg (env_of s) e Nv Z RE) as (y & Ey & Sy & HG). assert (y0 = y) by congruence. subst y0.
  destruct (HG ([1], [1%R]) None) as (ds & Ed & Fd & HD); [now rewrite Fy0|reflexivity|].
  destruct (train_ok dbg eps e s whob [([1], [1%R])] [ds] V T Z D L (r_sep _ _ _ _ Rd) Gd)
    as (t & s1 & s2 & who2 & R1 & R2 & E1 & Sp2 & Gd2 & V2 & H2 & T2 & L2 & W2 & F2 & O2 & HT & _).
  { constructor; [split; assumption|constructor]. }
  specialize (HT (r_train _ _ _ _ Rd)).
  assert (F2' : forall r, r < length (hp s) -> whob r = OLeaf -> nth r (hp s2) [] = nth r (hp s) []).
  { intros r Hr Hl. apply nth_of_error. apply F2; auto; congruence. }
  set (nc := fun _ : nat => @None tensor).
  set (w2 := W (set_cache s2 nc) c).
  assert (Vw : forall v, vars s2 v = vars s0 v) by (intros v; now rewrite V2, BV).
  assert (Lv : forall v b r, In (v, b) sess -> In r (foot (W s c) v) -> r < length (hp s) /\ length (nth r (hp s) []) = count (W s c) v).
  { intros v b r Hv. apply (t_live _ _ (o_tidy _ _ Or v b Hv)). }
  assert (Lv0 : forall v b r, In (v, b) sess -> In r (foot (W s0 c) v) -> r < length (hp s0)).
  { intros v b r Hv Hr. apply (t_live _ _ (o_tidy _ _ Or0 v b Hv) r Hr). }
  assert (Ft0 : forall v, foot (W s0 c) v = foot (W s c) v) by (intros v; unfold foot; cbn [gr ctx]; now rewrite BV).
  assert (Ft2 : forall v, foot w2 v = foot (W s c) v) by (intros v; unfold foot, w2; cbn [gr ctx set_cache vars]; now rewrite V2).
  assert (Ct2 : forall v, count w2 v = count (W s c) v) by (intros v; unfold count, w2; cbn [gr set_cache vars]; now rewrite V2).
  assert (Ct0 : forall v, count (W s0 c) v = count (W s c) v) by (intros v; unfold count; cbn [gr]; now rewrite BV).
  assert (Body : forall v b r, In (v, b) sess -> In r (ref (vdata (vars s v)) :: map ref (c v)) -> nth r (hp s2) [] = nth r (hp s) []).
  { intros v b r Hv Hr. apply F2'.
    - apply (Lv v b r Hv). unfold foot. cbn [gr ctx]. now right.
    - exact (r_leaf _ _ _ _ Rd v b r Hv Hr). }
  assert (Body0 : forall v b r, In (v, b) sess -> In r (ref (vdata (vars s v)) :: map ref (c v)) -> nth r (hp s2) [] = nth r (hp s0) []).
  { intros v b r Hv Hr. rewrite (Body v b r Hv Hr). apply BF. apply (Lv0 v b r Hv). rewrite Ft0. unfold foot. cbn [gr ctx]. now right. }
  assert (Gidle : forall v b, In (v, b) sess -> (forall k, ~ At e k (EVar v)) -> nth (ref (vgrad (vars s v))) (hp s2) [] = nth (ref (vgrad (vars s v))) (hp s) []).
  { intros v b Hv Hn. apply F2'; [|exact (r_idle _ _ _ _ Rd v b Hv Hn)]. apply (Lv v b _ Hv). now left. }
  assert (Gin : forall k v, At e k (EVar v) -> length (nth (ref (vgrad (vars s v))) (hp s2) []) = count (W s c) v).
  { intros k v Hk. destruct (HT k v Hk) as [_ Q]. destruct (Q ltac:(discriminate)) as [Q' _]. exact Q'. }
  assert (Or2 : orderly sess w2).
  { constructor.
    - exact (o_once _ _ Or).
    - intros v b Hv. destruct (o_tidy _ _ Or v b Hv) as [T1 T3 T4 T5]. cbn [gr ctx] in *.
      constructor; unfold w2; cbn [gr ctx set_cache vars hp]; rewrite ?V2; auto.
      + intros r Hr. fold w2 in Hr. rewrite Ft2 in Hr. fold w2. rewrite Ct2. destruct (T4 r Hr) as [Q1 Q2]. split; [lia|].
        destruct Hr as [Hr|Hr].
        * subst r. cbn [gr] in *. destruct (occurs_dec e v) as [[k Hk]|Hn]; [exact (Gin k v Hk)|]. rewrite (Gidle v b Hv Hn). exact Q2.
        * rewrite (Body v b r Hv Hr). exact Q2.
      + fold w2. rewrite Ft2. exact T5.
    - intros v b v' b' Hv Hv' Ne r. rewrite !Ft2. exact (o_apart _ _ Or v b v' b' Hv Hv' Ne r). }
  destruct (update_all_ok dbg eps (alg o) (next_rate o) (steps o) sess sess w2) as (w' & h' & U & G' & L' & Or' & M & C & F & P);
    [apply incl_refl|exact (o_once _ _ Or)|exact Or2|exact St|].
  (* the program *)
  assert (TB : train_batch dbg eps sess e feed o (W s0 c) = Ok (t, Opt (alg o) (next_rate o) (S (steps o)), w')).
  { unfold train_batch.
    rewrite (obnd_ok _ _ _ tt (W s c)) by (unfold on_graph; cbn [gr ctx]; now rewrite bind_all_ok).
    rewrite (obnd_ok _ _ _ t (W s1 c)) by (unfold on_graph; cbn [gr ctx]; now rewrite R1).
    rewrite (obnd_ok _ _ _ tt (W (set_cache s1 nc) c)) by reflexivity.
    pose proof (un_backs e [([1], [1%R])] s1 nc) as B. rewrite R2 in B.
    cbn [GradSpec.backs] in B. unfold gbind at 1 in B. unfold new_tensor at 1, heaply at 1, alloc at 1 in B. unfold gbind in B at 1.
    match type of B with match ?b with _ => _ end = _ => destruct b as [[u sB]| |] eqn:EB; try discriminate end.
    unfold gret in B. injection B as B. subst sB. destruct u.
    unfold step.
    rewrite (obnd_ok (obnd _ _) _ _ (Opt (alg o) (next_rate o) (S (steps o))) w'); [reflexivity|].
    unfold on_graph at 1, new_tensor at 1, heaply at 1, alloc at 1, obnd at 1. cbn [gr ctx set_cache hp].
    unfold obnd at 1. unfold on_graph at 1. cbn [gr ctx]. cbn [set_cache hp] in EB. rewrite EB.
    fold w2. cbv zeta. now rewrite (obnd_ok _ _ _ tt w'). }
  exists t, w', (who_new who2 (length (hp s2)) OLeaf), (hp s1).
  split; [exact TB|]. split; [exact E1|]. split; [exists s1; auto|].
  assert (Vw' : forall v, vars (gr w') v = vars s v) by (intros v; rewrite G'; unfold w2; cbn [gr set_hp set_cache vars]; apply V2).
  assert (Hp' : hp (gr w') = h') by (rewrite G'; reflexivity).
  cbn [w2 gr set_cache hp] in L', F, P.
  assert (WL : forall r, r < length (hp s) -> whob r = OLeaf -> who_new who2 (length (hp s2)) OLeaf r = OLeaf).
  { intros r Hr Hl. rewrite who_new_old by lia. rewrite W2 by assumption. exact Hl. }
  assert (Pf : forall v r, In r (foot w' v) -> In r (foot (W s c) v) \/ length (hp s2) <= r).
  { intros v r Hr. destruct (P v r Hr) as [Q|Q]; [left; now rewrite <- Ft2|now right]. }
  assert (Lf : forall v b r, In (v, b) sess -> In r (ref (vdata (vars (gr w') v)) :: map ref (ctx w' v)) -> who_new who2 (length (hp s2)) OLeaf r = OLeaf).
  { intros v b r Hv Hr. assert (Hf : In r (foot w' v)) by (now right). destruct (Pf v r Hf) as [Q|Q]; [|now apply who_new_new].
    destruct Q as [Q|Q].
    - exfalso. pose proof (t_own _ _ (o_tidy _ _ Or' v b Hv)) as Nd. unfold foot in Nd. inversion Nd as [|? ? Nn _]; subst. apply Nn. rewrite Vw' in *. exact Hr.
    - apply WL; [apply (Lv v b r Hv); now right|]. exact (r_leaf _ _ _ _ Rd v b r Hv Q). }
  split.
  { destruct Sp2 as (S1 & S2 & S3 & S4 & S5).
    constructor.
    - rewrite G'. unfold w2. cbn [gr]. split; [|split; [|split; [|split]]]; cbn [set_hp set_cache vars holders own ownb hp].
      + intros k v Hk. destruct (S1 k v Hk) as (Q1 & Q2 & Q3). destruct (r_vars _ _ _ _ Rd k v Hk) as [b Hb]. split; [|split].
        * apply (Lf v b _ Hb). left. now rewrite Vw', V2.
        * rewrite who_new_old by assumption. exact Q2.
        * lia.
      + intros k p t' Hk Eh. rewrite H2 in Eh. destruct (r_hold _ _ _ _ Rd k p t' Hk Eh) as [Q _]. apply WL; [exact Q|].
        destruct (r_sep _ _ _ _ Rd) as (_ & Q2 & _). exact (Q2 k p t' Hk Eh).
      + intros k t' Hk. destruct (r_const _ _ _ _ Rd k t' Hk) as [Q _]. apply WL; [exact Q|]. destruct (r_sep _ _ _ _ Rd) as (_ & _ & Q2 & _). exact (Q2 k t' Hk).
      + intros n t' En. destruct (S4 n t' En) as [Q1 Q2]. rewrite who_new_old by assumption. split; [exact Q1|lia].
      + intros n b t' En. destruct (S5 n b t' En) as [Q1 Q2]. rewrite who_new_old by assumption. split; [exact Q1|lia].
    - exact Or'.
    - exact (r_vars _ _ _ _ Rd).
    - exact Lf.
    - intros v b Hv Hn. rewrite Vw'. apply WL; [apply (Lv v b _ Hv); now left|]. exact (r_idle _ _ _ _ Rd v b Hv Hn).
    - intros k t' Hk. destruct (r_const _ _ _ _ Rd k t' Hk) as [Q1 Q2]. cbn [gr] in Q1. rewrite Hp'. split; [lia|]. intros v b Hv Hr.
      destruct (Pf v _ Hr) as [Q|Q]; [exact (Q2 v b Hv Q)|lia].
    - intros k p t' Hk Eh. rewrite G' in Eh. unfold w2 in Eh. cbn [gr set_hp set_cache holders] in Eh. rewrite H2 in Eh.
      destruct (r_hold _ _ _ _ Rd k p t' Hk Eh) as [Q1 Q2]. cbn [gr] in Q1. rewrite Hp'. split; [lia|]. intros v b Hv Hr.
      destruct (Pf v _ Hr) as [Q|Q]; [exact (Q2 v b Hv Q)|lia].
    - rewrite G'. unfold w2. cbn [gr set_hp set_cache training]. rewrite T2. exact (r_train _ _ _ _ Rd). }
  split.
  { intros v Hv. pose proof (m_ctx _ _ _ _ _ _ _ (M v Hv)) as Q. unfold w2 in Q. cbn [ctx] in Q. specialize (St v Hv). unfold stocked in *. cbn [ctx] in St.
    destruct (c v); [right; rewrite Q; destruct (alg o); cbn [created needed]; lia|]. destruct St as [St|St]; [discriminate|]. right. now rewrite Q. }
  split.
  { rewrite G'. unfold w2. cbn [gr set_hp set_cache holders]. exact H2. }
  constructor.
  - intros v. rewrite Vw'. cbn [gr]. now rewrite BV.
  - intros k. rewrite G'. unfold w2. cbn [gr set_hp set_cache vobjs]. rewrite <- BO. exact (O2 k).
  - intros v Hv. destruct (M v Hv) as [M1 M2 M3 _]. rewrite Ct2 in M1, M2, M3. rewrite Ct0. split; [exact M1|]. split; [exact M3|].
    intros p Hp. exists (nth p (gradient w2 v) 0%R). split.
    + constructor.
      * intros k Hk Ht Hx. destruct (HT k v Hk) as [_ H]. destruct (H ltac:(discriminate)) as [_ H']. specialize (H' p Hp).
        unfold gradient, elements, w2. cbn [gr set_cache vars hp]. rewrite V2, H'. cbn [map rsum]. rewrite Rplus_0_r.
        rewrite (arrived_total (vobjs s) v p ds (uses None e)).
        2:{ exact (grads_uses dbg (env_of s) e None ([1], [1%R]) ds Ed). }
        2:{ intros k' Hin. apply Ht. now apply (uses_at e e None (At_root e)). }
        apply (is_derive_plus (K := R_AbsRing) (V := R_NormedModule) (fun x => loss (nudge (env_of s) v p x) e) (cost eps (vobjs s) v (uses None e))).
        { eapply is_derive_ext; [|exact (HD k v p Hk Hp)]. intros x. exact (paired_loss (nudge (env_of s) v p x) e). }
        apply cost_derive.
        { intros k' Hin. apply Ht. now apply (uses_at e e None (At_root e)). }
        intros k' Hin Hle. destruct Hx as [Hx|Hx]; [exact Hx|]. specialize (Hx k' (uses_at e e None (At_root e) k' v Hin)). exfalso. exact (Rlt_not_le _ _ Hx Hle).
      * intros k Hk Ht. destruct (HT k v Hk) as [_ H]. destruct (H ltac:(discriminate)) as [_ H']. specialize (H' p Hp).
        unfold gradient, elements, w2. cbn [gr set_cache vars hp]. rewrite V2, H'. cbn [map rsum].
        rewrite (arrived_frozen (vobjs s) v p ds (uses None e)).
        2:{ exact (grads_uses dbg (env_of s) e None ([1], [1%R]) ds Ed). }
        2:{ intros k' Hin. apply Ht. now apply (uses_at e e None (At_root e)). }
        rewrite penalty_frozen; [ring|]. intros k' Hin. apply Ht. now apply (uses_at e e None (At_root e)).
      * intros Hn. unfold gradient, elements, w2. cbn [gr set_cache vars hp]. rewrite V2, (Gidle v true Hv Hn). rewrite <- BV. f_equal. apply BF. apply (Lv0 v true _ Hv). rewrite Ft0. now left.
    + rewrite (M2 p Hp).
      assert (Wt : weights w2 v = weights (W s0 c) v).
      { unfold weights, elements, w2. cbn [gr set_cache vars hp]. rewrite Vw, <- BV. apply (Body0 v true _ Hv). now left. }
      assert (Me : memory_or_new (alg o) w2 v p = memory_or_new (alg o) (W s0 c) v p).
      { unfold memory_or_new, memory, w2. cbn [ctx]. destruct (c v) eqn:Ec; [reflexivity|]. rewrite <- Ec. apply map_ext_in. intros t' Ht. f_equal.
        unfold elements. cbn [gr set_cache hp]. apply (Body0 v true _ Hv). right. now apply in_map. }
      now rewrite Wt, Me.
  - intros v Hv. exact (m_ctx _ _ _ _ _ _ _ (M v Hv)).
  - intros v Hv.
    assert (Nt : ~ In (v, true) sess).
    { intros Q. pose proof (once_fun sess v _ _ (o_once _ _ Or) Hv Q). discriminate. }
    assert (Q : forall r, In r (foot (W s c) v) -> nth r h' [] = nth r (hp s2) []).
    { intros r Hr. apply nth_of_error. apply F; [destruct (Lv v false r Hv Hr); lia|]. intros u Hu. rewrite Ft2.
      apply (o_apart _ _ Or v false u true Hv Hu); [|exact Hr]. intros ->. now apply Nt. }
    assert (Q' : forall r, In r (ref (vdata (vars s v)) :: map ref (c v)) -> nth r h' [] = nth r (hp s0) []).
    { intros r Hr. rewrite Q by (now right). exact (Body0 v false r Hv Hr). }
    split; [|split].
    + unfold weights, elements. rewrite Hp', Vw'. cbn [gr]. rewrite <- BV. apply Q'. now left.
    + exact (C v Nt).
    + intros t' Ht. unfold elements. rewrite Hp'. cbn [gr]. apply Q'. right. now apply in_map.
  - intros k t' Hk. destruct (r_const _ _ _ _ Rd0 k t' Hk) as [Q0 _]. cbn [gr] in Q0. destruct (r_const _ _ _ _ Rd k t' Hk) as [Q1 Q2]. cbn [gr] in Q1.
    unfold elements. rewrite Hp'. cbn [gr]. rewrite <- (BF _ Q0). transitivity (nth (ref t') (hp s2) []).
    + apply nth_of_error. apply F; [lia|]. intros v Hv. rewrite Ft2. exact (Q2 v true Hv).
    + apply F2'; [exact Q1|]. destruct (r_sep _ _ _ _ Rd) as (_ & _ & Q3 & _). exact (Q3 k t' Hk).
Qed.


Lemma after_alg o n : alg (after o n) = alg o /\ steps (after o n) = steps o + n.
Proof. induction n as [|n [IH1 IH2]]; cbn [after alg steps]; [split; [reflexivity|lia]|]. split; [exact IH1|lia]. Qed.

Lemma after_next o n : after o (S n) = after (Opt (alg o) (next_rate o) (S (steps o))) n.
Proof. induction n as [|n IH]; [reflexivity|]. cbn [after]. cbn [after] in IH. rewrite <- IH. reflexivity. Qed.

(** e can be trained on the batch whatever the elements of the variables, the constants being as in s0 *)
Definition trainable_on (sess : list (nat * bool)) (e : expr R) (s0 : st R) (feed : list (nat * val R)) : Prop :=
  forall s, (forall v, vars s v = vars s0 v) -> (forall v b, In (v, b) sess -> length (data_of s v) = count_of s v) ->
    (forall k t, At e k (EConst t) -> nth (ref t) (hp s) [] = nth (ref t) (hp s0) []) -> trainable_loss e (bound feed s).

Theorem train_traj sess e feeds : forall w who o, ready sess e w who -> (forall feed, In feed feeds -> trainable_on sess e (gr w) feed) ->
  (forall v, In (v, true) sess -> stocked (alg o) w v) ->
  exists ws, ws 0 = w /\ train dbg eps sess e feeds o w = Ok (after o (length feeds), ws (length feeds)) /\
    (forall t, t <= length feeds -> (exists who', ready sess e (ws t) who') /\ forall v, In (v, true) sess -> stocked (alg o) (ws t) v) /\
    forall t, t < length feeds -> advanced eps sess e (after o t) (nth t feeds []) (ws t) (ws (S t)).
Proof.
  induction feeds as [|feed feeds IH]; intros w who o Rd Tr St.
  { exists (fun _ => w). split; [reflexivity|]. split; [reflexivity|]. split; [|cbn; intros t Ht; lia]. intros t _. split; [exists who; exact Rd|exact St]. }
  destruct (batch_ok sess e w who feed o Rd) as (y & w1 & who1 & h & E & _ & _ & Rd1 & St1 & _ & Ad); [|exact St|].
  { apply (Tr feed (or_introl eq_refl)); auto. intros v b Hv. apply (t_live _ _ (o_tidy _ _ (r_ord _ _ _ _ Rd) v b Hv)). right. now left. }
  destruct (IH w1 who1 (Opt (alg o) (next_rate o) (S (steps o))) Rd1) as (ws & W0 & E' & Rd' & Ad'); [|exact St1|].
  { intros f Hf s Hv Hl Hc. apply (Tr f (or_intror Hf)); auto.
    - intros v. rewrite Hv. apply (a_vars _ _ _ _ _ _ _ Ad).
    - intros k t Hk. rewrite (Hc k t Hk). exact (a_const _ _ _ _ _ _ _ Ad k t Hk). }
  exists (fun t => match t with 0 => w | S t' => ws t' end). split; [reflexivity|]. cbn [length]. split.
  { cbn [train]. rewrite (obnd_ok _ _ _ (y, Opt (alg o) (next_rate o) (S (steps o))) w1) by exact E. cbn [snd]. rewrite E'. now rewrite after_next. }
  split.
  - intros [|t] Ht; [split; [exists who; exact Rd|exact St]|]. apply Rd'. lia.
  - intros t Ht. destruct t as [|t].
    + cbn [nth after]. rewrite W0. exact Ad.
    + rewrite after_next. cbn [nth]. apply Ad'. lia.
Qed.

(** ** finding the auxiliary tensors of another optimiser *)

Theorem update_all_unstocked a lr it sess : forall l w, incl l sess -> NoDup (map fst l) -> orderly sess w ->
  (exists v, In (v, true) l /\ ~ stocked a w v) -> update_all dbg eps a lr it l w = UB.
Proof.
  induction l as [|[v b] l IH]; intros w Hi Nd Od (u & Hu & Nu); [contradiction|]. cbn [update_all].
  cbn [map fst] in Nd. inversion Nd as [|? ? Nv Nd']; subst.
  destruct b.
  2:{ rewrite (obnd_ok _ _ _ tt w) by reflexivity. apply IH; auto; [intros x Hx; apply Hi; now right|]. exists u. destruct Hu as [Q|Hu]; [discriminate|]. auto. }
  destruct (le_lt_dec (needed a) (length (ctx w v))) as [N|N].
  - assert (Sv : stocked a w v) by now right.
    assert (Hin : In (v, true) sess) by (apply Hi; now left).
    assert (Huv : u <> v) by (intros ->; contradiction).
    destruct Hu as [Q|Hu]; [congruence|].
    assert (Q : exists w1 h1, update_all dbg eps a lr it [(v, true)] w = Ok (tt, w1) /\ gr w1 = set_hp (gr w) h1 /\ length (hp (gr w)) <= length h1 /\ orderly sess w1 /\
      (forall v', In (v', true) [(v, true)] -> moved a eps lr it w w1 v') /\ (forall v', ~ In (v', true) [(v, true)] -> ctx w1 v' = ctx w v')).
    { destruct (update_all_ok dbg eps a lr it sess [(v, true)] w) as (w1 & h1 & E & Q1 & Q2 & Q3 & Q4 & Q5 & _).
      - intros x [<-|[]]. exact Hin.
      - repeat constructor. intros [].
      - exact Od.
      - intros v' [[= <-]|[]]. exact Sv.
      - exists w1, h1. auto 8. }
    destruct Q as (w1 & h1 & E & _ & _ & Od1 & _ & C1). cbn [update_all] in E. unfold obnd in E at 1.
    destruct (update_var dbg eps a lr it v w) as [[[] w1']| |] eqn:E1; try discriminate. unfold oret in E. injection E as ->.
    rewrite (obnd_ok _ _ _ tt w1) by exact E1. apply IH; auto; [intros x Hx; apply Hi; now right|]. exists u. split; [exact Hu|].
    unfold stocked in *. rewrite C1; [exact Nu|]. intros [Q|[]]. congruence.
  - destruct (ctx w v) as [|t c] eqn:Ec.
    + assert (Hin : In (v, true) sess) by (apply Hi; now left).
      assert (Sv : stocked a w v) by now left.
      assert (Huv : u <> v) by (intros ->; contradiction).
      destruct Hu as [Q|Hu]; [congruence|].
      destruct (update_all_ok dbg eps a lr it sess [(v, true)] w) as (w1 & h1 & E & _ & _ & Od1 & _ & C1 & _).
      { intros x [<-|[]]. exact Hin. }
      { repeat constructor. intros []. }
      { exact Od. }
      { intros v' [[= <-]|[]]. exact Sv. }
      cbn [update_all] in E. unfold obnd in E at 1.
      destruct (update_var dbg eps a lr it v w) as [[[] w1']| |] eqn:E1; try discriminate. unfold oret in E. injection E as ->.
      rewrite (obnd_ok _ _ _ tt w1) by exact E1. apply IH; auto; [intros x Hx; apply Hi; now right|]. exists u. split; [exact Hu|].
      unfold stocked in *. rewrite C1; [exact Nu|]. intros [Q|[]]. congruence.
    + unfold obnd at 1. rewrite update_unstocked; [reflexivity|congruence|rewrite Ec; exact N].
Qed.

Theorem batch_unstocked sess e w who feed o : ready sess e w who -> trainable_loss e (bound feed (gr w)) -> (exists v, In (v, true) sess /\ ~ stocked (alg o) w v) ->
  train_batch dbg eps sess e feed o w = UB.
Proof.
  destruct w as [s0 c]. cbn [gr]. intros Rd0 (TT & RE & y0 & Ey0 & Fy0) St.
  destruct (ready_bound sess e feed s0 c who Rd0) as [whob Rd]. destruct (bound_keeps feed s0) as (BV & BO & BT & BL & BF).
  set (s := bound feed s0) in *.
  pose proof (r_ord _ _ _ _ Rd0) as Or0. pose proof (r_ord _ _ _ _ Rd) as Or. pose proof (ready_graded sess e _ _ Rd) as Gd. cbn [gr] in Gd.
  destruct TT as (V & T & Z & D & L).
  assert (Nv : evalue e = false). { destruct e; try reflexivity. now destruct (V c0). }
  destruct (grads_derive dbg (env_of s) e Nv Z RE) as (y & Ey & Sy & HG). assert (y0 = y) by congruence. subst y0.
  destruct (HG ([1], [1%R]) None) as (ds & Ed & Fd & HD); [now rewrite Fy0|reflexivity|].
  destruct (train_ok dbg eps e s whob [([1], [1%R])] [ds] V T Z D L (r_sep _ _ _ _ Rd) Gd)
    as (t & s1 & s2 & who2 & R1 & R2 & E1 & Sp2 & Gd2 & V2 & H2 & T2 & L2 & W2 & F2 & O2 & HT & _).
  { constructor; [split; assumption|constructor]. }
  specialize (HT (r_train _ _ _ _ Rd)).
  assert (F2' : forall r, r < length (hp s) -> whob r = OLeaf -> nth r (hp s2) [] = nth r (hp s) []).
  { intros r Hr Hl. apply nth_of_error. apply F2; auto; congruence. }
  set (nc := fun _ : nat => @None tensor).
  set (w2 := W (set_cache s2 nc) c).
  assert (Vw : forall v, vars s2 v = vars s0 v) by (intros v; now rewrite V2, BV).
  assert (Lv : forall v b r, In (v, b) sess -> In r (foot (W s c) v) -> r < length (hp s) /\ length (nth r (hp s) []) = count (W s c) v).
  { intros v b r Hv. apply (t_live _ _ (o_tidy _ _ Or v b Hv)). }
  assert (Lv0 : forall v b r, In (v, b) sess -> In r (foot (W s0 c) v) -> r < length (hp s0)).
  { intros v b r Hv Hr. apply (t_live _ _ (o_tidy _ _ Or0 v b Hv) r Hr). }
  assert (Ft0 : forall v, foot (W s0 c) v = foot (W s c) v) by (intros v; unfold foot; cbn [gr ctx]; now rewrite BV).
  assert (Ft2 : forall v, foot w2 v = foot (W s c) v) by (intros v; unfold foot, w2; cbn [gr ctx set_cache vars]; now rewrite V2).
  assert (Ct2 : forall v, count w2 v = count (W s c) v) by (intros v; unfold count, w2; cbn [gr set_cache vars]; now rewrite V2).
  assert (Ct0 : forall v, count (W s0 c) v = count (W s c) v) by (intros v; unfold count; cbn [gr]; now rewrite BV).
  assert (Body : forall v b r, In (v, b) sess -> In r (ref (vdata (vars s v)) :: map ref (c v)) -> nth r (hp s2) [] = nth r (hp s) []).
  { intros v b r Hv Hr. apply F2'.
    - apply (Lv v b r Hv). unfold foot. cbn [gr ctx]. now right.
    - exact (r_leaf _ _ _ _ Rd v b r Hv Hr). }
  assert (Body0 : forall v b r, In (v, b) sess -> In r (ref (vdata (vars s v)) :: map ref (c v)) -> nth r (hp s2) [] = nth r (hp s0) []).
  { intros v b r Hv Hr. rewrite (Body v b r Hv Hr). apply BF. apply (Lv0 v b r Hv). rewrite Ft0. unfold foot. cbn [gr ctx]. now right. }
  assert (Gidle : forall v b, In (v, b) sess -> (forall k, ~ At e k (EVar v)) -> nth (ref (vgrad (vars s v))) (hp s2) [] = nth (ref (vgrad (vars s v))) (hp s) []).
  { intros v b Hv Hn. apply F2'; [|exact (r_idle _ _ _ _ Rd v b Hv Hn)]. apply (Lv v b _ Hv). now left. }
  assert (Gin : forall k v, At e k (EVar v) -> length (nth (ref (vgrad (vars s v))) (hp s2) []) = count (W s c) v).
  { intros k v Hk. destruct (HT k v Hk) as [_ Q]. destruct (Q ltac:(discriminate)) as [Q' _]. exact Q'. }
  assert (Or2 : orderly sess w2).
  { constructor.
    - exact (o_once _ _ Or).
    - intros v b Hv. destruct (o_tidy _ _ Or v b Hv) as [T1 T3 T4 T5]. cbn [gr ctx] in *.
      constructor; unfold w2; cbn [gr ctx set_cache vars hp]; rewrite ?V2; auto.
      + intros r Hr. fold w2 in Hr. rewrite Ft2 in Hr. fold w2. rewrite Ct2. destruct (T4 r Hr) as [Q1 Q2]. split; [lia|].
        destruct Hr as [Hr|Hr].
        * subst r. cbn [gr] in *. destruct (occurs_dec e v) as [[k Hk]|Hn]; [exact (Gin k v Hk)|]. rewrite (Gidle v b Hv Hn). exact Q2.
        * rewrite (Body v b r Hv Hr). exact Q2.
      + fold w2. rewrite Ft2. exact T5.
    - intros v b v' b' Hv Hv' Ne r. rewrite !Ft2. exact (o_apart _ _ Or v b v' b' Hv Hv' Ne r). }
  assert (U : update_all dbg eps (alg o) (next_rate o) (steps o) sess w2 = UB).
  { apply (update_all_unstocked _ _ _ sess); [apply incl_refl|exact (o_once _ _ Or)|exact Or2|exact St]. }
  unfold train_batch.
    rewrite (obnd_ok _ _ _ tt (W s c)) by (unfold on_graph; cbn [gr ctx]; now rewrite bind_all_ok).
    rewrite (obnd_ok _ _ _ t (W s1 c)) by (unfold on_graph; cbn [gr ctx]; now rewrite R1).
    rewrite (obnd_ok _ _ _ tt (W (set_cache s1 nc) c)) by reflexivity.
    pose proof (un_backs e [([1], [1%R])] s1 nc) as B. rewrite R2 in B.
    cbn [GradSpec.backs] in B. unfold gbind at 1 in B. unfold new_tensor at 1, heaply at 1, alloc at 1 in B. unfold gbind in B at 1.
    match type of B with match ?b with _ => _ end = _ => destruct b as [[u sB]| |] eqn:EB; try discriminate end.
    unfold gret in B. injection B as B. subst sB. destruct u.
    unfold step.
    unfold obnd at 1.
    unfold on_graph at 1, new_tensor at 1, heaply at 1, alloc at 1, obnd at 1. cbn [gr ctx set_cache hp].
    unfold obnd at 1. unfold on_graph at 1. cbn [gr ctx]. cbn [set_cache hp] in EB. rewrite EB.
    fold w2. cbv zeta. unfold obnd at 1. now rewrite U.
Qed.

End Batch.
