(** What a backward pass does to the copies of an operator that did not run. *)
From Coq Require Import List Arith Lia Bool PeanoNat.
From Verif Require Import ListBase TensorModel TensorSpec TensorProofs TensorProofs2 ArrayModel GraphModel GraphSpec GraphProofs GraphProofs2
  GraphProofs3 GraphProofs4 GraphProps GradSpec GradProofs ShareProps.
Import ListNotations.

Section Doom.
Context {A : Type} (zero one : A) (add mul : A -> A -> A) (opp : A -> A) (leb : A -> A -> bool) (eps : A).
Variable dbg : bool.
Notation backward := (backward zero one add mul opp leb eps dbg).
Notation var_backward := (var_backward zero one add mul opp leb eps dbg).
Notation unbroadcast := (unbroadcast zero add dbg).

(** a tensor with elements has dimensions, and no extent is zero *)
Definition good (v : val A) : Prop := (snd v <> [] -> fst v <> []) /\ prod (fst v) <> 0.

(** there are dimensions, and no extent is zero *)
Definition real_shape (s : list nat) : Prop := s <> [] /\ prod s <> 0.

(** The backward action makes gradients of that kind, from inputs that have dimensions. *)
Definition shaped (x : expr A) : Prop :=
  match x with
  | EUn _ (UNew _ _ _ b) _ => forall i y g v, b i y g = Some v -> real_shape (fst i) -> good g -> good v
  | EBin _ (BNew _ _ _ b) _ _ =>
      forall i j y g v w, b i j y g = Some (v, w) -> real_shape (fst i) -> real_shape (fst j) -> good g -> good v /\ good w
  | _ => True
  end.

(** The same of a copy of the operator that has no inputs. *)
Definition shaped_missing (x : expr A) : Prop :=
  match x with
  | EUn _ (UNew _ _ _ b) _ => forall y g v, b ([], []) y g = Some v -> good g -> good v
  | EUn _ (UView _) _ => False
  | EBin _ (BNew _ _ _ b) _ _ => forall y g v w, b ([], []) ([], []) y g = Some (v, w) -> good g -> good v /\ good w
  | _ => True
  end.

(** The backward action makes nothing out of an empty gradient. *)
Definition strict (x : expr A) : Prop :=
  match x with
  | EUn _ (UNew _ _ _ b) _ => forall i y g v, b i y g = Some v -> good i -> good g -> snd g = [] -> snd v = []
  | EBin _ (BNew _ _ _ b) _ _ =>
      forall i j y g v w, b i j y g = Some (v, w) -> good i -> good j -> good g -> snd g = [] -> snd v = [] /\ snd w = []
  | _ => True
  end.

(** The backward action makes nothing out of empty inputs.  A sum only needs its operands' shapes; a view needs them too, and
    hands on the gradient's elements all the same. *)
Definition needs_input (x : expr A) : Prop :=
  match x with
  | EUn _ (UNew _ _ _ b) _ => forall y g v, b ([], []) y g = Some v -> good g -> snd v = []
  | EBin _ (BNew _ _ _ b) _ _ => forall y g v w, b ([], []) ([], []) y g = Some (v, w) -> good g -> snd v = [] /\ snd w = []
  | EBin _ BPlus _ _ => True
  | _ => False
  end.

Definition strict_in (x : expr A) : Prop := forall k y, At x k y -> strict y.

Lemma strict_un n o x : strict_in (EUn n o x) -> strict (EUn n o x) /\ strict_in x.
Proof.
  intros H. split; [exact (H None _ (At_root _))|]. intros k y Hy. destruct (At_trans _ _ _ (At_un _ None n o x (At_root _)) _ _ Hy) as (k2 & Hk & _). exact (H k2 y Hk).
Qed.

Lemma strict_bin n o l r : strict_in (EBin n o l r) -> strict (EBin n o l r) /\ strict_in l /\ strict_in r.
Proof.
  intros H. split; [exact (H None _ (At_root _))|]. split; intros k y Hy.
  - destruct (At_trans _ _ _ (At_left _ None n o l r (At_root _)) _ _ Hy) as (k2 & Hk & _). exact (H k2 y Hk).
  - destruct (At_trans _ _ _ (At_right _ None n o l r (At_root _)) _ _ Hy) as (k2 & Hk & _). exact (H k2 y Hk).
Qed.

(** ** sums over axes *)
Lemma prod_without (s : list nat) : forall k, prod s <> 0 -> prod (firstn k s ++ skipn (S k) s) <> 0 /\ prod (upd s k 1) <> 0.
Proof.
  induction s as [|d s IH]; intros [|k] P; cbn [firstn skipn app upd]; try (split; exact P).
  - cbn [prod fold_right] in P. fold (prod s) in P. split; [lia|]. cbn [prod fold_right]. fold (prod s). lia.
  - cbn [prod fold_right] in P. fold (prod s) in P. destruct (IH k ltac:(nia)) as [Q1 Q2].
    change (prod (d :: firstn k s ++ skipn (S k) s)) with (d * prod (firstn k s ++ skipn (S k) s)). change (prod (d :: upd s k 1)) with (d * prod (upd s k 1)). split; apply Nat.neq_mul_0; split; (assumption || (intros ->; now apply P)).
Qed.

Lemma reduce_shape (t t' : arr A) ax i f kd : reduce zero dbg t ax i f kd = Ok t' ->
  (adata t = [] -> t' = t) /\ (ashape t <> [] -> ashape t' <> []) /\ (adata t <> [] -> ashape t <> []) /\ (prod (ashape t) <> 0 -> prod (ashape t') <> 0).
Proof.
  unfold reduce. destruct (adata t) as [|a d] eqn:E.
  - intros [= <-]. split; [auto|]. split; [auto|]. split; [intros H; now destruct H|auto].
  - intros H. split; [discriminate|]. cbv zeta in H.
    assert (N : ashape t <> []).
    { intros Z. rewrite Z in H. cbn [length] in H. unfold check in H. destruct dbg; destruct ax; cbn in H; discriminate H. }
    revert H. unfold check. generalize (pick_axis ax (length (ashape t))). intros k H.
    assert (U : upd (ashape t) k 1 <> []) by (intros Z; apply N, length_zero_iff_nil; rewrite <- (upd_length (ashape t) k 1), Z; reflexivity).
    assert (Hs : k < length (ashape t) /\ (ashape t' = upd (ashape t) k 1 \/ (ashape t' = firstn k (ashape t) ++ skipn (S k) (ashape t) /\ ashape t' <> []))).
    { destruct (Nat.ltb_spec k (length (ashape t))) as [Lk|Lk]; destruct (Nat.leb_spec (length (ashape t)) k) as [Lk'|Lk']; try lia; try discriminate H; [|destruct dbg; discriminate H].
      split; [exact Lk|]. destruct (_ <=? _) in H; [|discriminate H]. destruct kd; [injection H as <-; now left|]. right.
      destruct (firstn k (ashape t) ++ skipn (S k) (ashape t)) as [|b l]; [discriminate H|]. injection H as <-. split; [reflexivity|discriminate]. }
    destruct Hs as [Lk Hs]. split; [intros _; destruct Hs as [->|[_ W]]; [exact U|exact W]|]. split; [auto|].
    intros P. destruct (prod_without (ashape t) k P). destruct Hs as [->|[-> _]]; assumption.
Qed.

Lemma drop_shape fuel : forall n g g', drop_leading zero add dbg fuel n g = Ok g' ->
  (adata g = [] -> adata g' = []) /\ (ashape g <> [] -> ashape g' <> []) /\ (n = 0 -> ashape g <> [] -> False) /\ (prod (ashape g) <> 0 -> prod (ashape g') <> 0).
Proof.
  induction fuel as [|fuel IH]; intros n g g'; cbn [drop_leading].
  - destruct (Nat.ltb_spec n (length (ashape g))) as [L|L]; [discriminate|]. intros [= <-]. split; [auto|]. split; [auto|]. split; [|auto].
    intros -> H. destruct (ashape g); [now apply H|cbn in L; lia].
  - destruct (Nat.ltb_spec n (length (ashape g))) as [L|L].
    + unfold obind. destruct (sum_axis zero dbg add g (Some 0) false) as [g1| |] eqn:E; try discriminate. intros H.
      destruct (reduce_shape _ _ _ _ _ _ E) as (R1 & R2 & R3 & R4). destruct (IH _ _ _ H) as (Q1 & Q2 & Q3 & Q4).
      split; [intros Z; apply Q1; rewrite (R1 Z); exact Z|]. split; [auto|]. split; [intros Z W; exact (Q3 Z (R2 W))|auto].
    + intros [= <-]. split; [auto|]. split; [auto|]. split; [|auto]. intros -> H. destruct (ashape g); [now apply H|cbn in L; lia].
Qed.

Lemma ones_shape s : forall ax g g', sum_ones zero add dbg s ax g = Ok g' -> (adata g = [] -> adata g' = []) /\ (ashape g <> [] -> ashape g' <> []) /\
  (prod (ashape g) <> 0 -> prod (ashape g') <> 0).
Proof.
  induction s as [|d s IH]; intros ax g g'; cbn [sum_ones].
  - intros [= <-]. auto.
  - destruct (d =? 1); [|apply IH]. unfold obind. destruct (sum_axis zero dbg add g (Some ax) true) as [g1| |] eqn:E; try discriminate. intros H.
    destruct (reduce_shape _ _ _ _ _ _ E) as (R1 & R2 & R3 & R4). destruct (IH _ _ _ H) as (Q1 & Q2 & Q3).
    split; [intros Z; apply Q1; rewrite (R1 Z); exact Z|]. split; auto.
Qed.

Lemma unbroadcast_shape s g v : unbroadcast s g = Some v ->
  (snd g = [] -> snd v = []) /\ (good g -> good v) /\ (s = [] -> good g -> snd g = []).
Proof.
  unfold GraphModel.unbroadcast, obind. destruct (drop_leading zero add dbg (length (fst g)) (length s) (Arr (fst g) (snd g))) as [g1| |] eqn:E; try discriminate.
  destruct (sum_ones zero add dbg s 0 g1) as [g2| |] eqn:E2; try discriminate. intros [= <-]. cbn [fst snd].
  destruct (drop_shape _ _ _ _ E) as (R1 & R2 & R3 & R4). destruct (ones_shape _ _ _ _ E2) as (Q1 & Q2 & Q3). cbn [ashape adata] in *. unfold good. cbn [fst snd].
  split; [auto|]. split.
  - intros [Gg Gp]. split; [|auto]. intros Hd. destruct (snd g) as [|a l] eqn:Eg; [exfalso; apply Hd; auto|]. apply Q2, R2, Gg. discriminate.
  - intros -> [Gg _]. destruct (snd g) as [|a l] eqn:Eg; [reflexivity|]. exfalso. apply R3; [reflexivity|]. apply Gg. discriminate.
Qed.

Definition binary (x : expr A) : Prop := match x with EBin _ _ _ _ => True | _ => False end.

(** ** the invariant *)
Variable e0 : expr A.
Hypothesis Hcons : consistent e0.
Variable O : slot -> obj.
Variable T : slot -> bool.
Hypothesis Hst : forall k x, At e0 k x -> shaped x.
Hypothesis Hmis : forall k x, At e0 k x -> node_id x <> None -> in1 (O k) = None -> shaped_missing x.
Hypothesis Hsh : forall k x t, At e0 k x -> node_id x <> None -> in1 (O k) = Some t \/ (binary x /\ in2 (O k) = Some t) -> real_shape (shape t).
Hypothesis Hnone : forall k x, At e0 k x -> binary x -> (in1 (O k) = None <-> in2 (O k) = None).

Record kinv (s : st A) (who : nat -> owner) : Prop := {
  k_objs : objs s = O;
  k_tr : forall k, trainable (vobjs s k) = T k;
  k_var : forall k v, At e0 k (EVar v) ->
     who (ref (vdata (vars s v))) = OLeaf /\ ref (vdata (vars s v)) < length (hp s) /\
     who (ref (vgrad (vars s v))) = OGrad v /\ ref (vgrad (vars s v)) < length (hp s) /\
     shape (vgrad (vars s v)) = shape (vdata (vars s v)) /\
     length (nth (ref (vgrad (vars s v))) (hp s) []) = length (nth (ref (vdata (vars s v))) (hp s) []) /\
     nth (ref (vdata (vars s v))) (hp s) [] <> [];
  k_ownb : forall n b t, ownb s n b = Some t -> who (ref t) = OBack n b /\ ref t < length (hp s)
}.

Record kext (x : expr A) (r0 : nat) (s s' : st A) (who who' : nat -> owner) : Prop := {
  kx_len : length (hp s) <= length (hp s');
  kx_who : forall r, r < length (hp s) -> who' r = who r;
  kx_frame : forall r, r < length (hp s) -> r <> r0 -> (forall v, who r <> OGrad v) -> (forall m b, who r = OBack m b -> ~ In m (ids x)) ->
     nth_error (hp s') r = nth_error (hp s) r
}.

Lemma kext_refl x r0 s who : kext x r0 s s who who.
Proof. constructor; auto. Qed.

(** the second step writes into a cell of x, into the first step's, or into a new one *)
Lemma kext_trans x x1 x2 r0 r1 r2 s s1 s2 who who1 who2 :
  kext x1 r1 s s1 who who1 -> kext x2 r2 s1 s2 who1 who2 ->
  (forall m, In m (ids x1) \/ In m (ids x2) -> In m (ids x)) ->
  (r1 = r0 \/ length (hp s) <= r1 \/ exists m b, who r1 = OBack m b /\ In m (ids x)) ->
  (r2 = r0 \/ length (hp s) <= r2 \/ exists m b, who r2 = OBack m b /\ In m (ids x)) ->
  kext x r0 s s2 who who2.
Proof.
  intros [L1 W1 F1] [L2 W2 F2] HI H1 H2. constructor.
  - lia.
  - intros r Hr. rewrite W2 by lia. now apply W1.
  - intros r Hr Nr Hg Hb. rewrite F2.
    + apply F1; auto.
      * intros ->. destruct H1 as [H1|[H1|(m & b & Wm & Hm)]]; [now apply Nr|lia|exact (Hb m b Wm Hm)].
      * intros m b Wm Hm. apply (Hb m b Wm). auto.
    + lia.
    + intros ->. destruct H2 as [H2|[H2|(m & b & Wm & Hm)]]; [now apply Nr|lia|exact (Hb m b Wm Hm)].
    + intros v. rewrite W1 by assumption. apply Hg.
    + intros m b. rewrite W1 by assumption. intros Wm Hm. apply (Hb m b Wm). auto.
Qed.

Lemma nth_error_nth_r (h h' : list (list A)) r : nth_error h' r = nth_error h r -> nth r h' [] = nth r h [].
Proof. apply nth_error_nth_eq. Qed.

(** a step that only adds or overwrites gradients of operators *)
Lemma kinv_step s s' who who' : kinv s who -> objs s' = objs s -> vobjs s' = vobjs s -> vars s' = vars s ->
  length (hp s) <= length (hp s') -> (forall r, r < length (hp s) -> who' r = who r) ->
  (forall r, r < length (hp s) -> (forall m b, who r <> OBack m b) -> nth_error (hp s') r = nth_error (hp s) r) ->
  (forall n b t, ownb s' n b = Some t -> who' (ref t) = OBack n b /\ ref t < length (hp s')) ->
  kinv s' who'.
Proof.
  intros [K1 K2 K3 K4] EO EV Ev L W F B. constructor.
  - congruence.
  - intros k. rewrite EV. apply K2.
  - intros k v H. destruct (K3 k v H) as (V1 & V2 & V3 & V4 & V5 & V6 & V7). rewrite Ev, !W by assumption.
    rewrite (nth_error_nth_r _ _ _ (F _ V2 ltac:(intros; rewrite V1; discriminate))), (nth_error_nth_r _ _ _ (F _ V4 ltac:(intros; rewrite V3; discriminate))).
    split; [exact V1|]. split; [lia|]. split; [exact V3|]. split; [lia|]. auto.
  - exact B.
Qed.

Lemma nth_upd_self (h : list (list A)) r d : r < length h -> nth r (upd h r d) [] = d.
Proof. intros L. rewrite nth_upd by assumption. now rewrite Nat.eqb_refl. Qed.

Lemma keep_store n side (b : bool) v s who t s' x : kinv s who -> In n (ids x) ->
  (if b then into_ownb n side v else new_tensor v) s = Ok (t, s') ->
  exists who', kinv s' who' /\ (forall r0, kext x r0 s s' who who') /\ shape t = fst v /\ nth (ref t) (hp s') [] = snd v /\ ref t < length (hp s') /\
    who' (ref t) = OBack n side /\ (length (hp s) <= ref t \/ who (ref t) = OBack n side) /\
    (forall r, r < length (hp s) -> r <> ref t -> nth_error (hp s') r = nth_error (hp s) r).
Proof.
  intros K Hn E. destruct K as [K1 K2 K3 K4] eqn:EK. pose proof K as KK. clear EK.
  assert (New : forall s1, hp s1 = hp s ++ [snd v] -> objs s1 = objs s -> vobjs s1 = vobjs s -> vars s1 = vars s ->
     (forall m c t, ownb s1 m c = Some t -> ownb s m c = Some t \/ (m = n /\ c = side /\ ref t = length (hp s))) ->
     let who' := who_new who (length (hp s)) (OBack n side) in
     kinv s1 who' /\ (forall r0, kext x r0 s s1 who who') /\ nth (length (hp s)) (hp s1) [] = snd v /\ length (hp s) < length (hp s1) /\
     (forall r, r < length (hp s) -> nth_error (hp s1) r = nth_error (hp s) r)).
  { intros s1 E1 E2 E3 E4 E5 who'. assert (L : length (hp s1) = S (length (hp s))) by (rewrite E1, app_length; cbn; lia).
    assert (F : forall r, r < length (hp s) -> nth_error (hp s1) r = nth_error (hp s) r) by (intros r Hr; rewrite E1; now apply nth_error_app1).
    split; [|split; [|split; [|split]]].
    - apply (kinv_step s s1 who who' KK); auto; [lia|intros r Hr; now apply who_new_old|].
      intros m c u Eu. destruct (E5 m c u Eu) as [Eo|(-> & -> & ->)].
      + destruct (K4 m c u Eo) as [W Lu]. unfold who'. rewrite who_new_old by assumption. split; [assumption|lia].
      + split; [now apply who_new_new|lia].
    - intros r0. constructor; [lia|intros r Hr; now apply who_new_old|auto].
    - rewrite E1. apply nth_middle.
    - lia.
    - exact F. }
  destruct b; [unfold into_ownb in E; destruct (ownb s n side) as [u|] eqn:Eu|].
  - injection E as <- <-. destruct (K4 n side u Eu) as [W Lu]. exists who. cbn [set_ownb set_hp hp ref shape].
    split; [|split; [|split; [|split; [|split; [|split; [|split]]]]]].
    + eapply (kinv_step s _ who who KK); try reflexivity; cbn [set_ownb set_hp hp ownb].
      * now rewrite upd_length.
      * intros r Hr Hb. apply nth_error_upd_other. intros <-. exact (Hb _ _ W).
      * intros m c t0 E0. rewrite upd_length. unfold fupd in E0. destruct (Nat.eqb_spec m n) as [->|Nm].
        { destruct (Bool.eqb c side) eqn:Ec; [|now apply K4]. apply eqb_prop in Ec. subst c. injection E0 as <-. cbn [ref]. auto. }
        { now apply K4. }
    + intros r0. constructor; cbn [set_ownb set_hp hp]; [now rewrite upd_length|auto|]. intros r Hr _ _ Hb. apply nth_error_upd_other. intros <-. exact (Hb _ _ W Hn).
    + reflexivity.
    + now apply nth_upd_self.
    + now rewrite upd_length.
    + exact W.
    + now right.
    + intros r Hr Nr. apply nth_error_upd_other. congruence.
  - injection E as <- <-. eexists. match goal with |- kinv ?s1 _ /\ _ => destruct (New s1 eq_refl eq_refl eq_refl eq_refl) as (Q1 & Q2 & Q3 & Q4 & Q5) end.
    { intros m c t0 E0. cbn [set_ownb set_hp ownb] in E0. unfold fupd in E0. destruct (Nat.eqb_spec m n) as [->|Nm]; [|now left].
      destruct (Bool.eqb c side) eqn:Ec; [|now left]. apply eqb_prop in Ec. subst c. injection E0 as <-. right. auto. }
    split; [exact Q1|]. split; [exact Q2|]. split; [reflexivity|]. split; [exact Q3|]. split; [exact Q4|]. split; [now apply who_new_new|]. split; [now left|]. intros r Hr _. now apply Q5.
  - injection E as <- <-. eexists. match goal with |- kinv ?s1 _ /\ _ => destruct (New s1 eq_refl eq_refl eq_refl eq_refl) as (Q1 & Q2 & Q3 & Q4 & Q5) end.
    { intros m c t0 E0. now left. }
    split; [exact Q1|]. split; [exact Q2|]. split; [reflexivity|]. split; [exact Q3|]. split; [exact Q4|]. split; [now apply who_new_new|]. split; [now left|]. intros r Hr _. now apply Q5.
Qed.

(** a trainable occurrence of a variable *)
Definition no_tv (k : slot) (x : expr A) : Prop := forall k' v, In (k', EVar v) (all_at k x) -> T k' = false.

(** an operator without the input it needs: a copy that did not run *)
Definition missing (k : slot) (x : expr A) : Prop := needs_input x /\ in1 (O k) = None.

Lemma var_step k v g s who s' : At e0 k (EVar v) -> kinv s who -> ref g < length (hp s) -> (exists m b, who (ref g) = OBack m b) ->
  var_backward k v g s = Ok (tt, s') ->
  kinv s' who /\ kext (EVar v) (ref g) s s' who who /\ (nth (ref g) (hp s) [] = [] -> T k = false).
Proof.
  intros H K Lg (m & b & Wg) E. unfold GraphModel.var_backward in E. apply bind_ok in E as (o & s1 & E1 & E). injection E1 as <- <-.
  rewrite (k_tr _ _ K) in E. destruct (T k) eqn:ET; cbn [negb] in E.
  2:{ injection E as <-. split; [exact K|]. split; [apply kext_refl|reflexivity]. }
  destruct (k_var _ _ K k v H) as (V1 & V2 & V3 & V4 & V5 & V6 & V7).
  apply bind_ok in E as (vs & s2 & E2 & E). injection E2 as <- <-.
  destruct (list_eqb_spec (shape (vgrad (vars s v))) (shape (vdata (vars s v)))) as [_|N] in E; [|congruence].
  apply bind_ok in E as (gt & s3 & E3 & E). injection E3 as <- <-. apply bind_ok in E as (u & s4 & E4 & E). injection E4 as _ <-.
  apply bind_ok in E as (u5 & s5 & E5 & E).
  unfold heaply, zip_inplace, TensorModel.bind, better_assert, data, ret in E5. cbn [set_vars hp] in E5.
  assert (Z : exists d o, nth_error (hp s) (ref (vgrad (vars s v))) = Some d /\ nth_error (hp s) (ref g) = Some o /\ length d <= length o /\ hp s5 = upd (hp s) (ref (vgrad (vars s v))) (map2 add d o) /\
     objs s5 = objs s /\ vobjs s5 = vobjs s /\ (forall w, vars s5 w = vars s w) /\ ownb s5 = ownb s).
  { assert (E5' : match nth_error (hp s) (ref (vgrad (vars s v))), nth_error (hp s) (ref g) with
        | Some d, Some o => length d <= length o /\ s5 = set_hp (set_vars s (fupd (vars s) v (VState (vdata (vars s v)) (vgrad (vars s v))))) (upd (hp s) (ref (vgrad (vars s v))) (map2 add d o))
        | _, _ => False end).
    { revert E5. destruct (list_eqb (shape (vgrad (vars s v))) (shape g)); [|destruct dbg; [intros W; discriminate W|]].
      all: destruct (nth_error (hp s) (ref (vgrad (vars s v)))) as [d|]; [|intros W; discriminate W]; destruct (nth_error (hp s) (ref g)) as [o0|]; [|intros W; discriminate W].
      all: destruct (Nat.leb_spec (length d) (length o0)) as [Ld|]; [|intros W; discriminate W]; unfold store; intros W; injection W as _ <-; auto. }
    destruct (nth_error (hp s) (ref (vgrad (vars s v)))) as [d|]; [|destruct E5']. destruct (nth_error (hp s) (ref g)) as [o0|]; [|destruct E5'].
    destruct E5' as [Ld ->]. exists d, o0. cbn [set_hp set_vars hp objs vobjs vars ownb].
    split; [reflexivity|]; split; [reflexivity|]; split; [exact Ld|]; split; [reflexivity|]; split; [reflexivity|]; split; [reflexivity|]; split; [|reflexivity].
    intros w; unfold fupd; destruct (Nat.eqb_spec w v) as [->|]; [destruct (vars s v); reflexivity|reflexivity]. }
  destruct Z as (d & o & Ed & Eo & Ldo & H5 & O5 & VO5 & V5' & B5).
  pose proof (nth_error_nth _ _ [] Ed) as Nd. pose proof (nth_error_nth _ _ [] Eo) as No.
  assert (Emp : nth (ref g) (hp s) [] = [] -> False).
  { intros Zg. rewrite <- No, Zg in Ldo. cbn [length] in Ldo. rewrite Nd in V6. apply V7. apply length_zero_iff_nil. rewrite <- V6. apply Nat.le_0_r. exact Ldo. }
  (* writes of the right length into the variable's gradient *)
  assert (Wr : forall s6 d', length d' = length d -> hp s6 = upd (hp s) (ref (vgrad (vars s v))) d' -> objs s6 = objs s -> (forall k', trainable (vobjs s6 k') = trainable (vobjs s k')) ->
     (forall w, vars s6 w = vars s w) -> ownb s6 = ownb s -> kinv s6 who /\ kext (EVar v) (ref g) s s6 who who).
  { intros s6 d' Ld' Hh Ho Hvo Hv Hb. assert (LL : length (hp s6) = length (hp s)) by (rewrite Hh; apply upd_length). split.
    - constructor.
      + rewrite Ho. apply K.
      + intros k'. rewrite Hvo. apply K.
      + intros k' w Hw. rewrite Hv. destruct (k_var _ _ K k' w Hw) as (U1 & U2 & U3 & U4 & U5 & U6 & U7). rewrite LL.
        split; [exact U1|]. split; [exact U2|]. split; [exact U3|]. split; [exact U4|]. split; [exact U5|].
        assert (Dn : nth (ref (vdata (vars s w))) (hp s6) [] = nth (ref (vdata (vars s w))) (hp s) []).
        { rewrite Hh, nth_upd by assumption. destruct (Nat.eqb_spec (ref (vgrad (vars s v))) (ref (vdata (vars s w)))) as [Er|]; [|reflexivity]. rewrite Er in V3. congruence. }
        rewrite Dn. split; [|exact U7]. rewrite <- U6. rewrite Hh, nth_upd by assumption.
        destruct (Nat.eqb_spec (ref (vgrad (vars s v))) (ref (vgrad (vars s w)))) as [Er|]; [|reflexivity]. rewrite <- Er, Nd. exact Ld'.
      + intros n c t Et. rewrite Hb in Et. rewrite LL. now apply (k_ownb _ _ K).
    - constructor; [lia|auto|]. intros r Hr _ Hg _. rewrite Hh. apply nth_error_upd_other. intros <-. exact (Hg v V3). }
  assert (Lm : length (map2 add d o) = length d) by (rewrite map2_length; lia).
  destruct (synced (vobjs s k)) eqn:Es.
  - injection E as <-. destruct (Wr s5 (map2 add d o) Lm H5 O5 ltac:(intros; now rewrite VO5) V5' B5) as [Q1 Q2]. split; [exact Q1|]. split; [exact Q2|]. intros Z. now destruct (Emp Z).
  - apply bind_ok in E as (h & s6 & E6 & E). injection E6 as <- <-. apply bind_ok in E as (u7 & s7 & E7 & E).
    unfold heaply, store in E7. injection E7 as _ <-. injection E as <-.
    match goal with |- kinv ?s8 _ /\ _ => destruct (Wr s8 (map2 (fun d0 x => l2_term one add mul leb eps (vobjs s k) d0 (l1_term zero add opp leb eps (vobjs s k) d0 x))
       (nth (ref (vdata (vars s v))) (hp s5) []) (nth (ref (vgrad (vars s v))) (hp s5) []))) as [Q1 Q2] end.
    + rewrite map2_length, H5, nth_upd_self by assumption. rewrite nth_upd by assumption.
      destruct (Nat.eqb_spec (ref (vgrad (vars s v))) (ref (vdata (vars s v)))) as [Er|]; [rewrite Er in V3; congruence|]. rewrite <- V6, Nd, Lm. lia.
    + cbn [set_vobjs set_hp hp]. rewrite H5. clear. generalize (map2 add d o). intros l. 
      generalize (map2 (fun d0 x => l2_term one add mul leb eps (vobjs s k) d0 (l1_term zero add opp leb eps (vobjs s k) d0 x)) (nth (ref (vdata (vars s v))) (upd (hp s) (ref (vgrad (vars s v))) l) []) (nth (ref (vgrad (vars s v))) (upd (hp s) (ref (vgrad (vars s v))) l) [])).
      intros l'. apply upd_upd.
    + exact O5.
    + intros k'. cbn [set_vobjs set_hp vobjs]. unfold supd. destruct (slot_eqb_spec k' k) as [->|]; [cbn; rewrite (k_tr _ _ K); congruence|now rewrite VO5].
    + exact V5'.
    + exact B5.
    + split; [exact Q1|]. split; [exact Q2|]. intros Z. now destruct (Emp Z).
Qed.

(** ** the backward pass *)
Lemma all_at_sub (x : expr A) : forall k k' y, In (k', y) (all_at k x) -> forall k2 z, In (k2, z) (all_at k' y) -> In (k2, z) (all_at k x).
Proof.
  induction x as [v|p|c|c|n o x IH|n o l IHl r IHr]; intros k k' y H k2 z H2; cbn [all_at In] in H; destruct H as [[= <- <-]|H]; try contradiction; try assumption; cbn [all_at]; right.
  - eapply IH; eassumption.
  - apply in_app_or in H as [H|H]; apply in_or_app; [left; eapply IHl|right; eapply IHr]; eassumption.
Qed.

Lemma good_opt h t : (forall u, t = Some u -> real_shape (shape u)) -> good (val_opt h t).
Proof.
  intros H. destruct t as [t|]; unfold good; cbn [val_opt val_of fst snd]; [destruct (H t eq_refl); auto|]. split; [congruence|discriminate].
Qed.

Lemma val_opt_good k x s : At e0 k x -> node_id x <> None -> good (val_opt (hp s) (in1 (O k))) /\ (binary x -> good (val_opt (hp s) (in2 (O k)))).
Proof. intros H N. split; [|intros Hb]; apply good_opt; intros t Et; apply (Hsh k x t H N); auto. Qed.

Definition tears (k : slot) (x : expr A) (g : tensor) (s s' : st A) (who : nat -> owner) : Prop :=
  exists who', kinv s' who' /\ kext x (ref g) s s' who who' /\ (strict_in x -> nth (ref g) (hp s) [] = [] -> no_tv k x) /\
    (forall k' y, In (k', y) (all_at k x) -> missing k' y -> strict_in y -> no_tv k' y).

Lemma no_tv_un k n o x : no_tv (Some (n, false)) x -> no_tv k (EUn n o x).
Proof. intros H k' v [E|Hi]; [discriminate E|exact (H _ _ Hi)]. Qed.

Lemma no_tv_bin k n o l r : no_tv (Some (n, false)) l -> no_tv (Some (n, true)) r -> no_tv k (EBin n o l r).
Proof. intros H1 H2 k' v [E|Hi]; [discriminate E|]. apply in_app_or in Hi as [Hi|Hi]; [exact (H1 _ _ Hi)|exact (H2 _ _ Hi)]. Qed.

Lemma kext_back x y r0 s s' who who' : kext y r0 s s' who who' -> (forall m, In m (ids y) -> In m (ids x)) -> kext x r0 s s' who who'.
Proof. intros [L W F] HI. constructor; auto. intros r Hr Nr Hg Hb. apply F; auto. intros m b Wm Hm. apply (Hb m b Wm). auto. Qed.

Lemma the_ok {U} (o : option U) (s : st A) w s' : the o s = Ok (w, s') -> o = Some w /\ s' = s.
Proof. destruct o; cbn; [intros [= <- <-]; auto|discriminate]. Qed.

Definition dry (x : expr A) (k : slot) (g : tensor) (s : st A) : Prop :=
  (strict x /\ nth (ref g) (hp s) [] = []) \/ (needs_input x /\ in1 (O k) = None).

(** one operator, the operand's gradient in g1 *)
Lemma un_step k n o x g s who g1 s1 m b : At e0 k (EUn n o x) -> kinv s who -> ref g < length (hp s) -> who (ref g) = OBack m b -> ~ In m (ids (EUn n o x)) ->
  good (val_of (hp s) g) -> un_backward n o (in1 (O k)) (out (O k)) g s = Ok (g1, s1) ->
  exists who1 m1 b1, kinv s1 who1 /\ kext (EUn n o x) (ref g) s s1 who who1 /\ ref g1 < length (hp s1) /\ who1 (ref g1) = OBack m1 b1 /\ ~ In m1 (ids x) /\ good (val_of (hp s1) g1) /\
    (dry (EUn n o x) k g s -> nth (ref g1) (hp s1) [] = []) /\
    (ref g1 = ref g \/ length (hp s) <= ref g1 \/ exists m2 b2, who (ref g1) = OBack m2 b2 /\ In m2 (ids (EUn n o x))).
Proof.
  intros H K Lg Wg Nm Gg E. assert (Hx := At_un e0 k n o x H). assert (Nx := no_cycle e0 Hcons n false x Hx).
  assert (Nmx : ~ In m (ids x)) by (intros Hi; apply Nm; now right).
  destruct (val_opt_good k (EUn n o x) s H ltac:(discriminate)) as [Gi _].
  unfold GraphModel.un_backward in E. apply bind_ok in E as (h & s0 & E0 & E). injection E0 as <- <-. destruct o as [ow f mo bk|f].
  - pose proof (Hst _ _ H) as St2. apply bind_ok in E as (v & s0 & E0 & E). apply the_ok in E0 as [Ev ->].
    assert (Gv : good v).
    { destruct (in1 (O k)) as [t|] eqn:Et; [exact (St2 _ _ _ _ Ev (Hsh k _ t H ltac:(discriminate) (or_introl Et)) Gg)|].
      exact (Hmis k _ H ltac:(discriminate) Et _ _ _ Ev Gg). }
    assert (Dm : dry (EUn n (UNew ow f mo bk) x) k g s -> snd v = []).
    { intros [[St Z]|[St Z]]; [exact (St _ _ _ _ Ev Gi Gg Z)|]. rewrite Z in Ev. exact (St _ _ _ Ev Gg). }
    assert (Keep : (if match mo with IntoOwn => true | _ => false end then into_ownb n false v else new_tensor v) s = Ok (g1, s1) -> exists who1 m1 b1, kinv s1 who1 /\ kext (EUn n (UNew ow f mo bk) x) (ref g) s s1 who who1 /\ ref g1 < length (hp s1) /\ who1 (ref g1) = OBack m1 b1 /\ ~ In m1 (ids x) /\ good (val_of (hp s1) g1) /\
    (dry (EUn n (UNew ow f mo bk) x) k g s -> nth (ref g1) (hp s1) [] = []) /\
    (ref g1 = ref g \/ length (hp s) <= ref g1 \/ exists m2 b2, who (ref g1) = OBack m2 b2 /\ In m2 (ids (EUn n (UNew ow f mo bk) x)))).
    { intros E1. destruct (keep_store n false _ v s who g1 s1 (EUn n (UNew ow f mo bk) x) K ltac:(now left) E1) as (who1 & Q1 & Q2 & Q3 & Q4 & Q5 & Q6 & Q7 & Q8).
      exists who1, n, false. split; [exact Q1|]. split; [apply Q2|]. split; [exact Q5|]. split; [exact Q6|]. split; [exact Nx|].
      split; [unfold good, val_of; cbn [fst snd]; rewrite Q3, Q4; exact Gv|]. split; [intros Z; rewrite Q4; auto|].
      right. destruct Q7 as [Q7|Q7]; [now left|right]. exists n, false. split; [exact Q7|now left]. }
    destruct mo; [exact (Keep E)|exact (Keep E)|]. clear Keep.
    apply bind_ok in E as (u & s0 & E0 & E). unfold heaply, store in E0. injection E0 as _ <-. injection E as <- <-. cbn [ref set_hp hp].
    exists who, m, b. split; [|split; [|split; [|split; [|split; [|split; [|split]]]]]].
    + eapply (kinv_step s _ who who K); try reflexivity; cbn [set_hp hp ownb].
      * now rewrite upd_length.
      * intros r Hr Hb. apply nth_error_upd_other. intros <-. exact (Hb _ _ Wg).
      * intros n0 c t Et. rewrite upd_length. now apply (k_ownb _ _ K).
    + constructor; cbn [set_hp hp]; [now rewrite upd_length|auto|]. intros r Hr Nr _ _. apply nth_error_upd_other. congruence.
    + now rewrite upd_length.
    + exact Wg.
    + exact Nmx.
    + unfold good, val_of. cbn [shape ref fst snd]. rewrite nth_upd_self by assumption. exact Gv.
    + intros Z. rewrite nth_upd_self by assumption. auto.
    + now left.
  - injection E as <- <-. exists who, m, b. cbn [ref]. split; [exact K|]. split; [apply kext_refl|]. split; [exact Lg|]. split; [exact Wg|]. split; [exact Nmx|].
    assert (Ni : in1 (O k) <> None) by (intros Z; exact (Hmis k _ H ltac:(discriminate) Z)). split; [|split; [|now left]].
    + unfold good, val_of. cbn [shape ref fst snd]. destruct (in1 (O k)) as [t|] eqn:Et; [|now destruct Ni]. cbn [val_opt val_of fst].
      destruct (Hsh k _ t H ltac:(discriminate) (or_introl Et)). auto.
    + intros [[_ Z]|[[] _]]. exact Z.
Qed.

Lemma two_stores n (b : bool) v w s who tl s1 tr s2 x r0 : kinv s who -> In n (ids x) ->
  (if b then into_ownb n false v else new_tensor v) s = Ok (tl, s1) -> (if b then into_ownb n true w else new_tensor w) s1 = Ok (tr, s2) ->
  exists who2, kinv s2 who2 /\ kext x r0 s s2 who who2 /\ shape tl = fst v /\ shape tr = fst w /\ nth (ref tl) (hp s2) [] = snd v /\ nth (ref tr) (hp s2) [] = snd w /\
    ref tl < length (hp s2) /\ ref tr < length (hp s2) /\ who2 (ref tl) = OBack n false /\ who2 (ref tr) = OBack n true /\
    (length (hp s) <= ref tl \/ who (ref tl) = OBack n false) /\ (length (hp s) <= ref tr \/ who (ref tr) = OBack n true).
Proof.
  intros K Hn E1 E2.
  destruct (keep_store n false b v s who tl s1 x K Hn E1) as (who1 & P1 & P2 & P3 & P4 & P5 & P6 & P7 & P8).
  destruct (keep_store n true b w s1 who1 tr s2 x P1 Hn E2) as (who2 & Q1 & Q2 & Q3 & Q4 & Q5 & Q6 & Q7 & Q8).
  pose proof (kx_len _ _ _ _ _ _ (P2 r0)) as L1. pose proof (kx_len _ _ _ _ _ _ (Q2 r0)) as L2.
  assert (W2 : who2 (ref tl) = OBack n false) by (rewrite (kx_who _ _ _ _ _ _ (Q2 r0)) by assumption; exact P6).
  assert (Nr : ref tl <> ref tr) by (intros Er; rewrite Er in W2; congruence).
  exists who2. split; [exact Q1|]. split; [exact (kext_trans x x x r0 r0 r0 s s1 s2 who who1 who2 (P2 r0) (Q2 r0) ltac:(tauto) ltac:(now left) ltac:(now left))|].
  split; [exact P3|]. split; [exact Q3|]. split; [rewrite <- P4; apply nth_error_nth_r, Q8; assumption|]. split; [exact Q4|]. split; [lia|]. split; [exact Q5|]. split; [exact W2|]. split; [exact Q6|].
  split; [exact P7|]. destruct Q7 as [Q7|Q7]; [left; lia|]. destruct (Nat.lt_ge_cases (ref tr) (length (hp s))) as [Lr|Lr]; [|now left].
  right. now rewrite <- (kx_who _ _ _ _ _ _ (P2 r0)).
Qed.

Lemma bin_step k n o l r g s who gs s1 : At e0 k (EBin n o l r) -> kinv s who -> good (val_of (hp s) g) ->
  bin_backward zero add dbg n o (in1 (O k)) (in2 (O k)) (out (O k)) g s = Ok (gs, s1) ->
  exists who1, kinv s1 who1 /\ kext (EBin n o l r) (ref g) s s1 who who1 /\ ref (fst gs) < length (hp s1) /\ ref (snd gs) < length (hp s1) /\
    who1 (ref (fst gs)) = OBack n false /\ who1 (ref (snd gs)) = OBack n true /\ good (val_of (hp s1) (fst gs)) /\ good (val_of (hp s1) (snd gs)) /\
    (dry (EBin n o l r) k g s -> nth (ref (fst gs)) (hp s1) [] = [] /\ nth (ref (snd gs)) (hp s1) [] = []) /\
    (length (hp s) <= ref (fst gs) \/ who (ref (fst gs)) = OBack n false) /\ (length (hp s) <= ref (snd gs) \/ who (ref (snd gs)) = OBack n true).
Proof.
  intros H K Gg E. destruct (val_opt_good k (EBin n o l r) s H ltac:(discriminate)) as [Gi Gj]. specialize (Gj Logic.I).
  unfold GraphModel.bin_backward in E. apply bind_ok in E as (h & s0 & E0 & E). injection E0 as <- <-.
  assert (Fin : forall (b : bool) (v w : val A) (tl tr : tensor) (sa sb : st A), gs = (tl, tr) -> sb = s1 -> (if b then into_ownb n false v else new_tensor v) s = Ok (tl, sa) -> (if b then into_ownb n true w else new_tensor w) sa = Ok (tr, sb) ->
     good v -> good w -> (dry (EBin n o l r) k g s -> snd v = [] /\ snd w = []) ->
     exists who1, kinv s1 who1 /\ kext (EBin n o l r) (ref g) s s1 who who1 /\ ref (fst gs) < length (hp s1) /\ ref (snd gs) < length (hp s1) /\
    who1 (ref (fst gs)) = OBack n false /\ who1 (ref (snd gs)) = OBack n true /\ good (val_of (hp s1) (fst gs)) /\ good (val_of (hp s1) (snd gs)) /\
    (dry (EBin n o l r) k g s -> nth (ref (fst gs)) (hp s1) [] = [] /\ nth (ref (snd gs)) (hp s1) [] = []) /\
    (length (hp s) <= ref (fst gs) \/ who (ref (fst gs)) = OBack n false) /\ (length (hp s) <= ref (snd gs) \/ who (ref (snd gs)) = OBack n true)).
  { intros b v w tl tr sa sb -> -> E1 E2 Gv Gw Dm.
    destruct (two_stores n b v w s who tl sa tr s1 (EBin n o l r) (ref g) K ltac:(now left) E1 E2) as (who1 & Q1 & Q2 & Q3 & Q4 & Q5 & Q6 & Q7 & Q8 & Q9 & Q10 & Q11 & Q12).
    exists who1. cbn [fst snd]. split; [exact Q1|]. split; [exact Q2|]. split; [exact Q7|]. split; [exact Q8|]. split; [exact Q9|]. split; [exact Q10|].
    unfold good, val_of. cbn [fst snd]. rewrite Q3, Q4, Q5, Q6. auto 6. }
  destruct o as [|ow f bo bk].
  - apply bind_ok in E as (gl & sa & E1 & E). apply the_ok in E1 as [El ->]. apply bind_ok in E as (tl & sb & E2 & E).
    apply bind_ok in E as (gr & sc & E3 & E). apply the_ok in E3 as [Er ->]. apply bind_ok in E as (tr & sd & E4 & E). injection E as <- <-.
    destruct (unbroadcast_shape _ _ _ El) as (U1 & U2 & U3). destruct (unbroadcast_shape _ _ _ Er) as (W1 & W2 & _).
    apply (Fin false gl gr tl tr sb sd eq_refl eq_refl E2 E4 (U2 Gg) (W2 Gg)).
    intros Z. assert (Zg : snd (val_of (hp s) g) = []) by (destruct Z as [[_ Z]|[_ Z]]; [exact Z|apply U3; [now rewrite Z|exact Gg]]). auto.
  - pose proof (Hst _ _ H) as St2. apply bind_ok in E as ([v w] & sa & E1 & E). apply the_ok in E1 as [Ev ->]. cbn [fst snd] in E.
    assert (Dm : dry (EBin n (BNew ow f bo bk) l r) k g s -> snd v = [] /\ snd w = []).
    { intros [[St Z]|[St Z]]; [exact (St _ _ _ _ _ _ Ev Gi Gj Gg Z)|]. rewrite Z, (proj1 (Hnone _ _ H Logic.I) Z) in Ev. exact (St _ _ _ _ Ev Gg). }
    assert (Gvw : good v /\ good w).
    { destruct (in1 (O k)) as [t|] eqn:Et; destruct (in2 (O k)) as [t'|] eqn:Et'; try (exfalso; destruct (Hnone k _ H Logic.I) as [N1 N2]; rewrite Et, Et' in *; (discriminate (N1 eq_refl) || discriminate (N2 eq_refl))).
      - exact (St2 _ _ _ _ _ _ Ev (Hsh k _ t H ltac:(discriminate) (or_introl Et)) (Hsh k _ t' H ltac:(discriminate) (or_intror (conj Logic.I Et'))) Gg).
      - exact (Hmis k _ H ltac:(discriminate) Et _ _ _ _ Ev Gg). }
    destruct Gvw as [Gv Gw].
    destruct bo; apply bind_ok in E as (tl & sb & E2 & E); apply bind_ok in E as (tr & sc & E3 & E); injection E as <- <-.
    + exact (Fin true v w tl tr sb sc eq_refl eq_refl E2 E3 Gv Gw Dm).
    + exact (Fin false v w tl tr sb sc eq_refl eq_refl E2 E3 Gv Gw Dm).
Qed.

Lemma back_tears x : forall k g s who s' m b, At e0 k x -> kinv s who -> ref g < length (hp s) -> who (ref g) = OBack m b -> ~ In m (ids x) ->
  good (val_of (hp s) g) -> backward k x g s = Ok (tt, s') -> tears k x g s s' who.
Proof.
  induction x as [v|p|c|c|n o x IH|n o l IHl r IHr]; intros k g s who s' m b H K Lg Wg Nm Gg E; cbn [GraphModel.backward] in E.
  1: { destruct (var_step k v g s who s' H K Lg (ex_intro _ m (ex_intro _ b Wg)) E) as (Q1 & Q2 & Q3). exists who. split; [exact Q1|]. split; [exact Q2|]. split.
       - intros _ Z k' w [[= <- <-]|[]]. auto.
       - intros k' y [[= <- <-]|[]] [[] _]. }
  1-3: injection E as <-; exists who; split; [exact K|]; split; [apply kext_refl|]; split; [intros _ _ k' w [Z1|[]]; discriminate Z1|intros k' y [[= <- <-]|[]] [[] _]].
  - apply bind_ok in E as (o1 & s0 & E0 & E). injection E0 as <- <-. apply bind_ok in E as (g1 & s1 & E1 & E). rewrite (k_objs _ _ K) in E1.
    destruct (un_step k n o x g s who g1 s1 m b H K Lg Wg Nm Gg E1) as (who1 & m1 & b1 & Q1 & Q2 & Q3 & Q4 & Q5 & Q6 & Q7 & Q8).
    destruct (IH _ _ _ _ _ _ _ (At_un e0 k n o x H) Q1 Q3 Q4 Q5 Q6 E) as (who2 & R1 & R2 & R3 & R4).
    exists who2. split; [exact R1|]. split.
    { refine (kext_trans (EUn n o x) (EUn n o x) x (ref g) (ref g) (ref g1) s s1 s' who who1 who2 Q2 R2 _ _ Q8); [|now left]. intros i [Hi|Hi]; [exact Hi|now right]. }
    split.
    + intros St Z. apply strict_un in St as [St1 St2]. apply no_tv_un, (R3 St2), Q7. now left.
    + intros k' y [[= <- <-]|Hi] M St; [|exact (R4 _ _ Hi M St)]. apply strict_un in St as [St1 St2]. apply no_tv_un, (R3 St2), Q7. now right.
  - apply bind_ok in E as (o1 & s0 & E0 & E). injection E0 as <- <-. apply bind_ok in E as (gs & s1 & E1 & E). rewrite (k_objs _ _ K) in E1.
    destruct (bin_step k n o l r g s who gs s1 H K Gg E1) as (who1 & Q1 & Q2 & Q3 & Q4 & Q5 & Q6 & Q7 & Q8 & Q9 & Q10 & Q11).
    assert (Hl := At_left e0 k n o l r H). assert (Hr := At_right e0 k n o l r H). assert (Nl := no_cycle e0 Hcons n false l Hl). assert (Nr := no_cycle e0 Hcons n true r Hr).
    apply bind_ok in E as ([] & s2 & E2 & E).
    destruct (IHl _ _ _ _ _ _ _ Hl Q1 Q3 Q5 Nl Q7 E2) as (who2 & R1 & R2 & R3 & R4).
    pose proof (kx_len _ _ _ _ _ _ R2) as L2. assert (W2 : who2 (ref (snd gs)) = OBack n true) by (rewrite (kx_who _ _ _ _ _ _ R2) by assumption; exact Q6).
    assert (F2 : nth (ref (snd gs)) (hp s2) [] = nth (ref (snd gs)) (hp s1) []).
    { apply nth_error_nth_r. apply (kx_frame _ _ _ _ _ _ R2); [exact Q4| | |].
      - intros Er. rewrite Er in Q6. congruence.
      - intros v. rewrite Q6. discriminate.
      - intros i c. rewrite Q6. intros [= <- <-]. exact Nl. }
    assert (G2 : good (val_of (hp s2) (snd gs))) by (unfold good, val_of; cbn [fst snd]; rewrite F2; exact Q8).
    assert (L3 : ref (snd gs) < length (hp s2)) by lia.
    destruct (IHr _ _ _ _ _ _ _ Hr R1 L3 W2 Nr G2 E) as (who3 & S1 & S2 & S3 & S4).
    exists who3. split; [exact S1|]. split; [|split].
    + assert (K2 : kext (EBin n o l r) (ref g) s s2 who who2).
      { refine (kext_trans (EBin n o l r) (EBin n o l r) l (ref g) (ref g) (ref (fst gs)) s s1 s2 who who1 who2 Q2 R2 _ _ _).
        - intros i [Hi|Hi]; [exact Hi|]. right. apply in_or_app. now left.
        - now left.
        - destruct Q10 as [Q10|Q10]; [auto|]. right. right. exists n, false. split; [exact Q10|now left]. }
      refine (kext_trans (EBin n o l r) (EBin n o l r) r (ref g) (ref g) (ref (snd gs)) s s2 s' who who2 who3 K2 S2 _ _ _).
      * intros i [Hi|Hi]; [exact Hi|]. right. apply in_or_app. now right.
      * now left.
      * destruct Q11 as [Q11|Q11]; [auto|]. right. right. exists n, true. split; [exact Q11|now left].
    + intros St Z. apply strict_bin in St as (St1 & St2 & St3). destruct Q9 as [Z1 Z2]; [now left|]. apply no_tv_bin; [auto|apply (S3 St3); now rewrite F2].
    + intros k' y [[= <- <-]|Hi] M St.
      * apply strict_bin in St as (St1 & St2 & St3). destruct Q9 as [Z1 Z2]; [now right|]. apply no_tv_bin; [auto|apply (S3 St3); now rewrite F2].
      * apply in_app_or in Hi as [Hi|Hi]; [exact (R4 _ _ Hi M St)|exact (S4 _ _ Hi M St)].
Qed.

End Doom.
