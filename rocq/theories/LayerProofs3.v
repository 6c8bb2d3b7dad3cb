(** Max pooling over histories, img2col and the convolution, drop-out, repeat and spread. *)
From Coq Require Import List Arith Lia Bool PeanoNat ZArith Reals Lra Permutation.
From Verif Require Import ListBase Loops TensorModel TensorProofs ArrayModel ArrayProofs LayerModel LayerSpec LayerProofs LayerProofs2.
Import ListNotations.

(** ** the first largest element of a block *)



Lemma strict_weak_mixed {A} (ltb : A -> A -> bool) : strict_weak ltb -> forall x y z, ltb y x = false -> ltb y z = true -> ltb x z = true.
Proof.
  intros (I & T & N) x y z H1 H2. destruct (ltb x z) eqn:E; [reflexivity|]. rewrite (N y x z H1 E) in H2. discriminate.
Qed.

Lemma first_max_snoc {A} (zero : A) ltb d pre cur p :
  strict_weak ltb -> first_max zero ltb d pre cur ->
  first_max zero ltb d (pre ++ [p]) (if ltb (nth cur d zero) (nth p d zero) then p else cur).
Proof.
  intros SW (l1 & l2 & -> & H1 & H2). destruct (ltb (nth cur d zero) (nth p d zero)) eqn:E.
  - exists (l1 ++ cur :: l2), []. split; [reflexivity|]. split; [|intros q []].
    intros q Hq. apply in_app_or in Hq. destruct SW as (I & T & N). destruct Hq as [Hq|[<-|Hq]].
    + apply (T _ (nth cur d zero)); auto.
    + assumption.
    + apply (strict_weak_mixed ltb (conj I (conj T N)) _ (nth cur d zero)); auto.
  - exists l1, (l2 ++ [p]). split; [now rewrite <- app_assoc|]. split; [assumption|].
    intros q Hq. apply in_app_or in Hq. destruct Hq as [Hq|[<-|[]]]; auto.
Qed.

Lemma block_max_scan {A} (zero : A) ltb d l pre cur :
  strict_weak ltb -> first_max zero ltb d pre cur -> first_max zero ltb d (pre ++ l) (block_max zero ltb d cur l).
Proof.
  intros SW. revert pre cur. unfold block_max. induction l as [|p l IH]; intros pre cur H; cbn [fold_left].
  - now rewrite app_nil_r.
  - replace (pre ++ p :: l) with ((pre ++ [p]) ++ l) by now rewrite <- app_assoc. apply IH. now apply first_max_snoc.
Qed.

Lemma block_max_first {A} (zero : A) ltb d p l :
  strict_weak ltb -> first_max zero ltb d (p :: l) (block_max zero ltb d p (p :: l)).
Proof.
  intros SW. unfold block_max. cbn [fold_left]. rewrite (proj1 SW).
  apply (block_max_scan zero ltb d l [p] p SW). exists [], []. split; [reflexivity|]. split; intros q [].
Qed.

Lemma first_max_unique {A} (zero : A) ltb d cells p q :
  strict_weak ltb -> NoDup cells -> first_max zero ltb d cells p -> first_max zero ltb d cells q -> p = q.
Proof.
  intros SW Hnd (l1 & l2 & -> & H1 & H2) (m1 & m2 & E & K1 & K2).
  assert (Hq : In q (l1 ++ p :: l2)) by (rewrite E; apply in_or_app; right; now left).
  assert (Hp : In p (m1 ++ q :: m2)) by (rewrite <- E; apply in_or_app; right; now left).
  apply in_app_or in Hq, Hp. destruct SW as (I & T & N).
  destruct Hq as [Hq|[Hq|Hq]]; [|now auto|].
  - destruct Hp as [Hp|[Hp|Hp]]; [|now auto|].
    + specialize (T _ _ _ (H1 _ Hq) (K1 _ Hp)). rewrite I in T. discriminate.
    + specialize (H1 _ Hq). rewrite (K2 _ Hp) in H1. discriminate.
  - destruct Hp as [Hp|[Hp|Hp]]; [|now auto|].
    + specialize (K1 _ Hp). rewrite (H2 _ Hq) in K1. discriminate.
    + (* both behind each other: positions contradict *)
      exfalso. clear H1 H2 K1 K2 I T N.
      assert (forall (a b : list nat) p q l2 m2, NoDup (a ++ p :: l2) -> a ++ p :: l2 = b ++ q :: m2 -> In q l2 -> In p m2 -> False) as G; [|eapply G; eauto].
      clear. induction a as [|x a IH]; intros b p q l2 m2 Hnd E Hq Hp.
      * destruct b as [|y b]; cbn in E; injection E as -> E.
        -- subst. cbn in Hnd. inversion Hnd; auto.
        -- cbn in Hnd. inversion Hnd as [|? ? Hn ?]. apply Hn. rewrite E. apply in_or_app. right. now right.
      * cbn in Hnd. inversion Hnd as [|? ? Hn Hnd']; subst. destruct b as [|y b]; cbn in E; injection E as -> E.
        -- apply Hn. apply in_or_app. right. now right.
        -- eapply IH; eauto.
Qed.

(** the cells of a block *)
Lemma block_cells_head R C K s i y z w : s <> 0 -> exists l, block_cells R C K s i y z w = pos4 R C K i (y * s) (z * s) w :: l.
Proof.
  intros Hs. unfold block_cells, loop2. destruct s; [lia|]. rewrite tab2_S. rewrite tab_S. cbn [app]. rewrite !Nat.add_0_r. eexists. reflexivity.
Qed.

Lemma block_cells_in R C K s i y z w p :
  In p (block_cells R C K s i y z w) <-> exists a b, a < s /\ b < s /\ p = pos4 R C K i (y * s + a) (z * s + b) w.
Proof. apply in_loop2. Qed.

Lemma div_block_lt r s y a : y < r / s -> a < s -> y * s + a < r.
Proof. intros Hy Ha. assert (s <> 0) by lia. assert (E := Nat.mul_div_le r s ltac:(assumption)). assert (S y <= r / s) by lia. nia. Qed.

Lemma block_div s y a : a < s -> (y * s + a) / s = y.
Proof. intros Ha. rewrite Nat.div_add_l by lia. rewrite (Nat.div_small a s) by assumption. lia. Qed.

(** p is the first maximum of its block in x *)
Definition chosen {A} (zero : A) ltb n r c k s (x : list A) (p : nat) : Prop :=
  exists i y z w, i < n /\ y < r / s /\ z < c / s /\ w < k /\ first_max zero ltb x (block_cells r c k s i y z w) p.

Lemma chosen_at {A} (zero : A) ltb n r c k s (x : list A) p :
  chosen zero ltb n r c k s x p -> exists i Y Z w, i < n /\ Y < r /\ Z < c /\ w < k /\ Y / s < r / s /\ Z / s < c / s /\ p = pos4 r c k i Y Z w /\
    first_max zero ltb x (block_cells r c k s i (Y / s) (Z / s) w) p.
Proof.
  intros (i & y & z & w & Hi & Hy & Hz & Hw & F). assert (In p (block_cells r c k s i y z w)) as Hin.
  { destruct F as (l1 & l2 & -> & _). apply in_or_app. right. now left. }
  apply block_cells_in in Hin. destruct Hin as (a & b & Ha & Hb & E).
  assert (Y1 : (y * s + a) / s = y) by now apply block_div. assert (Z1 : (z * s + b) / s = z) by now apply block_div.
  exists i, (y * s + a), (z * s + b), w. rewrite Y1, Z1. split; [assumption|]. split; [now apply div_block_lt|]. split; [now apply div_block_lt|].
  repeat (split; [assumption|]). assumption.
Qed.

Section Pool.
Context {A : Type} (zero one : A) (ltb : A -> A -> bool) (is_one : A -> bool).
Hypothesis SW : strict_weak ltb.
Hypothesis Hone : is_one one = true.
Hypothesis Hzero : is_one zero = false.
Variable dbg : bool.
Variables n r c k s : nat.
Hypothesis Hs : s <> 0.

Let best (x : list A) i y z w := block_max zero ltb x (pos4 r c k i (y * s) (z * s) w) (block_cells r c k s i y z w).

Lemma best_first x i y z w : first_max zero ltb x (block_cells r c k s i y z w) (best x i y z w).
Proof. unfold best. destruct (block_cells_head r c k s i y z w Hs) as (l & ->). now apply block_max_first. Qed.

Lemma best_chosen x i y z w : i < n -> y < r / s -> z < c / s -> w < k -> chosen zero ltb n r c k s x (best x i y z w).
Proof. intros. exists i, y, z, w. repeat (split; [assumption|]). apply best_first. Qed.

Lemma chosen_best x p : chosen zero ltb n r c k s x p ->
  exists i y z w, i < n /\ y < r / s /\ z < c / s /\ w < k /\ p = best x i y z w.
Proof.
  intros (i & y & z & w & Hi & Hy & Hz & Hw & F). exists i, y, z, w. repeat (split; [assumption|]).
  refine (first_max_unique zero ltb x _ _ _ SW _ F (best_first _ _ _ _ _)).
  apply NoDup_loop2. intros a b a' b' Ha Hb Ha' Hb' E.
  assert (G := div_block_lt). apply (pos4_inj n) in E; auto. lia.
Qed.

Lemma chosen_lt x p : chosen zero ltb n r c k s x p -> p < prod [n; r; c; k].
Proof. intros H. apply chosen_at in H. destruct H as (i & Y & Z & w & Hi & HY & HZ & Hw & _ & _ & -> & _). now apply pos4_lt. Qed.

(** what the operator remembers after the forward runs on xs *)
Definition remembers (xs : list (list A)) (st : pool) : Prop :=
  (xs <> [] -> length (p_mask st) = prod [n; r; c; k]) /\
  (xs = [] -> p_mask st = []) /\
  (forall p, p < length (p_mask st) ->
     (nth p (p_mask st) zero = one /\ exists x, In x xs /\ chosen zero ltb n r c k s x p) \/
     (nth p (p_mask st) zero = zero /\ ~ exists x, In x xs /\ chosen zero ltb n r c k s x p)) /\
  (p_back st = [] \/ length (p_back st) = prod [n; r; c; k]) /\
  (forall p, (~ exists x, In x xs /\ chosen zero ltb n r c k s x p) -> nth p (p_back st) zero = zero).

Lemma remembers_start : remembers [] pool0.
Proof.
  split; [congruence|]. split; [reflexivity|]. split; [cbn [pool0 p_mask length]; lia|]. split; [now left|]. intros p _. cbn. now destruct p.
Qed.

Lemma max_fwd_ok xs st x :
  remembers xs st -> wf x -> ashape x = [n; r; c; k] ->
  exists st' d, max_fwd zero one dbg ltb s st x = Ok (st', Arr [n; r / s; c / s; k] d) /\ remembers (xs ++ [adata x]) st' /\
    length d = prod [n; r / s; c / s; k] /\
    forall i y z w, i < n -> y < r / s -> z < c / s -> w < k ->
      exists p, first_max zero ltb (adata x) (block_cells r c k s i y z w) p /\
                nth_error d (pos4 (r / s) (c / s) k i y z w) = nth_error (adata x) p.
Proof.
  intros (M1 & M2 & M3 & B1 & B2) W E. assert (L := wf4 _ _ _ _ _ W E). unfold max_fwd. rewrite (with4_ok dbg x n r c k) by assumption.
  rewrite (proj2 (Nat.eqb_neq s 0) Hs). cbv beta zeta.
  set (out0 := resized zero (p_out st) _). assert (Lo : length out0 = prod [n; r / s; c / s; k]) by apply resized_length.
  set (mask0 := resized zero (p_mask st) _). assert (Lm : length mask0 = prod [n; r; c; k]) by apply resized_length.
  assert (Hmask0 : forall p, p < prod [n; r; c; k] ->
    (nth p mask0 zero = one /\ exists x, In x xs /\ chosen zero ltb n r c k s x p) \/ (nth p mask0 zero = zero /\ ~ exists x, In x xs /\ chosen zero ltb n r c k s x p)).
  { intros p Hp. destruct xs as [|x0 xs].
    - right. split; [|intros (x' & [] & _)]. unfold mask0. rewrite M2, resized_nil by reflexivity. apply nth_repeat_any.
    - unfold mask0. rewrite resized_same by (apply M1; congruence). apply M3. rewrite M1 by congruence. assumption. }
  do 2 eexists. split; [reflexivity|]. split; [|split].
  - unfold remembers. cbn [p_mask p_back]. rewrite writes_length. split; [intros _; assumption|]. split; [intros Hn; now destruct xs|]. split; [|split].
    + rewrite Lm. intros p Hp. set (ws := loop4 n (r / s) (c / s) k (fun i y z w => (best (adata x) i y z w, one))).
      match goal with |- (nth p ?X zero = _ /\ _) \/ _ => change X with (writes ws mask0) end.
      assert (Hws : forall w, In w ws -> snd w = one /\ chosen zero ltb n r c k s (adata x) (fst w)).
      { intros w Hw. apply in_loop4 in Hw. destruct Hw as (i & y & z & v & Hi & Hy & Hz & Hv & ->). cbn [fst snd]. split; [reflexivity|]. now apply best_chosen. }
      destruct (in_dec Nat.eq_dec p (map fst ws)) as [Hin|Hout].
      * left. apply in_map_iff in Hin. destruct Hin as ((q & v) & Eq & Hin). cbn in Eq. subst q. destruct (Hws _ Hin) as [Ev Hc]. cbn [fst snd] in *. subst v. split.
        -- apply nth_error_nth. apply writes_at; [rewrite Lm; assumption|exact Hin|]. intros w Hw _. now apply Hws.
        -- exists (adata x). split; [apply in_or_app; right; now left|assumption].
      * assert (Ew : nth p (writes ws mask0) zero = nth p mask0 zero).
        { apply nth_error_nth. rewrite writes_other; [apply nth_error_of_nth; now rewrite Lm|]. intros w Hw Ew. apply Hout. rewrite <- Ew. now apply in_map. }
        rewrite Ew.
        assert (Hno : ~ chosen zero ltb n r c k s (adata x) p).
        { intros Hc. apply chosen_best in Hc. destruct Hc as (i & y & z & w & Hi & Hy & Hz & Hw & ->). apply Hout. apply in_map_iff.
          exists (best (adata x) i y z w, one). split; [reflexivity|]. apply in_loop4. exists i, y, z, w. auto 10. }
        destruct (Hmask0 p Hp) as [[Em (x' & Hx' & Hc)]|[Em Hc]]; [left|right].
        -- split; [assumption|]. exists x'. split; [apply in_or_app; now left|assumption].
        -- split; [assumption|]. intros (x' & Hx' & Hc'). apply in_app_or in Hx'. destruct Hx' as [Hx'|[<-|[]]]; [apply Hc; eauto|auto].
    + assumption.
    + intros p Hp. apply B2. intros (x' & Hx' & Hc). apply Hp. exists x'. split; [apply in_or_app; now left|assumption].
  - now rewrite writes_length.
  - intros i y z w Hi Hy Hz Hw. exists (best (adata x) i y z w). split; [apply best_first|].
    unfold best. rewrite (writes_loop4_all n (r / s) (c / s) k (fun i y z w => nth (block_max zero ltb (adata x) (pos4 r c k i (y * s) (z * s) w) (block_cells r c k s i y z w)) (adata x) zero)) by assumption.
    fold (best (adata x) i y z w). rewrite nth_error_loop4' by assumption. symmetry. apply nth_error_of_nth. rewrite L. apply (chosen_lt (adata x)). now apply (best_chosen (adata x)).
Qed.

Lemma max_bwd_ok xs st input g :
  remembers xs st -> xs <> [] -> ashape input = [n; r; c; k] -> wf g -> ashape g = [n; r / s; c / s; k] ->
  exists st' d, max_bwd zero is_one s st input g = Ok (st', Arr [n; r; c; k] d) /\ remembers xs st' /\ length d = prod [n; r; c; k] /\
    forall i Y Z w, i < n -> Y < r -> Z < c -> w < k ->
      ((exists x, In x xs /\ chosen zero ltb n r c k s x (pos4 r c k i Y Z w)) ->
         nth_error d (pos4 r c k i Y Z w) = nth_error (adata g) (pos4 (r / s) (c / s) k i (Y / s) (Z / s) w)) /\
      ((~ exists x, In x xs /\ chosen zero ltb n r c k s x (pos4 r c k i Y Z w)) -> nth_error d (pos4 r c k i Y Z w) = Some zero).
Proof.
  intros Hrem Hx E W Eg. assert (Hrem' := Hrem). destruct Hrem as (M1 & M2 & M3 & B1 & B2). specialize (M1 Hx). clear M2. assert (Lg := wf4 _ _ _ _ _ W Eg).
  unfold max_bwd. rewrite E, (proj2 (Nat.eqb_neq s 0) Hs), M1, Nat.leb_refl. cbv zeta.
  set (marked := filter _ _).
  assert (Hmk : forall w, In w marked -> exists i Y Z v, i < n /\ Y < r /\ Z < c /\ v < k /\ Y / s < r / s /\ Z / s < c / s /\
             w = (pos4 r c k i Y Z v, pos4 (r / s) (c / s) k i (Y / s) (Z / s) v) /\ exists x, In x xs /\ chosen zero ltb n r c k s x (pos4 r c k i Y Z v)).
  { intros w Hw. unfold marked in Hw. apply filter_In in Hw. destruct Hw as [Hw Ho]. apply in_loop4 in Hw.
    destruct Hw as (i & Y & Z & v & Hi & HY & HZ & Hv & ->). cbn [fst] in Ho.
    destruct (M3 (pos4 r c k i Y Z v) ltac:(rewrite M1; now apply pos4_lt)) as [[_ (x & Hin & Hc)]|[Hz _]]; [|rewrite Hz, Hzero in Ho; discriminate].
    destruct (chosen_at _ _ _ _ _ _ _ _ _ Hc) as (i' & Y' & Z' & w' & Hi' & HY' & HZ' & Hw' & D1 & D2 & Eq & _).
    apply (pos4_inj n) in Eq; auto. destruct Eq as (<- & <- & <- & <-).
    exists i, Y, Z, v. repeat (split; [assumption|]). split; [reflexivity|]. exists x. auto. }
  replace (forallb _ _) with true; [|symmetry; apply forallb_forall; intros w Hw; destruct (Hmk w Hw) as (i & Y & Z & v & Hi & HY & HZ & Hv & D1 & D2 & -> & _); cbn [snd]; apply Nat.ltb_lt; rewrite Lg; now apply pos4_lt].
  cbn [andb]. set (b0 := resized zero (p_back st) _). assert (Lb : length b0 = prod [n; r; c; k]) by apply resized_length.
  assert (Hb0 : forall p, (~ exists x, In x xs /\ chosen zero ltb n r c k s x p) -> nth p b0 zero = zero).
  { intros p Hp. unfold b0. destruct B1 as [Eb|Lb0]; [rewrite Eb, resized_nil; apply nth_repeat_any|]. rewrite resized_same by assumption. auto. }
  assert (Hout : forall p, (~ exists x, In x xs /\ chosen zero ltb n r c k s x p) -> nth_error (writes (map (fun w => (fst w, nth (snd w) (adata g) zero)) marked) b0) p = nth_error b0 p).
  { intros p Hp. apply writes_other. intros w Hw. apply in_map_iff in Hw. destruct Hw as (w' & <- & Hw'). cbn [fst].
    destruct (Hmk w' Hw') as (i & Y & Z & v & Hi & HY & HZ & Hv & D1 & D2 & -> & Hc). cbn [fst]. intros <-. auto. }
  do 2 eexists. split; [reflexivity|]. split; [|split].
  - unfold remembers. cbn [p_mask p_back]. split; [auto|]. split; [congruence|]. split; [assumption|]. rewrite writes_length. split; [now right|].
    intros p Hp. transitivity (nth p b0 zero); [|now apply Hb0]. destruct (lt_dec p (length b0)) as [Hl|Hl].
    + apply nth_error_nth. rewrite (Hout p Hp). now apply nth_error_of_nth.
    + rewrite !nth_overflow; rewrite ?writes_length; lia || reflexivity.
  - now rewrite writes_length.
  - intros i Y Z w Hi HY HZ Hw. assert (Hpl := pos4_lt n r c k i Y Z w Hi HY HZ Hw). split.
    + intros Hc. assert (Hin : In (pos4 r c k i Y Z w, pos4 (r / s) (c / s) k i (Y / s) (Z / s) w) marked).
      { unfold marked. apply filter_In. split; [apply in_loop4; exists i, Y, Z, w; auto 10|]. cbn [fst].
        destruct (M3 (pos4 r c k i Y Z w) ltac:(now rewrite M1)) as [[-> _]|[_ Hn]]; [exact Hone|tauto]. }
      destruct (Hmk _ Hin) as (i' & Y' & Z' & v & Hi' & HY' & HZ' & Hv & D1 & D2 & Eq & _). injection Eq as Eq _.
      apply (pos4_inj n) in Eq; auto. destruct Eq as (<- & <- & <- & <-).
      rewrite (nth_error_of_nth zero (adata g)) by (rewrite Lg; now apply pos4_lt). apply writes_at; [now rewrite Lb| |].
      * apply in_map_iff. eexists. split; [|exact Hin]. reflexivity.
      * intros w' Hw' Ew. apply in_map_iff in Hw'. destruct Hw' as (w0 & <- & Hw0). cbn [fst snd] in *.
        destruct (Hmk _ Hw0) as (i1 & Y1 & Z1 & v1 & ? & ? & ? & ? & ? & ? & -> & _). cbn [fst snd] in *.
        apply (pos4_inj n) in Ew; auto. destruct Ew as (-> & -> & -> & ->). reflexivity.
    + intros Hc. rewrite (Hout _ Hc). rewrite (nth_error_of_nth zero b0) by now rewrite Lb. now rewrite Hb0.
Qed.

End Pool.
