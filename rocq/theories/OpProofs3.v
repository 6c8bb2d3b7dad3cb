(** Right local rules from formulas for the forward action; two-operand operators. *)
From Coq Require Import List Arith Lia Bool PeanoNat Reals Lra.
From Coquelicot Require Import Rcomplements Hierarchy Derive.
From Verif Require Import ListBase TensorModel TensorSpec TensorProofs TensorProps ArrayModel GraphModel GraphSpec GradSpec LayerSpec LayerProofs LayerProofs4
  GradProofs BcastAdjoint CalcSpec CalcProofs CalcProofs2 CalcProofs3 OpModel OpSpec OpProofs Scalar OpRules OpRules2 OpProofs2.
Import ListNotations.
Local Open Scope nat_scope.

Definition elems (v : option (val R)) : list R := match v with Some w => snd w | None => [] end.

Lemma entry_elems v p : entry v p = nth p (elems v) 0%R.
Proof. destruct v; [reflexivity|]. now destruct p. Qed.

(** ** One operand *)

Lemma right1_intro o i s (F : list R -> nat -> R) (DF : list R -> nat -> R) : sized i ->
  (forall w, fst w = fst i -> sized w -> apply1 o w = Some (s, tab (prod s) (F (snd w)))) ->
  (forall u t0 di, u t0 = snd i -> length di = prod (fst i) ->
     (forall q, q < prod (fst i) -> is_derive (fun t => nth q (u t) 0%R) t0 (nth q di 0%R)) ->
     forall p, p < prod s -> is_derive (fun t => F (u t) p) t0 (DF di p)) ->
  (forall g, length g = prod s -> exists gi, local1 o i (s, g) = Some (fst i, gi) /\ length gi = prod (fst i) /\
     forall di, length di = prod (fst i) -> rsum (tab (prod s) (fun p => nth p g 0 * DF di p))%R = inner gi di) ->
  right1 o i.
Proof.
  intros Hi HF HD HB c t0 di [E S L N D].
  exists (s, tab (prod s) (F (snd i))), (tab (prod s) (DF di)). split.
  - constructor; cbn [fst snd].
    + rewrite E. now apply HF.
    + unfold sized. cbn [fst snd]. apply tab_length.
    + apply tab_length.
    + revert N. apply filter_imp. intros t (w & Ew & Sw & Zw). rewrite Ew. cbn [obind2]. rewrite HF by assumption. eexists. split; [reflexivity|].
      split; [reflexivity|]. unfold sized. cbn [fst snd]. apply tab_length.
    + intros p Hp. rewrite nth_tab by assumption. apply (is_derive_ext_loc (fun t => F (elems (c t)) p)).
      * revert N. apply filter_imp. intros t (w & Ew & Sw & Zw). rewrite Ew. cbn [obind2 elems]. rewrite HF by assumption. cbn [entry snd]. now rewrite nth_tab.
      * apply HD; [now rewrite E|assumption| |assumption]. intros q Hq. apply (is_derive_ext (fun t => entry (c t) q)); [intros t; apply entry_elems|now apply D].
  - cbn [fst]. intros g Sg Zg. unfold sized in Zg. rewrite Sg in Zg. destruct (HB (snd g) Zg) as (gi & E1 & L1 & H1).
    exists (fst i, gi). rewrite <- Sg, <- surjective_pairing in E1. split; [assumption|]. split; [reflexivity|]. split; [assumption|]. cbn [snd].
    rewrite inner_tab_r by assumption. now apply H1.
Qed.

(** what a right rule says about one element of the input and one of the result *)
Lemma right1_unit o i y p q d : sized i -> right1 o i -> apply1 o i = Some y -> p < prod (fst i) -> q < prod (fst y) ->
  is_derive (fun t => entry (apply1 o (fst i, upd (snd i) p t)) q) (nth p (snd i) 0%R) d ->
  forall c, exists gi, local1 o i (fst y, upd (repeat 0%R (prod (fst y))) q c) = Some gi /\ nth p (snd gi) 0%R = (c * d)%R.
Proof.
  intros Hi HR Ey Hp Hq D c. destruct (HR _ _ _ (lone_tangent i p Hi Hp)) as (y' & dy & T & G).
  assert (y' = y).
  { pose proof (tan_at _ _ _ _ T) as E. unfold lone in E. rewrite upd_self in E by (unfold sized in Hi; lia). cbn [obind2] in E.
    rewrite <- surjective_pairing, Ey in E. congruence. }
  subst y'. destruct (G (fst y, upd (repeat 0%R (prod (fst y))) q c)) as (gi & E & Si & Zi & I).
  { reflexivity. } { unfold sized. cbn [fst snd]. now rewrite upd_length, repeat_length. }
  exists gi. split; [assumption|]. cbn [snd] in I. rewrite inner_spot in I by (assumption || apply (tan_len _ _ _ _ T)).
  unfold sized in Zi. rewrite inner_unit in I by (assumption || congruence). rewrite <- I. f_equal.
  pose proof (tan_derive _ _ _ _ T q Hq) as D'. apply is_derive_unique in D. apply is_derive_unique in D'.
  unfold lone, obind2 in D'. congruence.
Qed.

(** ** Two operands *)

Lemma right2_intro dbg o a b s (F : list R -> list R -> nat -> R) (DF : list R -> list R -> nat -> R) : sized a -> sized b ->
  (forall wa wb, fst wa = fst a -> sized wa -> fst wb = fst b -> sized wb -> apply2 o wa wb = Some (s, tab (prod s) (F (snd wa) (snd wb)))) ->
  (forall u v t0 da db, u t0 = snd a -> v t0 = snd b -> length da = prod (fst a) -> length db = prod (fst b) ->
     (forall q, q < prod (fst a) -> is_derive (fun t => nth q (u t) 0%R) t0 (nth q da 0%R)) ->
     (forall q, q < prod (fst b) -> is_derive (fun t => nth q (v t) 0%R) t0 (nth q db 0%R)) ->
     forall p, p < prod s -> is_derive (fun t => F (u t) (v t) p) t0 (DF da db p)) ->
  (forall g, length g = prod s -> exists ga gb, local2 0%R Rplus dbg o a b (s, g) = Some ((fst a, ga), (fst b, gb)) /\
     length ga = prod (fst a) /\ length gb = prod (fst b) /\
     forall da db, length da = prod (fst a) -> length db = prod (fst b) ->
       rsum (tab (prod s) (fun p => nth p g 0 * DF da db p))%R = (inner ga da + inner gb db)%R) ->
  right2 dbg o a b.
Proof.
  intros Ha Hb HF HD HB ca cb t0 da db [Ea Sa La Na Da] [Eb Sb Lb Nb Db].
  exists (s, tab (prod s) (F (snd a) (snd b))), (tab (prod s) (DF da db)). split.
  - constructor; cbn [fst snd].
    + rewrite Ea, Eb. cbn [obind2]. now apply HF.
    + unfold sized. cbn [fst snd]. apply tab_length.
    + apply tab_length.
    + generalize (filter_and _ _ Na Nb). apply filter_imp. intros t [(wa & Ewa & Swa & Zwa) (wb & Ewb & Swb & Zwb)]. rewrite Ewa, Ewb. cbn [obind2].
      rewrite HF by assumption. eexists. split; [reflexivity|]. split; [reflexivity|]. unfold sized. cbn [fst snd]. apply tab_length.
    + intros p Hp. rewrite nth_tab by assumption. apply (is_derive_ext_loc (fun t => F (elems (ca t)) (elems (cb t)) p)).
      * generalize (filter_and _ _ Na Nb). apply filter_imp. intros t [(wa & Ewa & Swa & Zwa) (wb & Ewb & Swb & Zwb)]. rewrite Ewa, Ewb. cbn [obind2 elems].
        rewrite HF by assumption. cbn [entry snd]. now rewrite nth_tab.
      * apply (HD (fun t => elems (ca t)) (fun t => elems (cb t))); [now rewrite Ea|now rewrite Eb|assumption|assumption| | |assumption].
        -- intros q Hq. apply (is_derive_ext (fun t => entry (ca t) q)); [intros t; apply entry_elems|now apply Da].
        -- intros q Hq. apply (is_derive_ext (fun t => entry (cb t) q)); [intros t; apply entry_elems|now apply Db].
  - cbn [fst]. intros g Sg Zg. unfold sized in Zg. rewrite Sg in Zg. destruct (HB (snd g) Zg) as (ga & gb & E1 & L1 & L2 & H1).
    exists (fst a, ga), (fst b, gb). rewrite <- Sg, <- surjective_pairing in E1. split; [assumption|]. split; [reflexivity|]. split; [assumption|].
    split; [reflexivity|]. split; [assumption|]. cbn [snd]. rewrite inner_tab_r by assumption. now apply H1.
Qed.

(** moving one element of the left (right) operand only *)
Lemma right2_unit_l dbg o a b y p q d : sized a -> sized b -> right2 dbg o a b -> apply2 o a b = Some y -> p < prod (fst a) -> q < prod (fst y) ->
  is_derive (fun t => entry (apply2 o (fst a, upd (snd a) p t) b) q) (nth p (snd a) 0%R) d ->
  forall c, exists ga gb, local2 0%R Rplus dbg o a b (fst y, upd (repeat 0%R (prod (fst y))) q c) = Some (ga, gb) /\ nth p (snd ga) 0%R = (c * d)%R.
Proof.
  intros Ha Hb HR Ey Hp Hq D c. destruct (HR _ _ _ _ _ (lone_tangent a p Ha Hp) (tangent_const b _ Hb)) as (y' & dy & T & G).
  assert (y' = y).
  { pose proof (tan_at _ _ _ _ T) as E. unfold lone in E. rewrite upd_self in E by (unfold sized in Ha; lia). cbn [obind2] in E.
    rewrite <- surjective_pairing, Ey in E. congruence. }
  subst y'. destruct (G (fst y, upd (repeat 0%R (prod (fst y))) q c)) as (ga & gb & E & Sa & Za & Sb & Zb & I).
  { reflexivity. } { unfold sized. cbn [fst snd]. now rewrite upd_length, repeat_length. }
  exists ga, gb. split; [assumption|]. cbn [snd] in I. rewrite inner_spot in I by (assumption || apply (tan_len _ _ _ _ T)).
  unfold sized in Za, Zb. rewrite inner_unit, inner_zeros_r in I by (assumption || congruence). rewrite Rplus_0_r in I. rewrite <- I. f_equal.
  pose proof (tan_derive _ _ _ _ T q Hq) as D'. apply is_derive_unique in D. apply is_derive_unique in D'.
  unfold lone, obind2 in D'. congruence.
Qed.

(** ** Element-wise operators on two tensors of one shape *)

Lemma nth_map3 h a b c p : p < length a -> p < length b -> p < length c -> nth p (map3 h a b c) 0%R = h (nth p a 0%R) (nth p b 0%R) (nth p c 0%R).
Proof.
  unfold map3. revert b c p. induction a as [|x a IH]; intros [|y b] [|z c] [|p] H1 H2 H3; cbn in *; try lia; auto. apply IH; lia.
Qed.
Lemma map3_length h a b c n : length a = n -> length b = n -> length c = n -> length (map3 h a b c) = n.
Proof. intros. unfold map3. rewrite map2_length, combine_length. lia. Qed.

Lemma map2_as_tab (f : R -> R -> R) (a b : list R) n : length a = n -> length b = n -> map2 f a b = tab n (fun p => f (nth p a 0%R) (nth p b 0%R)).
Proof.
  intros. apply (list_eq_nth_d 0%R); rewrite map2_length, ?tab_length; [lia|]. intros p Hp. rewrite nth_tab, nth_map2R by lia. reflexivity.
Qed.

Lemma choose_fn2 n (P : nat -> R -> R -> Prop) : (forall p, p < n -> exists d e, P p d e) -> exists D E, forall p, p < n -> P p (D p) (E p).
Proof.
  induction n as [|n IH]; intros H.
  - exists (fun _ => 0%R), (fun _ => 0%R). intros; lia.
  - destruct IH as (D & E & HD). { intros; apply H; lia. } destruct (H n) as (d & e & Hd); [lia|].
    exists (fun p => if p =? n then d else D p), (fun p => if p =? n then e else E p). intros p Hp. destruct (p =? n) eqn:X.
    + apply Nat.eqb_eq in X. now subst.
    + apply Nat.eqb_neq in X. apply HD. lia.
Qed.

Lemma op2_right dbg f hl hr a b : sized a -> sized b -> fst a = fst b ->
  (forall p, p < prod (fst a) -> let x := nth p (snd a) 0%R in let y := nth p (snd b) 0%R in sound2_at f (hl x y) (hr x y) x y) ->
  right2 dbg (op2 f hl hr) a b.
Proof.
  intros Ha Hb E H. unfold sized in Ha, Hb. rewrite <- E in Hb.
  destruct (choose_fn2 (prod (fst a)) (fun p dl dr => let x := nth p (snd a) 0%R in let y := nth p (snd b) 0%R in
    (forall (u v : R -> R) (t0 du dv : R), u t0 = x -> v t0 = y -> is_derive u t0 du -> is_derive v t0 dv ->
       is_derive (fun t => f (u t) (v t)) t0 (dl * du + dr * dv)%R) /\
    forall g, hl x y g = (g * dl)%R /\ hr x y g = (g * dr)%R)) as (DL & DR & HD).
  { intros p Hp. exact (H p Hp). }
  apply (right2_intro dbg _ a b (fst a) (fun u v p => f (nth p u 0%R) (nth p v 0%R)) (fun da db p => DL p * nth p da 0 + DR p * nth p db 0)%R).
  - exact Ha.
  - unfold sized. now rewrite <- E.
  - intros wa wb Sa Za Sb Zb. unfold sized in Za, Zb. cbn [apply2 op2]. unfold ew2. rewrite Sa, Sb, <- E.
    replace (list_eqb (fst a) (fst a)) with true by (destruct (list_eqb_spec (fst a) (fst a)); congruence).
    rewrite (map2_as_tab f _ _ (prod (fst a))) by congruence. reflexivity.
  - intros u v t0 da db Eu Ev La Lb Da Db p Hp. destruct (HD p Hp) as [D _].
    apply (D (fun t => nth p (u t) 0%R) (fun t => nth p (v t) 0%R)); [now rewrite Eu|now rewrite Ev|now apply Da|apply Db; now rewrite <- E].
  - intros g Lg. cbn [local2 op2]. unfold ew2. rewrite <- E. replace (list_eqb (fst a) (fst a)) with true by (destruct (list_eqb_spec (fst a) (fst a)); congruence).
    cbn [obind2]. unfold back2. cbn [snd]. rewrite Ha, Hb, Lg, Nat.eqb_refl. cbn [andb]. rewrite <- E.
    eexists _, _. split; [reflexivity|]. rewrite !(map3_length _ _ _ _ (prod (fst a))) by assumption. split; [reflexivity|]. split; [reflexivity|].
    intros da db La Lb. rewrite !(inner_rsum (prod (fst a))) by (assumption || now apply map3_length).
    rewrite <- rsum_tab_plus. apply rsum_tab_ext. intros p Hp. rewrite !nth_map3 by lia. destruct (HD p Hp) as [_ G]. destruct (G (nth p g 0%R)) as [-> ->]. ring.
Qed.

(** necessary: moving the left element alone *)
Lemma op2_right_l dbg f hl hr a b p d : sized a -> sized b -> fst a = fst b -> right2 dbg (op2 f hl hr) a b -> p < prod (fst a) ->
  is_derive (fun t => f t (nth p (snd b) 0%R)) (nth p (snd a) 0%R) d ->
  forall c, hl (nth p (snd a) 0%R) (nth p (snd b) 0%R) c = (c * d)%R.
Proof.
  intros Ha Hb E HR Hp D c. assert (Ha' := Ha). assert (Hb' := Hb). unfold sized in Ha, Hb. rewrite <- E in Hb.
  assert (EQ : list_eqb (fst a) (fst b) = true) by (destruct (list_eqb_spec (fst a) (fst b)); congruence).
  destruct (right2_unit_l dbg (op2 f hl hr) a b (fst a, map2 f (snd a) (snd b)) p p d Ha' Hb' HR) with (c := c) as (ga & gb & EL & EN); try assumption.
  - cbn [apply2 op2]. unfold ew2. now rewrite EQ.
  - cbn [apply2 op2]. unfold ew2. cbn [fst snd]. rewrite EQ. cbn [entry snd]. revert D. apply is_derive_ext. intros t.
    rewrite nth_map2R by (rewrite ?upd_length; lia). rewrite nth_upd by lia. now rewrite Nat.eqb_refl.
  - cbn [local2 op2] in EL. unfold ew2 in EL. rewrite EQ in EL. cbn [obind2 fst] in EL. unfold back2 in EL. cbn [snd] in EL.
    rewrite upd_length, repeat_length, Ha, Hb, Nat.eqb_refl in EL. cbn [andb] in EL. injection EL as <- <-. cbn [snd] in EN.
    rewrite nth_map3 in EN by (rewrite ?upd_length, ?repeat_length; lia). rewrite nth_upd in EN by (now rewrite repeat_length). now rewrite Nat.eqb_refl in EN.
Qed.

Lemma op2_right_exists dbg f hl hr a b p : sized a -> sized b -> fst a = fst b -> right2 dbg (op2 f hl hr) a b -> p < prod (fst a) ->
  exists d, is_derive (fun t => f t (nth p (snd b) 0%R)) (nth p (snd a) 0%R) d.
Proof.
  intros Ha Hb E HR Hp. assert (Ha' := Ha). assert (Hb' := Hb). unfold sized in Ha, Hb. rewrite <- E in Hb.
  assert (EQ : list_eqb (fst a) (fst b) = true) by (destruct (list_eqb_spec (fst a) (fst b)); congruence).
  destruct (HR _ _ _ _ _ (lone_tangent a p Ha' Hp) (tangent_const b _ Hb')) as (y & dy & T & G).
  assert (Sy : fst y = fst a).
  { pose proof (tan_at _ _ _ _ T) as Ey. unfold lone in Ey. rewrite upd_self in Ey by lia. cbn [obind2 apply2 op2] in Ey.
    unfold ew2 in Ey. cbn [fst] in Ey. rewrite EQ in Ey. injection Ey as <-. reflexivity. }
  exists (nth p dy 0%R). pose proof (tan_derive _ _ _ _ T p ltac:(now rewrite Sy)) as D. revert D. apply is_derive_ext. intros t.
  unfold lone. cbn [obind2 apply2 op2]. unfold ew2. cbn [fst snd]. rewrite EQ. cbn [entry snd].
  rewrite nth_map2R by (rewrite ?upd_length; lia). rewrite nth_upd by lia. now rewrite Nat.eqb_refl.
Qed.
