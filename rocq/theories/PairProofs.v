(** Training with cross_entropy, hinge_loss and mean_squared_logarithmic_error. *)
From Coq Require Import List Arith Lia Bool PeanoNat Reals Lra.
From Coquelicot Require Import Rcomplements Hierarchy Derive.
From Verif Require Import ListBase TensorModel TensorSpec TensorProofs TensorProofs2 ArrayModel GraphModel GraphSpec GraphProofs GraphProofs2
  GraphProofs3 GraphProofs4 GradSpec GradProofs GradProofs2 GradProofs3 LayerSpec LayerProofs BcastAdjoint CalcSpec CalcProofs CalcProofs2 CalcProofs3 GraphProps OpModel OpSpec OpProofs Scalar
  OpRules OpProofs2 OpProofs3 OpProofs4 OpProofs5 OpProps GradProps ComplexModel ComplexRun LossRun LossRun2 LossModel LossSpec LossProofs LossProofs2 LossProofs3 XentProofs XentProofs2
  LossTree PairSpec.
From Verif Require XentProps.
Import ListNotations.
Local Open Scope nat_scope.

Lemma Stretches_refl s : Stretches s s.
Proof. split; [lia|]. intros j _. now left. Qed.
Lemma TailOf_refl s : TailOf s s.
Proof. exists 0. unfold padded. now rewrite Nat.sub_diag. Qed.

Lemma right_value dbg q c : right_everywhere dbg q (EVal c).
Proof. split; intros *; intros H; apply At_all in H; cbn in H; destruct H as [H|[]]; discriminate H. Qed.

Lemma nd_cons {B} (a : B) l : NoDup (a :: l) -> NoDup l /\ ~ In a l.
Proof. intros H. now apply NoDup_cons_iff in H as [? ?]. Qed.

Lemma Forall_nth_all (P : R -> Prop) l : (forall i, i < length l -> P (nth i l 0%R)) -> Forall P l.
Proof. intros H. apply Forall_forall. intros x Hx. apply In_nth with (d := 0%R) in Hx. destruct Hx as (i & Hi & <-). now apply H. Qed.

Lemma map2_map_r {B C D E} (f : B -> C -> D) (g : E -> C) x y : map2 f x (map g y) = map2 (fun a b => f a (g b)) x y.
Proof. revert y. induction x as [|a x IH]; intros [|b y]; cbn; try reflexivity. now rewrite IH. Qed.
Lemma map2_map_l {B C D E} (f : B -> C -> D) (g : E -> B) x y : map2 f (map g x) y = map2 (fun a b => f (g a) b) x y.
Proof. revert y. induction x as [|a x IH]; intros [|b y]; cbn; try reflexivity. now rewrite IH. Qed.
Lemma map_map2 {B C D E} (g : D -> E) (f : B -> C -> D) x y : map g (map2 f x y) = map2 (fun a b => g (f a b)) x y.
Proof. revert y. induction x as [|a x IH]; intros [|b y]; cbn; try reflexivity. now rewrite IH. Qed.
Lemma rsum_opp l : rsum (map Ropp l) = (- rsum l)%R.
Proof. induction l as [|a l IH]; cbn; [ring|]. rewrite IH. ring. Qed.

Section Pairs.
Variable dbg : bool.
Variable eps : R.

(** what the three theorems share *)
Record setting (out : expr R) (s : st R) (who : nat -> owner) (p : nat) (tgt : tensor) (target pred : list R) : Prop := {
  st_tree : trainable_tree out s; st_sep : separate out s who; st_grad : graded out s; st_right : right_everywhere dbg (env_of s) out;
  st_on : training s = true; st_hold : holders s p = Some tgt; st_leaf : who (ref tgt) = OLeaf; st_at : nth_error (hp s) (ref tgt) = Some target;
  st_len : length target = prod (shape tgt); st_ne : shape tgt <> []; st_out : evalR (env_of s) out = Some (shape tgt, pred) }.

Section One.
Variables (out : expr R) (s : st R) (who : nat -> owner) (p : nat) (tgt : tensor) (target pred : list R).
Hypothesis HS : setting out s who p tgt target pred.
Notation sh := (shape tgt).

Lemma out_false : evalue out = false.
Proof. exact (nudge_none out s (st_tree _ _ _ _ _ _ _ HS)). Qed.
Lemma pred_len : length pred = prod sh /\ pred <> [].
Proof.
  destruct (st_tree _ _ _ _ _ _ _ HS) as (Vo & _ & Zo & _). destruct (Zo None out (At_root out) Vo) as (w & Ew & Lw & Nw).
  assert (w = (sh, pred)) by (pose proof (st_out _ _ _ _ _ _ _ HS) as E; unfold evalR in E; congruence). subst w. auto.
Qed.
Lemma prod_ne : prod sh <> 0.
Proof. destruct pred_len as [L N]. intros E. apply N. apply length_zero_iff_nil. lia. Qed.
Lemma target_ne : target <> [].
Proof. intros E. apply prod_ne. rewrite <- (st_len _ _ _ _ _ _ _ HS), E. reflexivity. Qed.
Lemma hold_at : e_hold (env_of s) p = Some (sh, target).
Proof. cbn [env_of e_hold]. rewrite (st_hold _ _ _ _ _ _ _ HS). unfold val_of. now rewrite (nth_error_nth _ _ _ (st_at _ _ _ _ _ _ _ HS)). Qed.
Lemma hold_tree : trainable_tree (EHold p) s.
Proof. apply (tree_hold p s (sh, target) hold_at); [exact (st_len _ _ _ _ _ _ _ HS)|exact target_ne]. Qed.

Lemma mapped_ne {B} (f : R -> B) l : l <> [] -> map f l <> [].
Proof. destruct l; [congruence|discriminate]. Qed.

Lemma plus_same_right a b : sh <> [] -> prod sh <> 0 -> length a = prod sh -> length b = prod sh -> right2 dbg BPlus (sh, a) (sh, b).
Proof. intros N Pn La Lb. apply (proj1 (C31_right dbg (sh, a) (sh, b) La Lb) sh); try assumption. apply Broadcasts_refl. Qed.

(** ** cross_entropy *)
Theorem cross_entropy_train n : NoDup (ids (cross_entropy dbg n (EHold p) out)) -> Forall (fun y => (0 < y)%R) pred ->
  trained dbg eps (cross_entropy dbg n (EHold p) out) out s who (ref tgt) (summed log_score target pred) target (summed_of log_score target) exactly.
Proof.
  intros ND Pos. destruct pred_len as [Lp Np]. pose proof out_false as Vo. pose proof hold_at as Eh. pose proof prod_ne as Pn. pose proof (st_len _ _ _ _ _ _ _ HS) as Lt.
  pose proof (st_out _ _ _ _ _ _ _ HS) as Ep.
  set (L := EUn n op_log out). set (X := EBin (1 + n) (op_product dbg) (EHold p) L). set (M := EUn (2 + n) op_sum_reduce X).
  change (cross_entropy dbg n (EHold p) out) with (EUn (3 + n) op_negative M) in *. set (loss := EUn (3 + n) op_negative M) in *.
  assert (VX : forall q y, e_hold q p = Some (sh, target) -> evalR q out = Some (sh, y) -> length y = prod sh -> evalR q X = Some (sh, map2 Rmult target (map ln y))).
  { intros q y Hq Eq Ly. apply (v_product dbg q (1 + n) (EHold p) L sh target (map ln y)); try reflexivity; try assumption; [|now rewrite map_length].
    unfold L. now apply v_ew. }
  assert (EL : evalR (env_of s) L = Some (sh, map ln pred)) by (now apply v_ew).
  pose proof (VX _ _ Eh Ep Lp) as EX.
  cbn [ids loss M X L] in ND. destruct (nd_cons _ _ ND) as [ND1 N3]. destruct (nd_cons _ _ ND1) as [ND2 N2]. destruct (nd_cons _ _ ND2) as [ND3 N1]. destruct (nd_cons _ _ ND3) as [ND4 N0].
  assert (TL : trainable_tree L s).
  { apply (tree_un n op_log out s (sh, map ln pred)); [apply HS|exact EL|unfold sized; cbn; now rewrite map_length|now apply mapped_ne|exact N0]. }
  assert (SX : sized (sh, map2 Rmult target (map ln pred))) by (unfold sized; cbn [fst snd]; rewrite map2_length, map_length; lia).
  assert (TX : trainable_tree X s).
  { apply (tree_bin (1 + n) (op_product dbg) (EHold p) L s (sh, map2 Rmult target (map ln pred))); [right; exact hold_tree|right; exact TL|exact ND2|exact EX|exact SX| |discriminate].
    cbn [snd]. intros E. apply Pn. unfold sized in SX. cbn [fst snd] in SX. now rewrite <- SX, E. }
  set (T := sum_all (map2 Rmult target (map ln pred))).
  assert (EM : evalR (env_of s) M = Some ([1], [T])) by (unfold evalR in EX |- *; unfold M; cbn [eval]; rewrite EX; reflexivity).
  assert (Eloss : evalR (env_of s) loss = Some ([1], [(- T)%R])) by (unfold loss; apply v_ew with (h := Ropp) (d := [T]); [reflexivity|exact EM]).
  assert (TM : trainable_tree M s) by (apply (tree_un _ _ _ _ ([1], [T])); [exact TX|exact EM|reflexivity|discriminate|exact N2]).
  assert (Tl : trainable_tree loss s) by (apply (tree_un _ _ _ _ ([1], [(- T)%R])); [exact TM|exact Eloss|reflexivity|discriminate|exact N3]).
  assert (RL : right_everywhere dbg (env_of s) L).
  { apply right_un; [apply HS|]. intros i Ei. assert (i = (sh, pred)) by congruence. subst i.
    pose proof (proj1 (C30_right_on_domain (sh, pred) 0%R Lp) Pos) as F. rewrite Forall_forall in F. apply F. cbn; tauto. }
  assert (RX : right_everywhere dbg (env_of s) X).
  { apply right_bin; [apply right_hold|exact RL|]. intros a b Hab.
    rewrite (operands_two (env_of s) (EHold p) L (sh, target) (sh, map ln pred) eq_refl eq_refl Eh EL) in Hab. injection Hab as <- <-.
    assert (Sl : sized (sh, map ln pred)) by (unfold sized; cbn; now rewrite map_length).
    apply (proj2 (proj2 (C31_right dbg (sh, target) (sh, map ln pred) Lt Sl))); cbn [fst]; try exact Pn; try apply HS.
    left. split; [apply Stretches_refl|apply TailOf_refl]. }
  assert (Vl : (- T)%R = summed log_score target pred).
  { unfold T, summed, log_score. rewrite sum_all_rsum, <- rsum_opp, map_map2, map2_map_r. reflexivity. }
  rewrite <- Vl.
  apply (XentProps.trained_ext dbg eps loss out s who (ref tgt) (- T)%R target
    (fun y => - (1) * match y with Some w => rsum (map2 Rmult target (map ln (snd w))) | None => 0 end)%R).
  { intros [w|]; cbn [summed_of]; [|ring]. unfold summed, log_score. rewrite <- (map_map2 Ropp), rsum_opp, map2_map_r. ring. }
  apply (tree_train dbg eps loss out X (2 + n) (Some (3 + n, false)) (- (1))%R (fun y => map2 Rmult target (map ln y)) sh s who p tgt target pred (- T)%R);
    try apply HS; try assumption; try reflexivity.
  - intros k z H Lz. destruct (At_un_inv _ _ _ _ _ H) as [[_ E]|(k1 & H1)]; [subst z; discriminate Lz|].
    destruct (At_un_inv _ _ _ _ _ H1) as [[_ E]|(k2 & H2)]; [subst z; discriminate Lz|].
    destruct (At_bin_inv _ _ _ _ _ _ H2) as [[_ E]|[(k3 & H3)|(k3 & H3)]]; [subst z; discriminate Lz| |].
    + left. apply At_all in H3. cbn in H3. destruct H3 as [E|[]]. now injection E as _ <-.
    + destruct (At_un_inv _ _ _ _ _ H3) as [[_ E]|(k4 & H4)]; [subst z; discriminate Lz|]. right. eauto.
  - intros k z H. exact (At_right_in (1 + n) _ (EHold p) L _ z (At_below n op_log out k z H)).
  - intros k z H. eexists. exact (At_below (3 + n) _ _ _ _ (At_below (2 + n) _ _ _ _ H)).
  - unfold loss, M in *. cbn [GradSpec.grads]. unfold evalR in EM. rewrite EM. reflexivity.
Qed.

(** ** hinge_loss *)
Theorem hinge_train n : NoDup (ids (hinge_loss dbg n (EHold p) out)) -> (forall i, i < length target -> (nth i target 0 * nth i pred 0)%R <> 1%R) ->
  trained dbg eps (hinge_loss dbg n (EHold p) out) out s who (ref tgt) (/ elements sh * summed hinge target pred)%R target (fun y => / samples sh * summed_of hinge target y)%R exactly.
Proof.
  intros ND Nt. destruct pred_len as [Lp Np]. pose proof out_false as Vo. pose proof hold_at as Eh. pose proof prod_ne as Pn. pose proof (st_len _ _ _ _ _ _ _ HS) as Lt.
  pose proof (st_out _ _ _ _ _ _ _ HS) as Ep.
  set (P := EBin n (op_product dbg) (EHold p) out). set (N := EUn (1 + n) op_negative P). set (D := EBin (2 + n) BPlus (EVal 1%R) N).
  set (X := EBin (3 + n) op_maximum (EVal 0%R) D). set (loss := EUn (4 + n) op_mean_reduce X).
  change (hinge_loss dbg n (EHold p) out) with loss in *.
  set (dp := fun y => map2 Rmult target y). set (dd := fun y => map (Rplus 1) (map Ropp (dp y))).
  assert (Ldp : forall y, length y = prod sh -> length (dp y) = prod sh) by (intros y Ly; unfold dp; rewrite map2_length; lia).
  assert (Ldd : forall y, length y = prod sh -> length (dd y) = prod sh) by (intros y Ly; unfold dd; rewrite !map_length; now apply Ldp).
  assert (VP : forall q y, e_hold q p = Some (sh, target) -> evalR q out = Some (sh, y) -> length y = prod sh -> evalR q P = Some (sh, dp y)).
  { intros q y Hq Eq Ly. now apply v_product. }
  assert (VN : forall q y, e_hold q p = Some (sh, target) -> evalR q out = Some (sh, y) -> length y = prod sh -> evalR q N = Some (sh, map Ropp (dp y))).
  { intros q y Hq Eq Ly. apply v_ew; [reflexivity|]. now apply VP. }
  assert (VD : forall q y, e_hold q p = Some (sh, target) -> evalR q out = Some (sh, y) -> length y = prod sh -> evalR q D = Some (sh, dd y)).
  { intros q y Hq Eq Ly. apply v_value_plus; [reflexivity|now apply VN|rewrite map_length; now apply Ldp]. }
  assert (VX : forall q y, e_hold q p = Some (sh, target) -> evalR q out = Some (sh, y) -> length y = prod sh -> evalR q X = Some (sh, map (Rmax 0) (dd y))).
  { intros q y Hq Eq Ly. apply v_value_max; [reflexivity|now apply VD|now apply Ldd]. }
  pose proof (VP _ _ Eh Ep Lp) as EP. pose proof (VN _ _ Eh Ep Lp) as EN. pose proof (VD _ _ Eh Ep Lp) as ED. pose proof (VX _ _ Eh Ep Lp) as EX.
  cbn [ids loss X D N P] in ND. destruct (nd_cons _ _ ND) as [ND1 N4]. destruct (nd_cons _ _ ND1) as [ND2 N3]. destruct (nd_cons _ _ ND2) as [ND3 N2]. destruct (nd_cons _ _ ND3) as [ND4 N1].
  assert (Zz : forall l : list R, length l = prod sh -> l <> []) by (intros l Ll E; apply Pn; rewrite <- Ll, E; reflexivity).
  assert (TP : trainable_tree P s).
  { apply (tree_bin n (op_product dbg) (EHold p) out s (sh, dp pred)); [right; exact hold_tree|right; apply HS|exact ND4|exact EP|now apply Ldp|apply Zz; now apply Ldp|discriminate]. }
  assert (TN : trainable_tree N s).
  { apply (tree_un _ _ _ _ (sh, map Ropp (dp pred))); [exact TP|exact EN|unfold sized; cbn [fst snd]; rewrite map_length; now apply Ldp|apply Zz; cbn [snd]; rewrite map_length; now apply Ldp|exact N1]. }
  assert (TD : trainable_tree D s).
  { apply (tree_bin (2 + n) BPlus (EVal 1%R) N s (sh, dd pred)); [left; reflexivity|right; exact TN|exact ND2|exact ED|now apply Ldd|apply Zz; now apply Ldd|].
    intros _ _ x Hx. cbn in Hx. destruct Hx as [<-|[]]. split; [reflexivity|exact I]. }
  assert (TX : trainable_tree X s).
  { apply (tree_bin (3 + n) op_maximum (EVal 0%R) D s (sh, map (Rmax 0) (dd pred))); [left; reflexivity|right; exact TD|exact ND1|exact EX|unfold sized; cbn [fst snd]; rewrite map_length; now apply Ldd|apply Zz; cbn [snd]; rewrite map_length; now apply Ldd|discriminate]. }
  set (T := (sum_all (map (Rmax 0) (dd pred)) / INR (length (map (Rmax 0) (dd pred))))%R).
  assert (Eloss : evalR (env_of s) loss = Some ([1], [T])) by (unfold evalR in EX |- *; unfold loss; cbn [eval]; rewrite EX; reflexivity).
  assert (Tl : trainable_tree loss s) by (apply (tree_un _ _ _ _ ([1], [T])); [exact TX|exact Eloss|reflexivity|discriminate|exact N4]).
  assert (RP : right_everywhere dbg (env_of s) P).
  { apply right_bin; [apply right_hold|apply HS|]. intros a b Hab.
    rewrite (operands_two (env_of s) (EHold p) out (sh, target) (sh, pred) eq_refl Vo Eh Ep) in Hab. injection Hab as <- <-.
    apply (proj2 (proj2 (C31_right dbg (sh, target) (sh, pred) Lt Lp))); cbn [fst]; try exact Pn; try apply HS.
    left. split; [apply Stretches_refl|apply TailOf_refl]. }
  assert (RN : right_everywhere dbg (env_of s) N).
  { apply right_un; [exact RP|]. intros i Ei. assert (i = (sh, dp pred)) by congruence. subst i. pose proof (C30_right_everywhere (sh, dp pred) 0%R (Ldp _ Lp)) as F. rewrite Forall_forall in F. apply F. cbn; tauto. }
  assert (RD : right_everywhere dbg (env_of s) D).
  { apply right_bin; [apply right_value|exact RN|]. intros a b Hab. rewrite (operands_value (env_of s) 1%R N sh _ eq_refl EN) in Hab. injection Hab as <- <-.
    apply plus_same_right; [apply HS|exact Pn|now rewrite repeat_length|rewrite map_length; now apply Ldp]. }
  assert (RX : right_everywhere dbg (env_of s) X).
  { apply right_bin; [apply right_value|exact RD|]. intros a b Hab. rewrite (operands_value (env_of s) 0%R D sh _ eq_refl ED) in Hab. injection Hab as <- <-.
    apply C31_maximum; [unfold sized; cbn [fst snd]; now rewrite repeat_length|now apply Ldd|reflexivity|].
    cbn [fst snd]. intros i Hi. rewrite nth_repeat. unfold dd, dp. rewrite map_map, map_map2. rewrite (nth_map2 _ _ _ _ 0%R 0%R) by lia. specialize (Nt i ltac:(lia)). lra. }
  assert (Fsum : forall y, map (Rmax 0) (dd y) = map2 hinge target y).
  { intros y. unfold dd, dp. rewrite map_map, map_map, map_map2. reflexivity. }
  assert (Bt : INR (batch_size sh) = samples sh).
  { unfold batch_size, samples. destruct sh as [|a [|b l]]; reflexivity. }
  assert (Vl : T = (/ elements sh * summed hinge target pred)%R).
  { unfold T, summed, elements. rewrite sum_all_rsum, map_length, Ldd by exact Lp. rewrite Fsum. unfold Rdiv. ring. }
  rewrite <- Vl.
  apply (XentProps.trained_ext dbg eps loss out s who (ref tgt) T target
    (fun y => / samples sh * match y with Some w => rsum (map (Rmax 0) (dd (snd w))) | None => 0 end)%R).
  { intros [w|]; cbn [summed_of]; [|ring]. unfold summed. now rewrite Fsum. }
  apply (tree_train dbg eps loss out X (4 + n) None (/ samples sh)%R (fun y => map (Rmax 0) (dd y)) sh s who p tgt target pred T);
    try apply HS; try assumption; try reflexivity.
  - intros k z H Lz. destruct (At_un_inv _ _ _ _ _ H) as [[_ E]|(k1 & H1)]; [subst z; discriminate Lz|].
    destruct (At_bin_inv _ _ _ _ _ _ H1) as [[_ E]|[(k2 & H2)|(k2 & H2)]]; [subst z; discriminate Lz|pose proof (value_parts (EVal _) _ _ eq_refl H2); subst z; discriminate Lz|].
    destruct (At_bin_inv _ _ _ _ _ _ H2) as [[_ E]|[(k3 & H3)|(k3 & H3)]]; [subst z; discriminate Lz|pose proof (value_parts (EVal _) _ _ eq_refl H3); subst z; discriminate Lz|].
    destruct (At_un_inv _ _ _ _ _ H3) as [[_ E]|(k4 & H4)]; [subst z; discriminate Lz|].
    destruct (At_bin_inv _ _ _ _ _ _ H4) as [[_ E]|[(k5 & H5)|(k5 & H5)]]; [subst z; discriminate Lz| |right; eauto].
    left. apply At_all in H5. cbn in H5. destruct H5 as [E|[]]. now injection E as _ <-.
  - intros k z H. destruct (At_right_in n (op_product dbg) (EHold p) out _ z H) as (k1 & H1).
    destruct (At_right_in (2 + n) BPlus (EVal 1%R) N _ z (At_below (1 + n) op_negative _ _ _ H1)) as (k2 & H2). exact (At_right_in (3 + n) op_maximum (EVal 0%R) D _ z H2).
  - intros k z H. eexists. exact (At_below (4 + n) _ _ _ _ H).
  - unfold loss. cbn [GradSpec.grads]. unfold evalR in EX. rewrite EX. cbn [obind2 local1 op_mean_reduce op_sum_reduce]. unfold fill_back. cbn [fst snd]. rewrite Bt.
    now replace (1 * 1 * / samples sh)%R with (1 * / samples sh * 1)%R by ring.
Qed.

(** ** mean_squared_logarithmic_error *)
Definition branch (lo up : R) (m : nat) (e : expr R) : expr R := EUn (2 + m) op_log (EBin (1 + m) BPlus (EVal 1%R) (EUn m (op_clip lo up) e)).
Definition shifted (lo up : R) (x : list R) : list R := map ln (map (Rplus 1) (map (kept lo up) x)).

Lemma branch_value q lo up m e x : evalue e = false -> evalR q e = Some (sh, x) -> length x = prod sh -> evalR q (branch lo up m e) = Some (sh, shifted lo up x).
Proof.
  intros Ve Ee Lx. unfold branch, shifted. apply v_ew; [reflexivity|]. apply v_value_plus; [reflexivity| |now rewrite map_length].
  apply v_ew; [reflexivity|exact Ee].
Qed.

Lemma branch_tree lo up m e x : trainable_tree e s -> evalR (env_of s) e = Some (sh, x) -> length x = prod sh -> NoDup (ids (branch lo up m e)) -> trainable_tree (branch lo up m e) s.
Proof.
  intros Te Ee Lx ND. cbn [ids branch] in ND. destruct (nd_cons _ _ ND) as [ND1 N2]. destruct (nd_cons _ _ ND1) as [ND2 N1]. destruct (nd_cons _ _ ND2) as [ND3 N0].
  assert (Zz : forall l : list R, length l = prod sh -> l <> []) by (intros l Ll E; apply prod_ne; rewrite <- Ll, E; reflexivity).
  pose proof (nudge_none e s Te) as Ve.
  assert (E1 : evalR (env_of s) (EUn m (op_clip lo up) e) = Some (sh, map (kept lo up) x)) by (apply v_ew; [reflexivity|exact Ee]).
  assert (T1 : trainable_tree (EUn m (op_clip lo up) e) s).
  { apply (tree_un _ _ _ _ _ Te E1); [unfold sized; cbn [fst snd]; now rewrite map_length|apply Zz; cbn [snd]; now rewrite map_length|exact N0]. }
  assert (E2 : evalR (env_of s) (EBin (1 + m) BPlus (EVal 1%R) (EUn m (op_clip lo up) e)) = Some (sh, map (Rplus 1) (map (kept lo up) x))).
  { apply v_value_plus; [reflexivity|exact E1|now rewrite map_length]. }
  assert (T2 : trainable_tree (EBin (1 + m) BPlus (EVal 1%R) (EUn m (op_clip lo up) e)) s).
  { apply (tree_bin _ _ _ _ _ (sh, map (Rplus 1) (map (kept lo up) x))); [left; reflexivity|right; exact T1|exact ND1|exact E2|unfold sized; cbn [fst snd]; now rewrite !map_length|apply Zz; cbn [snd]; now rewrite !map_length|].
    intros _ _ y Hy. cbn in Hy. destruct Hy as [<-|[]]. split; [reflexivity|exact I]. }
  apply (tree_un _ _ _ _ (sh, shifted lo up x)); [exact T2|now apply branch_value|unfold sized, shifted; cbn [fst snd]; now rewrite !map_length|apply Zz; cbn [snd]; unfold shifted; now rewrite !map_length|exact N2].
Qed.

Lemma branch_right lo up m e x : (0 < lo < up)%R -> trainable_tree e s -> evalR (env_of s) e = Some (sh, x) -> length x = prod sh -> right_everywhere dbg (env_of s) e ->
  Forall (fun a => a <> lo /\ a <> up) x -> right_everywhere dbg (env_of s) (branch lo up m e).
Proof.
  intros Hlo Te Ee Lx Re F.
  pose proof (nudge_none e s Te) as Ve.
  assert (E1 : evalR (env_of s) (EUn m (op_clip lo up) e) = Some (sh, map (kept lo up) x)) by (apply v_ew; [reflexivity|exact Ee]).
  assert (E2 : evalR (env_of s) (EBin (1 + m) BPlus (EVal 1%R) (EUn m (op_clip lo up) e)) = Some (sh, map (Rplus 1) (map (kept lo up) x))).
  { apply v_value_plus; [reflexivity|exact E1|now rewrite map_length]. }
  apply right_un; [apply right_bin; [apply right_value|apply right_un; [exact Re|]|]|].
  - intros i Ei. assert (i = (sh, x)) by congruence. subst i. apply (proj1 (proj2 (proj2 (proj2 (proj2 (C30_exactly (sh, x) Lx)))))); [lra|exact F].
  - intros a b Hab. rewrite (operands_value (env_of s) 1%R (EUn m (op_clip lo up) e) sh _ eq_refl E1) in Hab. injection Hab as <- <-.
    apply plus_same_right; [apply HS|exact prod_ne|now rewrite repeat_length|now rewrite map_length].
  - intros i Ei. assert (i = (sh, map (Rplus 1) (map (kept lo up) x))) by congruence. subst i.
    assert (Li : sized (sh, map (Rplus 1) (map (kept lo up) x))) by (unfold sized; cbn [fst snd]; now rewrite !map_length).
    assert (Pos : Forall (fun a => (0 < a)%R) (map (Rplus 1) (map (kept lo up) x))).
    { apply Forall_forall. intros a Ha. rewrite map_map in Ha. apply in_map_iff in Ha as (b & <- & _). unfold kept. pose proof (Rmax_l lo (Rmin up b)). lra. }
    pose proof (proj1 (C30_right_on_domain _ 0%R Li) Pos) as G. rewrite Forall_forall in G. apply G. cbn; tauto.
Qed.

Theorem log_error_train lo up n : NoDup (ids (mean_squared_logarithmic_error lo up n (EHold p) out)) -> (0 < lo < up)%R ->
  Forall (fun a => a <> lo /\ a <> up) target -> Forall (fun a => a <> lo /\ a <> up) pred ->
  trained dbg eps (mean_squared_logarithmic_error lo up n (EHold p) out) out s who (ref tgt) (summed (log_distance lo up) target pred) target (summed_of (log_distance lo up) target) exactly.
Proof.
  intros ND Hlo Ft Fp. destruct pred_len as [Lp Np]. pose proof out_false as Vo. pose proof hold_at as Eh. pose proof prod_ne as Pn. pose proof (st_len _ _ _ _ _ _ _ HS) as Lt.
  pose proof (st_out _ _ _ _ _ _ _ HS) as Ep.
  set (BT := branch lo up n (EHold p)). set (BY := branch lo up (3 + n) out). set (Ng := EUn (6 + n) op_negative BY).
  set (D := EBin (7 + n) BPlus BT Ng). set (X := EUn (8 + n) op_square D). set (loss := EUn (9 + n) op_sum_reduce X).
  change (mean_squared_logarithmic_error lo up n (EHold p) out) with loss in *.
  assert (Zz : forall l : list R, length l = prod sh -> l <> []) by (intros l Ll E; apply Pn; rewrite <- Ll, E; reflexivity).
  assert (Ls : forall y, length (shifted lo up y) = length y) by (intros y; unfold shifted; now rewrite !map_length).
  set (dd := fun y => map2 Rminus (shifted lo up target) (shifted lo up y)).
  assert (Ldd : forall y, length y = prod sh -> length (dd y) = prod sh) by (intros y Ly; unfold dd; rewrite map2_length, !Ls; lia).
  assert (VD : forall q y, e_hold q p = Some (sh, target) -> evalR q out = Some (sh, y) -> length y = prod sh -> evalR q D = Some (sh, dd y)).
  { intros q y Hq Eq Ly. change D with (e_minus (6 + n) BT BY). unfold dd. apply v_minus; try reflexivity; [now apply branch_value|now apply branch_value|now rewrite Ls|now rewrite Ls]. }
  assert (VX : forall q y, e_hold q p = Some (sh, target) -> evalR q out = Some (sh, y) -> length y = prod sh -> evalR q X = Some (sh, map (fun x => x * x)%R (dd y))).
  { intros q y Hq Eq Ly. apply v_ew; [reflexivity|]. now apply VD. }
  pose proof (VD _ _ Eh Ep Lp) as ED. pose proof (VX _ _ Eh Ep Lp) as EX.
  assert (ET : evalR (env_of s) BT = Some (sh, shifted lo up target)) by (now apply branch_value).
  assert (EY : evalR (env_of s) BY = Some (sh, shifted lo up pred)) by (now apply branch_value).
  assert (EN : evalR (env_of s) Ng = Some (sh, map Ropp (shifted lo up pred))) by (apply v_ew; [reflexivity|exact EY]).
  assert (I0 : ids loss = 9 + n :: 8 + n :: 7 + n :: ids BT ++ 6 + n :: ids BY) by reflexivity. rewrite I0 in ND.
  destruct (nd_cons _ _ ND) as [ND1 N9]. destruct (nd_cons _ _ ND1) as [ND2 N8]. destruct (nd_cons _ _ ND2) as [ND3 N7]. destruct (nd_app _ _ ND3) as [NDT NDN]. destruct (nd_cons _ _ NDN) as [NDY N6].
  assert (TT : trainable_tree BT s) by (apply (branch_tree lo up n (EHold p) target); [exact hold_tree|exact Eh|exact Lt|exact NDT]).
  assert (TY : trainable_tree BY s) by (apply (branch_tree lo up (3 + n) out pred); [apply HS|exact Ep|exact Lp|exact NDY]).
  assert (TN : trainable_tree Ng s).
  { apply (tree_un _ _ _ _ _ TY EN); [unfold sized; cbn [fst snd]; now rewrite map_length, Ls|apply Zz; cbn [snd]; now rewrite map_length, Ls|exact N6]. }
  assert (TD : trainable_tree D s).
  { apply (tree_bin (7 + n) BPlus BT Ng s (sh, dd pred)); [right; exact TT|right; exact TN|exact ND2|exact ED|now apply Ldd|apply Zz; now apply Ldd|].
    intros _ _ x Hx. cbn in Hx. destruct Hx as [<-|[]]. split; [reflexivity|]. intros i y y' g. reflexivity. }
  assert (TX : trainable_tree X s).
  { apply (tree_un _ _ _ _ _ TD EX); [unfold sized; cbn [fst snd]; rewrite map_length; now apply Ldd|apply Zz; cbn [snd]; rewrite map_length; now apply Ldd|exact N8]. }
  set (T := sum_all (map (fun x => x * x)%R (dd pred))).
  assert (Eloss : evalR (env_of s) loss = Some ([1], [T])) by (unfold evalR in EX |- *; unfold loss; cbn [eval]; rewrite EX; reflexivity).
  assert (Tl : trainable_tree loss s) by (apply (tree_un _ _ _ _ ([1], [T])); [exact TX|exact Eloss|reflexivity|discriminate|exact N9]).
  assert (RT : right_everywhere dbg (env_of s) BT) by (apply (branch_right lo up n (EHold p) target Hlo hold_tree Eh Lt); [apply right_hold|exact Ft]).
  assert (RY : right_everywhere dbg (env_of s) BY) by (apply (branch_right lo up (3 + n) out pred Hlo (st_tree _ _ _ _ _ _ _ HS) Ep Lp); [apply HS|exact Fp]).
  assert (RN : right_everywhere dbg (env_of s) Ng).
  { apply right_un; [exact RY|]. intros i Ei. assert (i = (sh, shifted lo up pred)) by congruence. subst i.
    assert (Si : sized (sh, shifted lo up pred)) by (unfold sized; cbn [fst snd]; now rewrite Ls).
    pose proof (C30_right_everywhere _ 0%R Si) as F. rewrite Forall_forall in F. apply F. cbn; tauto. }
  assert (RD : right_everywhere dbg (env_of s) D).
  { apply right_bin; [exact RT|exact RN|]. intros a b Hab. rewrite (operands_two (env_of s) BT Ng _ _ eq_refl eq_refl ET EN) in Hab. injection Hab as <- <-.
    apply plus_same_right; [apply HS|exact Pn|now rewrite Ls|now rewrite map_length, Ls]. }
  assert (RX : right_everywhere dbg (env_of s) X).
  { apply right_un; [exact RD|]. intros i Ei. assert (i = (sh, dd pred)) by congruence. subst i.
    pose proof (C30_right_everywhere (sh, dd pred) 0%R (Ldd _ Lp)) as F. rewrite Forall_forall in F. apply F. cbn; tauto. }
  assert (Fsum : forall y, map (fun x => x * x)%R (dd y) = map2 (log_distance lo up) target y).
  { intros y. unfold dd, shifted. rewrite !map_map, map2_map_l, map2_map_r, map_map2. reflexivity. }
  assert (Vl : T = summed (log_distance lo up) target pred).
  { unfold T, summed. now rewrite sum_all_rsum, Fsum. }
  rewrite <- Vl.
  apply (XentProps.trained_ext dbg eps loss out s who (ref tgt) T target
    (fun y => 1 * match y with Some w => rsum (map (fun x => x * x) (dd (snd w))) | None => 0 end)%R).
  { intros [w|]; cbn [summed_of]; [|ring]. unfold summed. rewrite Fsum. ring. }
  apply (tree_train dbg eps loss out X (9 + n) None 1%R (fun y => map (fun x => x * x)%R (dd y)) sh s who p tgt target pred T);
    try apply HS; try assumption; try reflexivity.
  - assert (BR : forall m e k z, At (branch lo up m e) k z -> is_leaf z = true -> exists k', At e k' z).
    { intros m e k z H Lz. destruct (At_un_inv _ _ _ _ _ H) as [[_ E]|(k1 & H1)]; [subst z; discriminate Lz|].
      destruct (At_bin_inv _ _ _ _ _ _ H1) as [[_ E]|[(k2 & H2)|(k2 & H2)]]; [subst z; discriminate Lz|pose proof (value_parts (EVal _) _ _ eq_refl H2); subst z; discriminate Lz|].
      destruct (At_un_inv _ _ _ _ _ H2) as [[_ E]|(k3 & H3)]; [subst z; discriminate Lz|eauto]. }
    intros k z H Lz. destruct (At_un_inv _ _ _ _ _ H) as [[_ E]|(k1 & H1)]; [subst z; discriminate Lz|].
    destruct (At_un_inv _ _ _ _ _ H1) as [[_ E]|(k2 & H2)]; [subst z; discriminate Lz|].
    destruct (At_bin_inv _ _ _ _ _ _ H2) as [[_ E]|[(k3 & H3)|(k3 & H3)]]; [subst z; discriminate Lz| |].
    + destruct (BR _ _ _ _ H3 Lz) as (k4 & H4). left. apply At_all in H4. cbn in H4. destruct H4 as [E|[]]. now injection E as _ <-.
    + destruct (At_un_inv _ _ _ _ _ H3) as [[_ E]|(k4 & H4)]; [subst z; discriminate Lz|]. right. exact (BR _ _ _ _ H4 Lz).
  - intros k z H. pose proof (At_below (3 + n) (op_clip lo up) out k z H) as H1. destruct (At_right_in (4 + n) BPlus (EVal 1%R) _ _ z H1) as (k2 & H2).
    pose proof (At_below (6 + n) op_negative _ _ _ (At_below (5 + n) op_log _ _ _ H2)) as H3. destruct (At_right_in (7 + n) BPlus BT _ _ z H3) as (k4 & H4).
    eexists. exact (At_below (8 + n) op_square _ _ _ H4).
  - intros k z H. eexists. exact (At_below (9 + n) _ _ _ _ H).
Qed.
End One.
End Pairs.
