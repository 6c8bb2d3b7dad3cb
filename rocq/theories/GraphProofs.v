(** Forward passes compute the mathematical value: positions, storage owners, the invariant and its preservation. *)
From Coq Require Import List Arith Lia Bool PeanoNat.
From Verif Require Import ListBase TensorModel TensorSpec TensorProofs TensorProofs2 GraphModel GraphSpec.
Import ListNotations.

(** ** small facts *)
Lemma fupd_same {T} (f : nat -> T) n v : fupd f n v n = v.
Proof. unfold fupd. now rewrite Nat.eqb_refl. Qed.
Lemma fupd_other {T} (f : nat -> T) n m v : m <> n -> fupd f n v m = f m.
Proof. unfold fupd. intros H. destruct (Nat.eqb_spec m n); [contradiction|reflexivity]. Qed.
Lemma slot_eqb_spec a b : reflect (a = b) (slot_eqb a b).
Proof.
  destruct a as [[n x]|], b as [[m y]|]; cbn; try (constructor; congruence).
  destruct (Nat.eqb_spec n m); cbn; [|constructor; congruence].
  destruct x, y; cbn; constructor; congruence.
Qed.
Lemma supd_same {T} (f : slot -> T) k v : supd f k v k = v.
Proof. unfold supd. destruct (slot_eqb_spec k k); congruence. Qed.
Lemma supd_other {T} (f : slot -> T) k k' v : k' <> k -> supd f k v k' = f k'.
Proof. unfold supd. intros H. destruct (slot_eqb_spec k' k); congruence. Qed.

Section Positions.
Context {A : Type}.
Implicit Types e x y l r : expr A.

Lemma At_trans e k x : At e k x -> forall k' y, At x k' y -> exists k'', At e k'' y /\ (k' <> None -> k'' = k').
Proof.
  intros H k' y H'. induction H' as [|k' n o y _ IH|k' n o l r _ IH|k' n o l r _ IH].
  - exists k. split; [assumption|congruence].
  - destruct IH as (k'' & IH & _). exists (Some (n, false)). split; [now apply (At_un _ k'' n o)|reflexivity].
  - destruct IH as (k'' & IH & _). exists (Some (n, false)). split; [now apply (At_left _ k'' n o l r)|reflexivity].
  - destruct IH as (k'' & IH & _). exists (Some (n, true)). split; [now apply (At_right _ k'' n o l r)|reflexivity].
Qed.

Lemma At_size e k x : At e k x -> size x <= size e /\ (k <> None -> size x < size e).
Proof.
  induction 1 as [|k n o x _ IH|k n o l r _ IH|k n o l r _ IH]; cbn [size] in *; [split; [lia|congruence]| | |];
  split; intros; lia.
Qed.

Lemma ids_At x m : In m (ids x) <-> exists k y, At x k y /\ node_id y = Some m.
Proof.
  split.
  - revert m. induction x as [| | | |n o x IH|n o l IHl r IHr]; cbn [ids In]; intros m H; try contradiction.
    + destruct H as [<-|H]; [exists None, (EUn n o x); split; [constructor|reflexivity]|].
      destruct (IH m H) as (k & y & Hy & E).
      destruct (At_trans (EUn n o x) (Some (n, false)) x (At_un _ None n o x (At_root _)) k y Hy) as (k'' & H2 & _). eauto.
    + destruct H as [<-|H]; [exists None, (EBin n o l r); split; [constructor|reflexivity]|].
      apply in_app_iff in H. destruct H as [H|H].
      * destruct (IHl m H) as (k & y & Hy & E).
        destruct (At_trans (EBin n o l r) (Some (n, false)) l (At_left _ None n o l r (At_root _)) k y Hy) as (k'' & H2 & _). eauto.
      * destruct (IHr m H) as (k & y & Hy & E).
        destruct (At_trans (EBin n o l r) (Some (n, true)) r (At_right _ None n o l r (At_root _)) k y Hy) as (k'' & H2 & _). eauto.
  - intros (k & y & H & E).
    assert (forall k y, At x k y -> incl (ids y) (ids x)) as HI.
    { clear. induction 1 as [|k n o y _ IH|k n o l r _ IH|k n o l r _ IH]; [apply incl_refl| | |]; intros a Ha; apply IH; cbn [ids];
      [now right|right; apply in_app_iff; now left|right; apply in_app_iff; now right]. }
    apply (HI k y H). destruct y; cbn in E |- *; try discriminate; injection E as <-; now left.
Qed.

Section Consistent.
Variable e0 : expr A.
Hypothesis Hcons : consistent e0.

Lemma At_fun k x y : At e0 k x -> At e0 k y -> x = y.
Proof.
  intros H1 H2. inversion H1; subst; inversion H2; subst; try reflexivity;
  match goal with
  | [ H1 : At e0 _ ?a, H2 : At e0 _ ?b |- _ ] => assert (a = b) as E by (eapply Hcons; [exact H1|exact H2|reflexivity|reflexivity])
  end; congruence.
Qed.

Lemma At_parent n b x : At e0 (Some (n, b)) x -> exists k y, At e0 k y /\ node_id y = Some n /\ size x < size y.
Proof.
  intros H. inversion H; subst; eexists _, _; (split; [eassumption|]); cbn [size node_id]; split; try reflexivity; lia.
Qed.

Lemma no_cycle n b x : At e0 (Some (n, b)) x -> ~ In n (ids x).
Proof.
  intros H Hin. destruct (At_parent _ _ _ H) as (k & y & Hy & Ey & Hs).
  apply ids_At in Hin. destruct Hin as (k' & z & Hz & Ez).
  destruct (At_trans _ _ _ H _ _ Hz) as (k'' & Hz0 & _).
  assert (y = z) by (eapply Hcons; eassumption). subst z. apply At_size in Hz. lia.
Qed.

End Consistent.
End Positions.

Section Owners.
Context {A : Type} (zero one : A) (add mul : A -> A -> A).
Variable q : env A.
Implicit Types e x y l r : expr A.

Notation inplace := (inplace zero one add mul q).
Notation path := (path zero one add mul q).

Definition is_value x : bool := match x with EVal _ => true | _ => false end.

Fixpoint owner_of (x : expr A) : owner :=
  match x with
  | EUn n o y => match o with UView _ => owner_of y | _ => OOp n end
  | EBin n o l r => match o with
                    | BPlus => if negb (is_value l) && inplace l r then owner_of l else OOp n
                    | _ => OOp n
                    end
  | EVal _ => OTmp
  | _ => OLeaf
  end.

Lemma path_bin n l r : path (EBin n BPlus l r) = EBin n BPlus l r :: if negb (is_value l) && inplace l r then path l else [].
Proof. destruct l; reflexivity. Qed.

Lemma path_self x : In x (path x).
Proof. destruct x; cbn; auto. Qed.

Lemma owner_path x o : owner_of x = OOp o -> exists y, In y (path x) /\ node_id y = Some o /\ owner_of y = OOp o.
Proof.
  induction x as [| | | |n u x IH|n u l IHl r IHr]; cbn [owner_of]; intros H; try discriminate.
  - destruct u as [ow f m b|f]; [exists (EUn n (UNew ow f m b) x); cbn; injection H as ->; auto|].
    destruct (IH H) as (y & H1 & H2 & H3). exists y. cbn [GraphSpec.path]. split; [now right|auto].
  - destruct u as [|ow f m b]; [|exists (EBin n (BNew ow f m b) l r); cbn; injection H as ->; auto].
    destruct (negb (is_value l) && inplace l r) eqn:E.
    + destruct (IHl H) as (y & H1 & H2 & H3). exists y. rewrite path_bin, E. split; [now right|auto].
    + exists (EBin n BPlus l r). injection H as ->. rewrite path_bin, E. cbn [In node_id owner_of]. rewrite E. auto.
Qed.

Lemma owner_path_same x y : In y (path x) -> owner_of y = owner_of x.
Proof.
  induction x as [| | | |n u x IH|n u l IHl r IHr]; try (cbn; intros [<-|[]]; reflexivity).
  - destruct u as [ow f m b|f]; cbn [GraphSpec.path In owner_of]; intros [<-|H]; try contradiction; auto.
  - destruct u as [|ow f m b]; [|cbn; intros [<-|[]]; reflexivity]. rewrite path_bin. cbn [In owner_of].
    destruct (negb (is_value l) && inplace l r) eqn:E.
    + intros [<-|H]; [cbn [owner_of]; now rewrite E|auto].
    + intros [<-|[]]. cbn [owner_of]. now rewrite E.
Qed.

(** nodes on the path are sub-expressions, at slots that go down the left *)
Lemma path_At x y : In y (path x) -> exists k, At x k y.
Proof.
  induction x as [| | | |n u x IH|n u l IHl r IHr]; try (cbn; intros [<-|[]]; exists None; constructor).
  - destruct u as [ow f m b|f]; cbn [GraphSpec.path In]; intros [<-|H]; try contradiction; try (exists None; constructor).
    destruct (IH H) as (k & Hk).
    destruct (At_trans (EUn n (UView f) x) (Some (n, false)) x (At_un _ None n _ x (At_root _)) k y Hk) as (k'' & H2 & _). eauto.
  - destruct u as [|ow f m b]; [|cbn; intros [<-|[]]; exists None; constructor]. rewrite path_bin.
    destruct (negb (is_value l) && inplace l r); intros [<-|H]; try (exists None; constructor); [|contradiction].
    destruct (IHl H) as (k & Hk).
    destruct (At_trans (EBin n BPlus l r) (Some (n, false)) l (At_left _ None n _ l r (At_root _)) k y Hk) as (k'' & H2 & _). eauto.
Qed.

Lemma path_ids x y m : In y (path x) -> node_id y = Some m -> In m (ids x).
Proof. intros H E. destruct (path_At _ _ H) as (k & Hk). apply ids_At. eauto. Qed.

(** a node on the path of x is x itself, or the left or only operand of another node on the path *)
Lemma path_parent x y : In y (path x) -> y = x \/ exists w m, In w (path x) /\ node_id w = Some m /\ At w (Some (m, false)) y.
Proof.
  induction x as [| | | |n u x IH|n u l IHl r IHr]; try (cbn; intros [<-|[]]; now left).
  - destruct u as [ow f m b|f]; cbn [GraphSpec.path In]; intros [<-|H]; try contradiction; try now left.
    right. destruct (IH H) as [->|(w & m & H1 & H2 & H3)].
    + exists (EUn n (UView f) x), n. split; [now left|]. split; [reflexivity|]. apply (At_un _ None n (UView f)). constructor.
    + exists w, m. auto.
  - destruct u as [|ow f m b]; [|cbn; intros [<-|[]]; now left]. rewrite path_bin.
    destruct (negb (is_value l) && inplace l r); cbn [In]; intros [<-|H]; try contradiction; try now left.
    right. destruct (IHl H) as [->|(w & m & H1 & H2 & H3)].
    + exists (EBin n BPlus l r), n. split; [now left|]. split; [reflexivity|]. apply (At_left _ None n BPlus l r). constructor.
    + exists w, m. auto.
Qed.

(** the part of the path below its head *)
Lemma path_step x z : In z (path x) -> z = x \/
  exists x' n, node_id x = Some n /\ At x (Some (n, false)) x' /\ In z (path x') /\ path x = x :: path x'.
Proof.
  destruct x as [v|p|t|c|n u x|n u l r]; try (cbn; intros [<-|[]]; now left).
  - destruct u as [ow f m b|f]; cbn [GraphSpec.path In]; intros [<-|H]; try contradiction; try now left.
    right. exists x, n. split; [reflexivity|]. split; [apply (At_un _ None n (UView f)); constructor|]. auto.
  - destruct u as [|ow f m b]; [|cbn; intros [<-|[]]; now left]. rewrite path_bin.
    destruct (negb (is_value l) && inplace l r); cbn [In]; intros [<-|H]; try contradiction; try now left.
    right. exists l, n. split; [reflexivity|]. split; [apply (At_left _ None n BPlus l r); constructor|]. auto.
Qed.

Section Discipline.
Variable e0 : expr A.
Hypothesis Hcons : consistent e0.
Hypothesis Hdis : disciplined zero one add mul q e0.

(** Whoever lives in the storage of the left operand of an in-place sum is on that operand's path, or above the sum. *)
Lemma same_storage kp n l r : At e0 kp (EBin n BPlus l r) -> inplace l r = true -> is_value l = false ->
  forall y z, (exists k, At e0 k y) -> In z (path y) -> In z (path l) -> node_id z <> None ->
  In y (path l) \/ In (EBin n BPlus l r) (path y).
Proof.
  intros Hp Hin Hv y. remember (size y) as s eqn:Es. revert y Es.
  induction s as [s IH] using lt_wf_ind. intros y -> z [k Hy] Hzy Hzl Hz.
  destruct (path_step y z Hzy) as [->|(y' & m & E1 & H1 & H2 & H3)]; [now left|].
  destruct (At_trans _ _ _ Hy _ _ H1) as (k1 & Hy' & K1). rewrite (K1 ltac:(discriminate)) in Hy'. clear K1 k1.
  assert (Hsize : size y' < size y) by (apply At_size in H1; apply H1; discriminate).
  destruct (IH (size y') Hsize y' eq_refl z (ex_intro _ _ Hy') H2 Hzl Hz) as [Hl|Ha].
  2:{ right. rewrite H3. now right. }
  destruct (Hdis kp n l r Hp Hin y' Hl) as [Hleaf Huniq].
  assert (node_id y' <> None) as Hid.
  { destruct (path_step y' z H2) as [E|(w & m' & E & _)]; [congruence|congruence]. }
  destruct (path_parent l y' Hl) as [->|(w & m' & Hw & Ew & Hwy)].
  - assert (Some (m, false) = Some (n, false)) as E.
    { apply (Huniq _ _ Hy'); [|assumption]. now apply (At_left _ kp n BPlus l r). }
    injection E as ->.
    right. assert (y = EBin n BPlus l r) as -> by (eapply Hcons; [exact Hy|exact Hp|exact E1|reflexivity]). apply path_self.
  - destruct (path_At _ _ Hw) as (kw & Hkw).
    destruct (At_trans e0 (Some (n, false)) l (At_left _ kp n BPlus l r Hp) _ _ Hkw) as (kw' & Hw0 & _).
    destruct (At_trans _ _ _ Hw0 _ _ Hwy) as (k2 & Hy2 & K2). rewrite (K2 ltac:(discriminate)) in Hy2.
    pose proof (Huniq _ _ Hy' Hy2 Hid) as E. injection E as ->.
    left. assert (y = w) as -> by (eapply Hcons; [exact Hy|exact Hw0|exact E1|exact Ew]). assumption.
Qed.

End Discipline.
End Owners.
