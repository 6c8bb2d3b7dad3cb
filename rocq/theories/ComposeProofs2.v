(** Proofs about composed models: the rebuilt expression. *)
From Coq Require Import List Arith Lia Bool PeanoNat.
From Verif Require Import ListBase TensorModel ArrayModel GraphModel GraphSpec ComposeModel ComposeSpec.
Import ListNotations.

Section Rebuild.
Context {A : Type} (zero one : A) (add mul : A -> A -> A).
Variable rl : bool.
Notation expr := (expr A).
Notation eval := (eval zero one add mul).
Notation operands := (operands zero one add mul).
Notation inplace := (inplace zero one add mul).
Notation path := (path zero one add mul).
Notation sizes_ok := (sizes_ok zero one add mul).
Notation disciplined := (disciplined zero one add mul).

Lemma replace_grafted y : forall (e : expr) n buf e' n' b', replace rl e y n buf = (e', n', b') -> grafted y e e'.
Proof.
  induction e as [v|p|t|c|m o x IH|m o l IHl r IHr]; intros n buf e' n' b' H; cbn [replace grafted] in *; try (injection H as <- <- <-; reflexivity).
  - destruct (replace rl x y n buf) as [[x' n1] b1] eqn:E. injection H as <- <- <-. split; [reflexivity|exact (IH _ _ _ _ _ E)].
  - destruct rl.
    + destruct (replace true r y n buf) as [[r' n1] b1] eqn:E1. destruct (replace true l y n1 b1) as [[l' n2] b2] eqn:E2. injection H as <- <- <-.
      split; [reflexivity|]. split; [exact (IHl _ _ _ _ _ E2)|exact (IHr _ _ _ _ _ E1)].
    + destruct (replace false l y n buf) as [[l' n1] b1] eqn:E1. destruct (replace false r y n1 b1) as [[r' n2] b2] eqn:E2. injection H as <- <- <-.
      split; [reflexivity|]. split; [exact (IHl _ _ _ _ _ E1)|exact (IHr _ _ _ _ _ E2)].
Qed.

Lemma NoDup_join {T} (a b : list T) : NoDup a -> NoDup b -> (forall x, In x a -> In x b -> False) -> NoDup (a ++ b).
Proof.
  intros Ha Hb Hd. induction Ha as [|x a Hx Ha IH]; cbn [app]; [exact Hb|]. constructor.
  - rewrite in_app_iff. intros [H|H]; [exact (Hx H)|]. exact (Hd x (or_introl eq_refl) H).
  - apply IH. intros z Hz. apply Hd. right. exact Hz.
Qed.

Lemma map_fupd_new {T} (b : nat -> T) k v l : (forall i, In i l -> i < k) -> map (fupd b k v) l = map b l.
Proof. intros H. apply map_ext_in. intros i Hi. unfold fupd. specialize (H i Hi). destruct (Nat.eqb_spec i k); [lia|reflexivity]. Qed.

Lemma replace_new y : forall (e : expr) n buf e' n' b', replace rl e y n buf = (e', n', b') -> (forall i, In i (ids e) -> i < n) ->
  n' = n + length (ids e) /\ NoDup (new_ids e e') /\ (forall i, In i (new_ids e e') -> n <= i < n') /\
  (forall i, i < n -> b' i = buf i) /\ map b' (new_ids e e') = map buf (ids e).
Proof.
  induction e as [v|p|t|c|m o x IH|m o l IHl r IHr]; intros n buf e' n' b' H Hi; cbn [replace ids] in *;
    try (injection H as <- <- <-; cbn [new_ids length map];
         split; [lia|]; split; [constructor|]; split; [intros i []|]; split; reflexivity).
  - destruct (replace rl x y n buf) as [[x' n1] b1] eqn:E. injection H as <- <- <-.
    destruct (IH _ _ _ _ _ E) as (P1 & P2 & P3 & P4 & P5). { intros i Hin. apply Hi. right. exact Hin. }
    cbn [new_ids length map]. split; [lia|]. split.
    { constructor; [|exact P2]. intros Hin. apply P3 in Hin. lia. }
    split. { intros i [<-|Hin]; [lia|apply P3 in Hin; lia]. }
    split. { intros i Hlt. unfold fupd. destruct (Nat.eqb_spec i n1); [lia|exact (P4 i Hlt)]. }
    unfold fupd at 1. rewrite Nat.eqb_refl. rewrite map_fupd_new, P5; [reflexivity|]. intros i Hin. apply P3 in Hin. lia.
  - assert (forall i, In i (ids l) -> i < n) as Hl by (intros i Hin; apply Hi; right; apply in_or_app; left; exact Hin).
    assert (forall i, In i (ids r) -> i < n) as Hr by (intros i Hin; apply Hi; right; apply in_or_app; right; exact Hin).
    destruct rl.
    + destruct (replace true r y n buf) as [[r' n1] b1] eqn:E1. destruct (replace true l y n1 b1) as [[l' n2] b2] eqn:E2. injection H as <- <- <-.
      destruct (IHr _ _ _ _ _ E1 Hr) as (P1 & P2 & P3 & P4 & P5).
      destruct (IHl _ _ _ _ _ E2) as (Q1 & Q2 & Q3 & Q4 & Q5). { intros i Hin. specialize (Hl i Hin). lia. }
      cbn [new_ids length map]. rewrite app_length. split; [lia|]. split.
      { constructor; [rewrite in_app_iff; intros [Hin|Hin]; [apply Q3 in Hin|apply P3 in Hin]; lia|]. apply NoDup_join; [exact Q2|exact P2|].
        intros i Hq Hp. apply Q3 in Hq. apply P3 in Hp. lia. }
      split. { intros i [<-|Hin]; [lia|]. apply in_app_iff in Hin. destruct Hin as [Hin|Hin]; [apply Q3 in Hin|apply P3 in Hin]; lia. }
      split. { intros i Hlt. unfold fupd. destruct (Nat.eqb_spec i n2); [lia|]. rewrite Q4 by lia. exact (P4 i Hlt). }
      unfold fupd at 1. rewrite Nat.eqb_refl. rewrite map_fupd_new, !map_app, Q5.
      2:{ intros i Hin. apply in_app_iff in Hin. destruct Hin as [Hin|Hin]; [apply Q3 in Hin|apply P3 in Hin]; lia. }
      f_equal. f_equal.
      * apply map_ext_in. intros i Hin. apply P4, Hl, Hin.
      * rewrite <- P5. apply map_ext_in. intros i Hin. apply Q4. apply P3 in Hin. lia.
    + destruct (replace false l y n buf) as [[l' n1] b1] eqn:E1. destruct (replace false r y n1 b1) as [[r' n2] b2] eqn:E2. injection H as <- <- <-.
      destruct (IHl _ _ _ _ _ E1 Hl) as (P1 & P2 & P3 & P4 & P5).
      destruct (IHr _ _ _ _ _ E2) as (Q1 & Q2 & Q3 & Q4 & Q5). { intros i Hin. specialize (Hr i Hin). lia. }
      cbn [new_ids length map]. rewrite app_length. split; [lia|]. split.
      { constructor; [rewrite in_app_iff; intros [Hin|Hin]; [apply P3 in Hin|apply Q3 in Hin]; lia|]. apply NoDup_join; [exact P2|exact Q2|].
        intros i Hp Hq. apply Q3 in Hq. apply P3 in Hp. lia. }
      split. { intros i [<-|Hin]; [lia|]. apply in_app_iff in Hin. destruct Hin as [Hin|Hin]; [apply P3 in Hin|apply Q3 in Hin]; lia. }
      split. { intros i Hlt. unfold fupd. destruct (Nat.eqb_spec i n2); [lia|]. rewrite Q4 by lia. exact (P4 i Hlt). }
      unfold fupd at 1. rewrite Nat.eqb_refl. rewrite map_fupd_new, !map_app, Q5.
      2:{ intros i Hin. apply in_app_iff in Hin. destruct Hin as [Hin|Hin]; [apply P3 in Hin|apply Q3 in Hin]; lia. }
      f_equal. f_equal.
      * rewrite <- P5. apply map_ext_in. intros i Hin. apply Q4. apply P3 in Hin. lia.
      * apply map_ext_in. intros i Hin. apply P4, Hr, Hin.
Qed.

Lemma grafted_ids y : forall e e' : expr, grafted y e e' -> forall i, In i (ids e') -> In i (new_ids e e') \/ In i (ids y).
Proof.
  induction e as [v|p|t|c|m o x IH|m o l IHl r IHr]; intros e' G i Hi; cbn [grafted] in G; try (subst e'; cbn in Hi; tauto).
  - destruct e' as [| | | |m' o' x'|]; try contradiction. destruct G as [_ G]. cbn [ids new_ids In] in *.
    destruct Hi as [Hi|Hi]; [left; left; exact Hi|]. destruct (IH x' G i Hi); auto.
  - destruct e' as [| | | | |m' o' l' r']; try contradiction. destruct G as (_ & Gl & Gr). cbn [ids new_ids In] in *. rewrite in_app_iff in *.
    destruct Hi as [Hi|[Hi|Hi]]; [left; left; exact Hi| |]; [destruct (IHl l' Gl i Hi)|destruct (IHr r' Gr i Hi)]; auto.
Qed.

Lemma grafted_val y : (forall c, y <> EVal c) -> forall e e' : expr, grafted y e e' -> forall c, e = EVal c <-> e' = EVal c.
Proof.
  intros Hy e e' G c. destruct e; cbn [grafted] in G; try (subst e'; split; [discriminate|intros E; try discriminate E; destruct (Hy c E)]).
  - subst e'. tauto.
  - destruct e'; try contradiction. split; discriminate.
  - destruct e'; try contradiction. split; discriminate.
Qed.

Lemma operands_val q l r : (forall c, l <> EVal c) -> (forall c, r <> EVal c) ->
  operands q l r = obind2 (eval q l) (fun a => obind2 (eval q r) (fun b => Some (a, b))).
Proof. intros Hl Hr. destruct l; try (destruct (Hl _ eq_refl)); destruct r; try (destruct (Hr _ eq_refl)); reflexivity. Qed.
Lemma operands_right q l c : (forall c, l <> EVal c) -> operands q l (EVal c) = obind2 (eval q l) (fun v => Some (v, const_like one mul c v)).
Proof. intros Hl. destruct l; try (destruct (Hl _ eq_refl)); reflexivity. Qed.
Lemma eval_bin_eq q n o l r : eval q (EBin n o l r) = obind2 (operands q l r) (fun p => match o with
                       | BPlus => plus_val zero add (fst p) (snd p)
                       | BNew _ f _ _ => f (fst p) (snd p)
                       end).
Proof. destruct l, r; reflexivity. Qed.

Definition is_val (e : expr) : {c | e = EVal c} + {forall c, e <> EVal c}.
Proof. destruct e as [| | |c| |]; try (right; discriminate). left. exists c. reflexivity. Defined.

Lemma grafted_operands y q v : (forall c, y <> EVal c) -> forall l r l' r' : expr, grafted y l l' -> grafted y r r' ->
  eval q l' = eval (feed q v) l -> eval q r' = eval (feed q v) r -> operands q l' r' = operands (feed q v) l r.
Proof.
  intros Hy l r l' r' Gl Gr El Er. pose proof (grafted_val y Hy l l' Gl) as Vl. pose proof (grafted_val y Hy r r' Gr) as Vr.
  destruct (is_val l) as [[c ->]|Nl].
  - rewrite (proj1 (Vl c) eq_refl). cbn [GraphSpec.operands]. rewrite Er. reflexivity.
  - assert (forall c, l' <> EVal c) as Nl'. { intros c E. apply Vl in E. exact (Nl c E). }
    destruct (is_val r) as [[c ->]|Nr].
    + rewrite (proj1 (Vr c) eq_refl). rewrite !operands_right by assumption. rewrite El. reflexivity.
    + assert (forall c, r' <> EVal c) as Nr'. { intros c E. apply Vr in E. exact (Nr c E). }
      rewrite !operands_val by assumption. rewrite El, Er. reflexivity.
Qed.

(** the value of the composed expression *)
Lemma grafted_eval y q v : (forall c, y <> EVal c) -> eval q y = Some v -> forall e e' : expr, grafted y e e' -> eval q e' = eval (feed q v) e.
Proof.
  intros Hy Ey. induction e as [u|p|t|c|m o x IH|m o l IHl r IHr]; intros e' G; cbn [grafted] in G; try (subst e'; reflexivity).
  - subst e'. exact Ey.
  - destruct e' as [| | | |m' o' x'|]; try contradiction. destruct G as [-> G]. cbn [GraphSpec.eval]. rewrite (IH x' G). reflexivity.
  - destruct e' as [| | | | |m' o' l' r']; try contradiction. destruct G as (-> & Gl & Gr). rewrite !eval_bin_eq.
    rewrite (grafted_operands y q v Hy l r l' r' Gl Gr (IHl l' Gl) (IHr r' Gr)). reflexivity.
Qed.

(** corresponding places *)
Fixpoint placed (k : slot) (e e' : expr) : list (slot * expr * expr) :=
  (k, e, e') :: match e, e' with
                | EUn _ _ x, EUn n _ x' => placed (Some (n, false)) x x'
                | EBin _ _ l r, EBin n _ l' r' => placed (Some (n, false)) l l' ++ placed (Some (n, true)) r r'
                | _, _ => []
                end.

Lemma placed_self k e e' : In (k, e, e') (placed k e e').
Proof. destruct e; left; reflexivity. Qed.

Lemma placed_down : forall (e e' : expr) k k1 x x', In (k1, x, x') (placed k e e') ->
  match x, x' with
  | EUn _ _ z, EUn n _ z' => In (Some (n, false), z, z') (placed k e e')
  | EBin _ _ l r, EBin n _ l' r' => In (Some (n, false), l, l') (placed k e e') /\ In (Some (n, true), r, r') (placed k e e')
  | _, _ => True
  end.
Proof.
  assert (forall (e e' : expr) k k1 x x', In (k1, x, x') (placed k e e') -> (k1, x, x') = (k, e, e') \/
    match e, e' with
    | EUn _ _ z, EUn n _ z' => In (k1, x, x') (placed (Some (n, false)) z z')
    | EBin _ _ l r, EBin n _ l' r' => In (k1, x, x') (placed (Some (n, false)) l l' ++ placed (Some (n, true)) r r')
    | _, _ => False
    end) as D.
  { intros e e' k k1 x x' H. destruct e; destruct H as [H|H]; try (left; congruence); right; try (destruct H; fail);
      destruct e'; try (destruct H; fail); exact H. }
  induction e as [u|p|t|c|m o z IH|m o l IHl r IHr]; intros e' k k1 x x' H; destruct (D _ _ _ _ _ _ H) as [[= -> -> ->]|H']; try exact I; try contradiction.
  - destruct e'; try exact I. right. apply placed_self.
  - destruct e' as [| | | |m' o' z'|]; try contradiction. specialize (IH z' _ _ _ _ H'). cbn [placed].
    destruct x, x'; try exact I; cbn [In]; tauto.
  - destruct e'; try exact I. cbn [placed In]. rewrite !in_app_iff. split; right; [left|right]; apply placed_self.
  - destruct e' as [| | | | |m' o' l' r']; try contradiction. cbn [placed]. apply in_app_iff in H'.
    destruct H' as [H'|H']; [specialize (IHl l' _ _ _ _ H')|specialize (IHr r' _ _ _ _ H')]; destruct x, x'; try exact I; cbn [In]; rewrite !in_app_iff; tauto.
Qed.

Lemma At_grafted y (e e' : expr) : grafted y e e' -> forall k x', At e' k x' ->
  (exists x k0, In (k, x, x') (placed None e e') /\ At e k0 x /\ grafted y x x') \/ (k <> None /\ At y k x').
Proof.
  intros G k x' H. induction H as [|k n o z' H IH|k n o l' r' H IH|k n o l' r' H IH].
  - left. exists e, None. split; [apply placed_self|]. split; [constructor|exact G].
  - destruct IH as [(x & k0 & Hp & Ha & Hg)|[Hk Ha]]; [|right; split; [discriminate|econstructor; exact Ha]].
    apply placed_down in Hp. destruct x as [| | | |m o' z|]; cbn [grafted] in Hg; try contradiction; try discriminate Hg.
    + subst y. right. split; [discriminate|]. econstructor. constructor.
    + left. exists z, (Some (m, false)). split; [exact Hp|]. split; [econstructor; exact Ha|apply Hg].
  - destruct IH as [(x & k0 & Hp & Ha & Hg)|[Hk Ha]]; [|right; split; [discriminate|eapply At_left; exact Ha]].
    apply placed_down in Hp. destruct x as [| | | | |m o' l r]; cbn [grafted] in Hg; try contradiction; try discriminate Hg.
    + subst y. right. split; [discriminate|]. eapply At_left. constructor.
    + left. exists l, (Some (m, false)). split; [apply Hp|]. split; [eapply At_left; exact Ha|apply Hg].
  - destruct IH as [(x & k0 & Hp & Ha & Hg)|[Hk Ha]]; [|right; split; [discriminate|eapply At_right; exact Ha]].
    apply placed_down in Hp. destruct x as [| | | | |m o' l r]; cbn [grafted] in Hg; try contradiction; try discriminate Hg.
    + subst y. right. split; [discriminate|]. eapply At_right. constructor.
    + left. exists r, (Some (m, true)). split; [apply Hp|]. split; [eapply At_right; exact Ha|apply Hg].
Qed.

Definition op_id (x x' : expr) : option nat :=
  match x, x' with EUn _ _ _, EUn n _ _ => Some n | EBin _ _ _ _, EBin n _ _ _ => Some n | _, _ => None end.

Lemma placed_new : forall (e e' : expr) k k1 x x' i, In (k1, x, x') (placed k e e') -> op_id x x' = Some i -> In i (new_ids e e').
Proof.
  induction e as [u|p|t|c|m o z IH|m o l IHl r IHr]; intros e' k k1 x x' i H Ho; cbn [placed] in H;
    try (destruct H as [[= <- <- <-]|[]]; discriminate Ho).
  - destruct H as [[= <- <- <-]|H].
    + cbn [op_id] in Ho. destruct e'; try discriminate Ho. injection Ho as <-. left. reflexivity.
    + destruct e' as [| | | |m' o' z'|]; try (destruct H; fail). right. exact (IH z' _ _ _ _ _ H Ho).
  - destruct H as [[= <- <- <-]|H].
    + cbn [op_id] in Ho. destruct e'; try discriminate Ho. injection Ho as <-. left. reflexivity.
    + destruct e' as [| | | | |m' o' l' r']; try (destruct H; fail). cbn [new_ids In]. rewrite in_app_iff. apply in_app_iff in H. right.
      destruct H as [H|H]; [left; exact (IHl l' _ _ _ _ _ H Ho)|right; exact (IHr r' _ _ _ _ _ H Ho)].
Qed.

Lemma NoDup_app_inv {T} (a b : list T) : NoDup (a ++ b) -> NoDup a /\ NoDup b /\ (forall x, In x a -> In x b -> False).
Proof.
  induction a as [|x a IH]; cbn [app]; intros H; [split; [constructor|split; [exact H|intros x []]]|].
  inversion H as [|? ? Hx Hn]; subst. destruct (IH Hn) as (P & Q & R). rewrite in_app_iff in Hx. split; [constructor; [tauto|exact P]|].
  split; [exact Q|]. intros z [->|Hz] Hb; [tauto|exact (R z Hz Hb)].
Qed.

Lemma placed_once : forall (e e' : expr) k, NoDup (new_ids e e') -> forall k1 x1 x1' k2 x2 x2' i,
  In (k1, x1, x1') (placed k e e') -> In (k2, x2, x2') (placed k e e') -> op_id x1 x1' = Some i -> op_id x2 x2' = Some i ->
  k1 = k2 /\ x1' = x2'.
Proof.
  induction e as [u|p|t|c|m o z IH|m o l IHl r IHr]; intros e' k Hn k1 x1 x1' k2 x2 x2' i H1 H2 O1 O2; cbn [placed] in H1, H2;
    try (destruct H1 as [[= <- <- <-]|[]]; discriminate O1).
  - destruct e' as [| | | |m' o' z'|]; try (destruct H1 as [[= <- <- <-]|[]]; discriminate O1). cbn [new_ids] in Hn. inversion Hn as [|? ? Hm Hz]; subst.
    destruct H1 as [[= <- <- <-]|H1], H2 as [[= <- <- <-]|H2]; cbn [op_id] in O1, O2.
    + split; reflexivity.
    + injection O1 as <-. destruct (Hm (placed_new _ _ _ _ _ _ _ H2 O2)).
    + injection O2 as <-. destruct (Hm (placed_new _ _ _ _ _ _ _ H1 O1)).
    + exact (IH z' _ Hz _ _ _ _ _ _ _ H1 H2 O1 O2).
  - destruct e' as [| | | | |m' o' l' r']; try (destruct H1 as [[= <- <- <-]|[]]; discriminate O1). cbn [new_ids] in Hn. inversion Hn as [|? ? Hm Hz]; subst.
    apply NoDup_app_inv in Hz. destruct Hz as (Nl & Nr & D). rewrite in_app_iff in Hm.
    assert (forall kk x x', In (kk, x, x') (placed (Some (m', false)) l l' ++ placed (Some (m', true)) r r') -> op_id x x' = Some m' -> False) as Z.
    { intros kk x x' H O. apply Hm. apply in_app_iff in H. destruct H as [H|H]; [left|right]; exact (placed_new _ _ _ _ _ _ _ H O). }
    destruct H1 as [[= <- <- <-]|H1], H2 as [[= <- <- <-]|H2]; cbn [op_id] in O1, O2.
    + split; reflexivity.
    + injection O1 as <-. destruct (Z _ _ _ H2 O2).
    + injection O2 as <-. destruct (Z _ _ _ H1 O1).
    + apply in_app_iff in H1, H2. destruct H1 as [H1|H1], H2 as [H2|H2].
      * exact (IHl l' _ Nl _ _ _ _ _ _ _ H1 H2 O1 O2).
      * destruct (D i (placed_new _ _ _ _ _ _ _ H1 O1) (placed_new _ _ _ _ _ _ _ H2 O2)).
      * destruct (D i (placed_new _ _ _ _ _ _ _ H2 O2) (placed_new _ _ _ _ _ _ _ H1 O1)).
      * exact (IHr r' _ Nr _ _ _ _ _ _ _ H1 H2 O1 O2).
Qed.

Lemma At_ids : forall (e : expr) k x, At e k x -> incl (ids x) (ids e).
Proof.
  intros e k x H. induction H as [|k n o z H IH|k n o l r H IH|k n o l r H IH]; intros i Hi; [exact Hi| | |];
    apply IH; cbn [ids In]; rewrite ?in_app_iff; tauto.
Qed.
Lemma node_ids (x : expr) i : node_id x = Some i -> In i (ids x).
Proof. destruct x; cbn; try discriminate; intros [= ->]; left; reflexivity. Qed.

Section Composed.
Variables (y e e' : expr) (n : nat).
Hypothesis G : grafted y e e'.
Hypothesis Hy : forall c, y <> EVal c.
Hypothesis Nd : NoDup (new_ids e e').
Hypothesis New : forall i, In i (new_ids e e') -> n <= i.
Hypothesis Old : forall i, In i (ids y) -> i < n.

(** an operator of e' is either one of e's, in its only place, or one of y's *)
Lemma At_op k x' i : At e' k x' -> node_id x' = Some i ->
  (n <= i /\ exists x, In (k, x, x') (placed None e e') /\ op_id x x' = Some i) \/ (i < n /\ (x' = y \/ (k <> None /\ At y k x'))).
Proof.
  intros Ha Hi. destruct (At_grafted y e e' G k x' Ha) as [(x & k0 & Hp & Hx & Hg)|[Hk Hx]].
  - assert (x' = y \/ op_id x x' = Some i) as [->|Ho].
    { destruct x; cbn [grafted] in Hg; try (subst x'; cbn in Hi; discriminate Hi); [left; exact Hg| |];
        destruct x'; try contradiction; right; exact Hi. }
    + right. split; [apply Old, node_ids, Hi|left; reflexivity].
    + left. split; [exact (New i (placed_new _ _ _ _ _ _ _ Hp Ho))|]. exists x. split; assumption.
  - right. split; [|right; split; assumption]. apply Old, (At_ids y k x' Hx), node_ids, Hi.
Qed.

Lemma composed_consistent : consistent y -> consistent e'.
Proof.
  intros Cy k1 k2 x1 x2 i H1 H2 N1 N2.
  destruct (At_op k1 x1 i H1 N1) as [[L1 (z1 & P1 & O1)]|[L1 D1]], (At_op k2 x2 i H2 N2) as [[L2 (z2 & P2 & O2)]|[L2 D2]]; try lia.
  - exact (proj2 (placed_once e e' None Nd _ _ _ _ _ _ _ P1 P2 O1 O2)).
  - assert (exists k, At y k x1) as [j1 J1] by (destruct D1 as [->|[_ D1]]; [exists None; constructor|exists k1; exact D1]).
    assert (exists k, At y k x2) as [j2 J2] by (destruct D2 as [->|[_ D2]]; [exists None; constructor|exists k2; exact D2]).
    exact (Cy j1 j2 x1 x2 i J1 J2 N1 N2).
Qed.

Section Values.
Variables (q : env A) (v : val A).
Hypothesis Ey : eval q y = Some v.

Lemma composed_sizes : sizes_ok q y -> sizes_ok (feed q v) e -> sizes_ok q e'.
Proof.
  intros Sy Se k x' Ha Hv. destruct (At_grafted y e e' G k x' Ha) as [(x & k0 & Hp & Hx & Hg)|[Hk Hx]]; [|exact (Sy k x' Hx Hv)].
  rewrite (grafted_eval y q v Hy Ey x x' Hg). apply (Se k0 x Hx). intros c E. apply (Hv c). exact (proj1 (grafted_val y Hy x x' Hg c) E).
Qed.

Lemma composed_inplace l r l' r' : grafted y l l' -> grafted y r r' -> inplace q l' r' = inplace (feed q v) l r.
Proof.
  intros Gl Gr. unfold GraphSpec.inplace.
  rewrite (grafted_operands y q v Hy l r l' r' Gl Gr (grafted_eval y q v Hy Ey l l' Gl) (grafted_eval y q v Hy Ey r r' Gr)). reflexivity.
Qed.

(** the places of e's storages, up to placeholders *)
Lemma composed_path : forall (x x' : expr) k z', grafted y x x' -> In (k, x, x') (placed None e e') ->
  (forall z, In z (path (feed q v) x) -> is_leaf z = false) -> In z' (path q x') ->
  (exists k1 z i, In (k1, z, z') (placed None e e') /\ op_id z z' = Some i) \/ exists c, z' = EVal c.
Proof.
  induction x as [u|p|t|c|m o x IH|m o l IHl r IHr]; intros x' k z' Gx Hp Hl Hz.
  - discriminate (Hl _ (or_introl eq_refl)).
  - discriminate (Hl _ (or_introl eq_refl)).
  - discriminate (Hl _ (or_introl eq_refl)).
  - cbn [grafted] in Gx. subst x'. destruct Hz as [<-|[]]. right. exists c. reflexivity.
  - destruct x' as [| | | |m' o' x'|]; try contradiction. destruct Gx as [-> Gx]. cbn [GraphSpec.path] in Hz.
    destruct Hz as [<-|Hz]; [left; exists k, (EUn m o x), m'; split; [exact Hp|reflexivity]|].
    destruct o as [ow f md b|f]; [destruct Hz|]. apply placed_down in Hp.
    exact (IH x' _ z' Gx Hp (fun z Hin => Hl z (or_intror Hin)) Hz).
  - destruct x' as [| | | | |m' o' l' r']; try contradiction. destruct Gx as (-> & Gl & Gr). cbn [GraphSpec.path] in Hz.
    destruct Hz as [<-|Hz]; [left; exists k, (EBin m o l r), m'; split; [exact Hp|reflexivity]|].
    destruct o as [|ow f bo b]; [|destruct Hz]. apply placed_down in Hp. destruct Hp as [Hp _].
    destruct (is_val l) as [[c ->]|Nl].
    + cbn [grafted] in Gl. subst l'. destruct Hz.
    + assert (In z' (if inplace q l' r' then path q l' else [])) as Hz'.
      { destruct l'; try exact Hz. destruct Hz. }
      rewrite (composed_inplace l r l' r' Gl Gr) in Hz'. cbn [GraphSpec.path] in Hl.
      assert (forall z, In z (if inplace (feed q v) l r then path (feed q v) l else []) -> is_leaf z = false) as Hl'.
      { intros z Hin. apply Hl. right. destruct l; try exact Hin. destruct (Nl c eq_refl). }
      destruct (inplace (feed q v) l r); [|destruct Hz']. exact (IHl l' _ z' Gl Hp Hl' Hz').
Qed.

Lemma At_size : forall (x : expr) k z, At x k z -> size z <= size x.
Proof. intros x k z H. induction H as [|k m o z H IH|k m o l r H IH|k m o l r H IH]; cbn [size] in *; lia. Qed.
Lemma path_size : forall x z : expr, In z (path q x) -> size z <= size x.
Proof.
  induction x as [u|p|t|c|m o x IH|m o l IHl r IHr]; intros z Hz; cbn [GraphSpec.path] in Hz; destruct Hz as [<-|Hz]; try (cbn [size]; lia); try (destruct Hz; fail).
  - destruct o; [destruct Hz|]. specialize (IH z Hz). cbn [size]. lia.
  - destruct o; [|destruct Hz]. assert (In z (if inplace q l r then path q l else [])) as Hz' by (destruct l; try exact Hz; destruct Hz).
    destruct (inplace q l r); [|destruct Hz']. specialize (IHl z Hz'). cbn [size]. lia.
Qed.
Lemma path_At : forall (x z : expr) k, At y k x -> In z (path q x) -> exists k', At y k' z.
Proof.
  induction x as [u|p|t|c|m o x IH|m o l IHl r IHr]; intros z k Ha Hz; cbn [GraphSpec.path] in Hz; destruct Hz as [<-|Hz]; try (exists k; exact Ha); try (destruct Hz; fail).
  - destruct o; [destruct Hz|]. exact (IH z _ (At_un y k m _ x Ha) Hz).
  - destruct o; [|destruct Hz]. assert (In z (if inplace q l r then path q l else [])) as Hz' by (destruct l; try exact Hz; destruct Hz).
    destruct (inplace q l r); [|destruct Hz']. exact (IHl z _ (At_left y k m _ l r Ha) Hz').
Qed.

Lemma composed_disciplined : disciplined q y -> (forall k m l r, At e k (EBin m BPlus l r) -> inplace (feed q v) l r = true ->
    forall x, In x (path (feed q v) l) -> is_leaf x = false) -> disciplined q e'.
Proof.
  intros Dy De k i l' r' Ha Hin z' Hz.
  assert ((exists k0, At y k0 (EBin i BPlus l' r')) \/ exists x k0, In (k, x, EBin i BPlus l' r') (placed None e e') /\ At e k0 x /\
            op_id x (EBin i BPlus l' r') = Some i /\ grafted y x (EBin i BPlus l' r')) as [[k0 Hy0]|(x & k0 & Hp & Hx & Ho & Hg)].
  { destruct (At_grafted y e e' G k _ Ha) as [(x & k0 & Hp & Hx & Hg)|[_ Hx]]; [|left; exists k; exact Hx].
    destruct x; pose proof Hg as Hg'; cbn [grafted] in Hg'; try discriminate Hg'; try contradiction.
    - left. exists None. rewrite Hg'. constructor.
    - right. eexists; exists k0. split; [exact Hp|]. split; [exact Hx|]. split; [reflexivity|exact Hg]. }
  - destruct (Dy k0 i l' r' Hy0 Hin z' Hz) as [P Q]. split; [exact P|]. intros k1 k2 H1 H2 Hn.
    assert (size z' < size y) as Hs.
    { pose proof (At_size y k0 _ Hy0) as B. cbn [size] in B. pose proof (path_size l' z' Hz). lia. }
    destruct (path_At l' z' _ (At_left y k0 i _ l' r' Hy0) Hz) as [k3 H3].
    destruct (node_id z') as [j|] eqn:Ej; [|congruence]. assert (j < n) as Hj by (apply Old, (At_ids y k3 z' H3), node_ids, Ej).
    assert (forall kk, At e' kk z' -> At y kk z') as Lk.
    { intros kk Hk. destruct (At_op kk z' j Hk Ej) as [[? _]|[_ [->|[_ Hk']]]]; [lia|lia|exact Hk']. }
    exact (Q k1 k2 (Lk k1 H1) (Lk k2 H2) ltac:(discriminate)).
  - destruct x as [| | | | |m o l r]; try discriminate Ho. destruct Hg as (<- & Gl & Gr). pose proof (placed_down _ _ _ _ _ _ Hp) as [Hpl _].
    rewrite (composed_inplace l r l' r' Gl Gr) in Hin.
    destruct (composed_path l l' _ z' Gl Hpl (De k0 m l r Hx Hin) Hz) as [(kz & z & j & Pz & Oz)|[c ->]]; [|split; [reflexivity|intros ? ? ? ? Hnn; destruct (Hnn eq_refl)]].
    assert (node_id z' = Some j) as Ej by (destruct z, z'; try discriminate Oz; exact Oz).
    split; [destruct z'; try discriminate Ej; reflexivity|]. intros k1 k2 H1 H2 _.
    assert (n <= j) as Hj by exact (New j (placed_new _ _ _ _ _ _ _ Pz Oz)).
    assert (forall kk, At e' kk z' -> kk = kz) as U.
    { intros kk Hk. destruct (At_op kk z' j Hk Ej) as [[_ (w & Pw & Ow)]|[? _]]; [|lia].
      exact (proj1 (placed_once e e' None Nd _ _ _ _ _ _ _ Pw Pz Ow Oz)). }
    rewrite (U k1 H1), (U k2 H2). reflexivity.
Qed.
End Values.
End Composed.
End Rebuild.
