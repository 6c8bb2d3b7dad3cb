(** Lemmas about serialize. *)
From Coq Require Import List Arith NArith Lia Bool PeanoNat.
From Verif Require Import ListBase TensorModel TextModel TextSpec TextProofs PrintModel SerialModel SerialSpec.
Import ListNotations.
Local Open Scope nat_scope.

(** ** Names *)

Lemma split_last (u : N) : forall a b d d', Forall (fun c => c <> u) d -> Forall (fun c => c <> u) d' -> a ++ u :: d = b ++ u :: d' -> a = b /\ d = d'.
Proof.
  induction a as [|x a IH]; intros [|y b] d d' H H' E; cbn in E.
  - injection E as ->. auto.
  - injection E as <- ->. rewrite Forall_forall in H. exfalso. apply (H u); [|reflexivity]. apply in_or_app. right. now left.
  - injection E as -> <-. rewrite Forall_forall in H'. exfalso. apply (H' u); [|reflexivity]. apply in_or_app. right. now left.
  - injection E as -> E. destruct (IH b d d' H H' E) as [-> ->]. auto.
Qed.
Lemma put_nat_digits n : Forall (fun c => c <> under) (put_nat n).
Proof. eapply Forall_impl; [|apply chars_of_uint_digits]. cbn. intros c Hc. unfold under. lia. Qed.
Lemma numbered_inj s t i j : numbered s i = numbered t j -> s = t /\ i = j.
Proof.
  unfold numbered. intros E. apply split_last in E; [|apply put_nat_digits|apply put_nat_digits]. destruct E as [-> E]. split; [reflexivity|].
  pose proof (take_put_nat i) as Hi. rewrite E, take_put_nat in Hi. now injection Hi.
Qed.
Lemma tensor_file_inj i j : tensor_file i = tensor_file j -> i = j.
Proof. unfold tensor_file. intros E. apply app_inv_tail in E. now apply numbered_inj in E. Qed.

(** the name of an object *)
Definition ident (p : nat * kind) : list N :=
  let (id, k) := p in
  match k with
  | KTensor => tensor_name id
  | KHold => hold_name id
  | KVal => value_name id
  | KCon => constant_name id
  | KVar => variable_name id
  | KOp o n => if n =? 1 then unary_name o id else binary_name o id
  end.
Lemma ident_inj p q : ident p = ident q -> fst p = fst q.
Proof.
  destruct p as [i k], q as [j l]. cbn [fst ident]. intros E.
  assert (N : forall p : nat * kind, exists s, ident p = numbered s (fst p)).
  { intros [a b]. cbn [ident fst]. destruct b as [| | | | |o n]; try (eexists; reflexivity). destruct (n =? 1); [eexists; reflexivity|]. unfold binary_name. destruct (ostyle o); eexists; reflexivity. }
  destruct (N (i, k)) as (s & Es), (N (j, l)) as (t & Et). cbn [ident fst] in Es, Et. rewrite Es, Et in E. now apply numbered_inj in E.
Qed.
Lemma nodup_map {A B C} (f : A -> B) (g : A -> C) l : (forall a b, In a l -> In b l -> g a = g b -> f a = f b) -> NoDup (map f l) -> NoDup (map g l).
Proof.
  induction l as [|x l IH]; intros H N; cbn [map] in *; [constructor|]. inversion N as [|? ? Nx Nl]. subst. constructor.
  - intros K. apply in_map_iff in K. destruct K as (y & Ey & Iy). apply Nx. rewrite <- (H y x); [now apply in_map|now right|now left|exact Ey].
  - apply IH; [|exact Nl]. intros a b Ia Ib. apply H; now right.
Qed.

Lemma NoDup_app_remove_r {A} (l m : list A) : NoDup (l ++ m) -> NoDup l.
Proof. induction l as [|a l IH]; intros H; [constructor|]. cbn [app] in H. inversion H as [|? ? H1 H2]. constructor; [intros K; apply H1; apply in_or_app; now left|now apply IH]. Qed.
Lemma NoDup_app_remove_l {A} (l m : list A) : NoDup (l ++ m) -> NoDup m.
Proof. induction l as [|a l IH]; intros H; [exact H|]. cbn [app] in H. inversion H. now apply IH. Qed.

Section Exec.
Context {E : Type} (zero : E) (put : E -> list N) (take : list N -> option E) (lit : E -> list N) (unlit : list N -> option E).
Local Notation content := (list nat * list E)%type.

Definition names (e : ex E) : list (list N) := map ident (objects e).
Lemma unshared_names (e : ex E) : unshared e -> NoDup (names e).
Proof. unfold unshared, names. apply nodup_map. intros a b _ _. apply ident_inj. Qed.
Lemma names_unshared (e : ex E) : identified e -> (unshared e <-> NoDup (names e)).
Proof.
  intros I. unfold unshared, names. split.
  - apply nodup_map. intros a b _ _. apply ident_inj.
  - apply nodup_map. intros [i k] [j l] Ia Ib. cbn [fst]. intros <-. now rewrite (I i k l Ia Ib).
Qed.

(** ** Scopes *)

Definition dom (s : scope (E:=E)) : list (list N) := map fst s.
Lemma find_none n (s : scope (E:=E)) : find n s = None <-> ~ In n (dom s).
Proof.
  unfold find, dom. induction s as [|[m o] s IH]; cbn [List.find map fst]; [split; [intros _ []|reflexivity]|]. unfold path_eqb at 1. destruct (list_eq_dec N.eq_dec m n) as [->|Ne].
  - split; [discriminate|]. intros H. exfalso. apply H. now left.
  - rewrite IH. split; intros H; [intros [K|K]; auto|intros K; apply H; now right].
Qed.
Lemma find_cons n m o (s : scope (E:=E)) : find n ((m, o) :: s) = if path_eqb m n then Some o else find n s.
Proof. unfold find. cbn [List.find fst]. now destruct (path_eqb m n). Qed.
Lemma find_app n (s t : scope (E:=E)) o : find n s = Some o -> find n (s ++ t) = Some o.
Proof. unfold find. induction s as [|[m p] s IH]; cbn [app List.find fst]; [discriminate|]. now destruct (path_eqb m n). Qed.
Lemma find_app_skip n (s t : scope (E:=E)) : ~ In n (dom s) -> find n (s ++ t) = find n t.
Proof.
  intros H. induction s as [|[m p] s IH]; [reflexivity|]. cbn [app]. rewrite find_cons. rewrite path_eqb_ne; [apply IH; intros K; apply H; now right|]. intros ->. apply H. now left.
Qed.
Lemma declare_new n o (s : scope (E:=E)) : ~ In n (dom s) -> declare n o s = Some ((n, o) :: s).
Proof. intros H. unfold declare. apply find_none in H. now rewrite H. Qed.
Lemma declare_some n o (s s' : scope (E:=E)) : declare n o s = Some s' -> s' = (n, o) :: s /\ ~ In n (dom s).
Proof. unfold declare. destruct (find n s) eqn:F; [discriminate|]. intros [= <-]. split; [reflexivity|]. now apply find_none. Qed.
Lemma set_tensor_head n x y (s : scope (E:=E)) : ~ In n (dom s) -> set_tensor n x ((n, y) :: s) = (n, OTensor x) :: s.
Proof.
  intros H. unfold set_tensor. cbn [map fst]. rewrite path_eqb_refl. f_equal. rewrite <- (map_id s) at 2. apply map_ext_in. intros [m o] I. cbn [fst].
  rewrite path_eqb_ne; [reflexivity|]. intros ->. apply H. apply in_map_iff. exists (n, o). auto.
Qed.
Lemma set_tensor_dom n x (s : scope (E:=E)) : dom (set_tensor n x s) = dom s.
Proof. unfold dom, set_tensor. rewrite map_map. apply map_ext. intros [m o]. cbn [fst]. unfold path_eqb. now destruct (list_eq_dec N.eq_dec m n) as [->|]. Qed.

Lemma exec_app lib fs (p q : list stmt) : forall s, exec zero take unlit lib fs (p ++ q) s = match exec zero take unlit lib fs p s with Some s => exec zero take unlit lib fs q s | None => None end.
Proof. induction p as [|st p IH]; intros s; [reflexivity|]. cbn [app exec]. destruct (exec1 zero take unlit lib fs st s); [apply IH|reflexivity]. Qed.

Lemma load_saved x : exact_text put take -> full x -> load_tensor zero take false (save_tensor put x) = Ok x.
Proof.
  intros X F. unfold load_tensor, save_tensor, opened. pose proof (read_full zero put take false x x [] ([], []) F) as R. unfold opened in R. rewrite app_nil_r in R. rewrite R; [reflexivity| |].
  - unfold wordy. apply Forall_forall. intros a _. apply X.
  - split; [reflexivity|]. induction (snd x) as [|a l IH]; constructor; [apply X|exact IH].
Qed.

(** every operator can be called; the member load_tensor is there if it is needed *)
Definition served (lib : library) (e : ex E) : Prop :=
  (forall id o n, In (id, KOp o n) (objects e) -> callable lib o n = true) /\ (tensors e <> [] -> load_member lib = true).
(** the files of the tensors are as they were written *)
Definition saved_in (fs : files) (e : ex E) : Prop := forall tid x, In (tid, x) (tensors e) -> fs (tensor_file tid) = Some (save_tensor put x).

Lemma served_left lib id o l r : served lib (Bin id o l r) -> served lib l.
Proof. intros [A B]. split; [intros i q n H; apply (A i q n); cbn [objects]; apply in_or_app; now left|]. intros H. apply B. cbn [tensors]. destruct (tensors l); [easy|discriminate]. Qed.
Lemma served_right lib id o l r : served lib (Bin id o l r) -> served lib r.
Proof.
  intros [A B]. split; [intros i q n H; apply (A i q n); cbn [objects]; apply in_or_app; right; apply in_or_app; now left|]. intros H. apply B. cbn [tensors].
  intros K. apply app_eq_nil in K. now destruct K.
Qed.

Lemma tensor_run lib fs tid x s : exact_text put take -> full x -> load_member lib = true -> fs (tensor_file tid) = Some (save_tensor put x) -> ~ In (tensor_name tid) (dom s) ->
  exec zero take unlit lib fs (tensor_code tid) s = Some ((tensor_name tid, OTensor x) :: s).
Proof.
  intros X F L Fs N. unfold tensor_code. cbn [exec exec1]. rewrite declare_new by exact N. rewrite L. unfold find_tensor at 1. rewrite find_cons, path_eqb_refl, Fs, load_saved by assumption. now rewrite set_tensor_head.
Qed.
Lemma dom_app (s t : scope (E:=E)) : dom (s ++ t) = dom s ++ dom t. Proof. apply map_app. Qed.
Lemma last_name (e : ex E) : In (name_of e) (names e).
Proof.
  unfold names. destruct e; cbn [objects name_of map ident]; rewrite ?map_app; cbn [map ident Nat.eqb].
  - now left.
  - now left.
  - right. now left.
  - right. now left.
  - apply in_or_app. right. now left.
  - apply in_or_app. right. apply in_or_app. right. now left.
Qed.

(** the expression as the compiler reads it *)
Definition reread (x : E) : E := match unlit (lit x) with Some y => y | None => x end.
Fixpoint tree_read (e : ex E) : tree :=
  match e with
  | Hold _ => THold
  | Val _ x => TVal (reread x)
  | Con _ _ x => TCon x
  | Var _ _ x l1 l2 tr => TVar x (reread l1) (reread l2) tr
  | Un _ o e => TOp o [tree_read e]
  | Bin _ o l r => TOp o [tree_read l; tree_read r]
  end.
Lemma tree_read_iff e : are_literals lit unlit e -> (tree_read e = tree_of e <-> exact_literals lit unlit e).
Proof.
  unfold exact_literals, are_literals. assert (R : forall x y, unlit (lit x) = Some y -> reread x = y) by (intros x y H; unfold reread; now rewrite H).
  induction e as [id|id x|id tid x|id tid x l1 l2 tr|id o e IH|id o l IHl r IHr]; cbn [tree_read tree_of literals]; intros A.
  - split; [intros _ x []|reflexivity].
  - destruct (A x (or_introl eq_refl)) as (y & Ey). rewrite (R x y Ey). split; [intros [= ->] z [<-|[]]; exact Ey|]. intros H. specialize (H x (or_introl eq_refl)). congruence.
  - split; [intros _ y []|reflexivity].
  - destruct (A l1 (or_introl eq_refl)) as (y & Ey). destruct (A l2 (or_intror (or_introl eq_refl))) as (z & Ez). rewrite (R _ _ Ey), (R _ _ Ez).
    split; [intros [= -> ->] w [<-|[<-|[]]]; assumption|]. intros H. pose proof (H l1 (or_introl eq_refl)). pose proof (H l2 (or_intror (or_introl eq_refl))). congruence.
  - rewrite <- (IH A). split; [intros [= H]; exact H|intros ->; reflexivity].
  - assert (Al : forall x, In x (literals l) -> exists y, unlit (lit x) = Some y) by (intros x H; apply A, in_or_app; now left).
    assert (Ar : forall x, In x (literals r) -> exists y, unlit (lit x) = Some y) by (intros x H; apply A, in_or_app; now right).
    specialize (IHl Al). specialize (IHr Ar). split.
    + intros [= Hl Hr] x H. apply in_app_or in H. destruct H as [H|H]; [now apply (proj1 IHl Hl)|now apply (proj1 IHr Hr)].
    + intros H. rewrite (proj2 IHl), (proj2 IHr); [reflexivity| |]; intros x I; apply H, in_or_app; auto.
Qed.

Lemma run_code lib fs : exact_text put take -> forall e s, sound e -> are_literals lit unlit e -> served lib e -> saved_in fs e -> NoDup (names e) -> (forall n, In n (names e) -> ~ In n (dom s)) ->
  exists t, exec zero take unlit lib fs (code lit e) s = Some (t ++ s) /\ dom t = rev (names e) /\ find (name_of e) t = Some (OEx (tree_read e)).
Proof.
  intros X. induction e as [id|id x|id tid x|id tid x l1 l2 tr|id o e IH|id o l IHl r IHr]; intros s So Li Se Sa Nd Di; unfold names in *; cbn [objects map ident] in *.
  - exists [(hold_name id, OEx THold)]. cbn [code exec exec1]. rewrite declare_new by (apply Di; now left). split; [reflexivity|]. split; [reflexivity|]. cbn [name_of]. rewrite find_cons, path_eqb_refl. reflexivity.
  - exists [(value_name id, OEx (TVal (reread x)))]. cbn [code exec exec1]. destruct (Li x (or_introl eq_refl)) as (y & Ey). cbn [tree_read]. unfold reread. rewrite Ey. rewrite declare_new by (apply Di; now left). split; [reflexivity|]. split; [reflexivity|]. cbn [name_of]. rewrite find_cons, path_eqb_refl. reflexivity.
  - exists [(constant_name id, OEx (TCon x)); (tensor_name tid, OTensor x)]. cbn [code]. rewrite exec_app.
    rewrite (tensor_run lib fs tid x s X); [|apply (So tid x); now left|apply Se; discriminate|apply Sa; now left|apply Di; now left].
    cbn [exec exec1]. unfold find_tensor. rewrite find_cons, path_eqb_refl. inversion Nd as [|? ? N1 _]. rewrite declare_new.
    + split; [reflexivity|]. split; [reflexivity|]. cbn [name_of]. rewrite find_cons, path_eqb_refl. reflexivity.
    + intros [K|K]; [|apply (Di (constant_name id)); [right; now left|exact K]]. apply N1. left. symmetry. exact K.
  - destruct (Li l1 (or_introl eq_refl)) as (y1 & E1). destruct (Li l2 (or_intror (or_introl eq_refl))) as (y2 & E2).
    cbn [tree_read]. unfold reread. rewrite E1, E2. exists [(variable_name id, OEx (TVar x y1 y2 tr)); (tensor_name tid, OTensor x)]. cbn [code]. rewrite exec_app.
    rewrite (tensor_run lib fs tid x s X); [|apply (So tid x); now left|apply Se; discriminate|apply Sa; now left|apply Di; now left].
    cbn [exec exec1]. unfold find_tensor. rewrite find_cons, path_eqb_refl. rewrite E1, E2. inversion Nd as [|? ? N1 _]. rewrite declare_new.
    + split; [reflexivity|]. split; [reflexivity|]. cbn [name_of]. rewrite find_cons, path_eqb_refl. reflexivity.
    + intros [K|K]; [|apply (Di (variable_name id)); [right; now left|exact K]]. apply N1. left. symmetry. exact K.
  - rewrite map_app in *. cbn [map ident Nat.eqb] in *. destruct (IH s) as (t & Et & Dt & Ft); try assumption.
    { split; [intros i q n H; apply (proj1 Se i q n); cbn [objects]; apply in_or_app; now left|exact (proj2 Se)]. }
    { apply NoDup_app_remove_r in Nd. exact Nd. } { intros n H. apply Di. apply in_or_app. now left. }
    cbn [code]. rewrite exec_app, Et. cbn [exec exec1 length]. rewrite (proj1 Se id o 1) by (cbn [objects]; apply in_or_app; right; now left). cbn [find_all]. rewrite (find_app _ _ _ _ Ft).
    apply NoDup_remove in Nd. rewrite app_nil_r in Nd. exists ((unary_name o id, OEx (TOp o [tree_read e])) :: t). rewrite declare_new.
    + split; [reflexivity|]. split; [cbn [dom map fst]; fold (dom t); rewrite Dt, rev_app_distr; reflexivity|]. cbn [name_of]. rewrite find_cons, path_eqb_refl. reflexivity.
    + rewrite dom_app. intros K. apply in_app_or in K. destruct K as [K|K]; [rewrite Dt, <- in_rev in K; now apply (proj2 Nd)|]. apply (Di (unary_name o id)); [apply in_or_app; right; now left|exact K].
  - rewrite !map_app in *. cbn [map ident Nat.eqb] in *.
    assert (Nl := NoDup_app_remove_r _ _ Nd). assert (Nr := NoDup_app_remove_r _ _ (NoDup_app_remove_l _ _ Nd)).
    destruct (IHl s) as (t & Et & Dt & Ft); try assumption.
    { intros i y H. apply (So i y). cbn [tensors]. apply in_or_app. now left. } { intros y H. apply (Li y). cbn [literals]. apply in_or_app. now left. } { exact (served_left _ _ _ _ _ Se). } { intros i y H. apply (Sa i y). cbn [tensors]. apply in_or_app. now left. }
    { intros n H. apply Di. apply in_or_app. now left. }
    assert (Dis : forall n, In n (map ident (objects l)) -> ~ In n (map ident (objects r) ++ [binary_name o id])).
    { intros n H K. clear -Nd H K. induction (map ident (objects l)) as [|a u IH]; [easy|]. cbn [app] in Nd. inversion Nd as [|? ? N1 N2]. subst. destruct H as [->|H]; [|now apply IH]. apply N1. apply in_or_app. now right. }
    destruct (IHr (t ++ s)) as (t' & Et' & Dt' & Ft'); try assumption.
    { intros i y H. apply (So i y). cbn [tensors]. apply in_or_app. now right. } { intros y H. apply (Li y). cbn [literals]. apply in_or_app. now right. } { exact (served_right _ _ _ _ _ Se). } { intros i y H. apply (Sa i y). cbn [tensors]. apply in_or_app. now right. }
    { intros n H K. rewrite dom_app, Dt in K. apply in_app_or in K. destruct K as [K|K]; [rewrite <- in_rev in K; apply (Dis n K); apply in_or_app; now left|].
      apply (Di n); [apply in_or_app; right; apply in_or_app; now left|exact K]. }
    cbn [code]. rewrite !exec_app, Et, exec_app, Et'. cbn [exec exec1 length]. rewrite (proj1 Se id o 2) by (cbn [objects]; apply in_or_app; right; apply in_or_app; right; now left). cbn [find_all].
    rewrite find_app_skip by (rewrite Dt', <- in_rev; intros K; apply (Dis _ (last_name l)); apply in_or_app; now left).
    rewrite (find_app _ _ _ _ Ft), (find_app _ _ _ _ Ft').
    exists ((binary_name o id, OEx (TOp o [tree_read l; tree_read r])) :: t' ++ t). rewrite declare_new.
    + split; [cbn [app]; now rewrite app_assoc|]. split; [cbn [dom map fst]; fold (dom (t' ++ t)); rewrite dom_app, Dt, Dt', !rev_app_distr; cbn [rev app]; reflexivity|]. cbn [name_of]. rewrite find_cons, path_eqb_refl. reflexivity.
    + rewrite !dom_app, Dt, Dt'. rewrite app_assoc in Nd. apply NoDup_remove in Nd. rewrite app_nil_r in Nd. intros K. apply in_app_or in K. destruct K as [K|K]; [apply (proj2 Nd); apply in_or_app; right; now apply in_rev|].
      apply in_app_or in K. destruct K as [K|K]; [apply (proj2 Nd); apply in_or_app; left; now apply in_rev|]. apply (Di (binary_name o id)); [apply in_or_app; right; apply in_or_app; right; now left|exact K].
Qed.

(** ** The converse *)

Lemma exec1_declares lib fs st (s s' : scope (E:=E)) : exec1 zero take unlit lib fs st s = Some s' ->
  match st with LoadTensor _ _ => dom s' = dom s | DeclTensor n | DeclHold n | DeclVal n _ | DeclCon n _ | DeclVar n _ _ _ _ | DeclAuto n _ _ => dom s' = n :: dom s /\ ~ In n (dom s) end.
Proof.
  assert (D : forall n o, declare n o s = Some s' -> dom s' = n :: dom s /\ ~ In n (dom s)) by (intros n o H; apply declare_some in H; destruct H as [-> H]; auto).
  destruct st as [n|n f|n|n x|n t|n t l1 l2 tr|n o ops]; cbn [exec1]; intros H; try (now apply (D _ _ H)).
  - destruct (load_member lib); [|discriminate H]. destruct (find_tensor n s); [|discriminate H]. destruct (fs f); [|discriminate H]. destruct (load_tensor zero take false l); [|discriminate H|discriminate H]. injection H as <-. apply set_tensor_dom.
  - destruct (unlit x); [|discriminate H]. now apply (D _ _ H).
  - destruct (find_tensor t s); [|discriminate H]. now apply (D _ _ H).
  - destruct (find_tensor t s); [|discriminate H]. destruct (unlit l1); [|discriminate H]. destruct (unlit l2); [|discriminate H]. now apply (D _ _ H).
  - destruct (callable lib o (length ops)); [|discriminate H]. destruct (find_all ops s); [|discriminate H]. now apply (D _ _ H).
Qed.
Lemma tensor_code_back lib fs tid s s' : exec zero take unlit lib fs (tensor_code tid) s = Some s' -> dom s' = tensor_name tid :: dom s /\ ~ In (tensor_name tid) (dom s) /\ load_member lib = true.
Proof.
  unfold tensor_code. cbn [exec]. destruct (exec1 zero take unlit lib fs (DeclTensor (tensor_name tid)) s) as [s1|] eqn:E1; [|discriminate]. destruct (exec1 zero take unlit lib fs (LoadTensor (tensor_name tid) (tensor_file tid)) s1) as [s2|] eqn:E2; [|discriminate].
  intros [= <-]. pose proof (exec1_declares _ _ _ _ _ E1) as [D1 N1]. pose proof (exec1_declares _ _ _ _ _ E2) as D2. cbn in D2. rewrite D2, D1. split; [reflexivity|]. split; [exact N1|].
  cbn [exec1] in E2. now destruct (load_member lib).
Qed.
Lemma nodup_snoc_rev {A} (l : list A) d n : NoDup (n :: rev l ++ d) -> NoDup (rev (l ++ [n]) ++ d).
Proof. intros H. rewrite rev_app_distr. exact H. Qed.

Lemma run_back lib fs : forall e s s', exec zero take unlit lib fs (code lit e) s = Some s' -> NoDup (dom s) -> dom s' = rev (names e) ++ dom s /\ NoDup (dom s') /\ served lib e.
Proof.
  induction e as [id|id x|id tid x|id tid x l1 l2 tr|id o e IH|id o l IHl r IHr]; intros s s' X Nd; unfold names in *; cbn [objects map ident] in *.
  - cbn [code exec] in X. destruct (exec1 zero take unlit lib fs (DeclHold (hold_name id)) s) as [s1|] eqn:E1; [|discriminate X]. injection X as <-. pose proof (exec1_declares _ _ _ _ _ E1) as [D N]. rewrite D.
    split; [reflexivity|]. split; [now constructor|]. split; [intros i o n [K|[]]; discriminate K|]. intros K. now contradiction K.
  - cbn [code exec] in X. destruct (exec1 zero take unlit lib fs (DeclVal (value_name id) (lit x)) s) as [s1|] eqn:E1; [|discriminate X]. injection X as <-. pose proof (exec1_declares _ _ _ _ _ E1) as [D N]. rewrite D.
    split; [reflexivity|]. split; [now constructor|]. split; [intros i o n [K|[]]; discriminate K|]. intros K. now contradiction K.
  - cbn [code] in X. rewrite exec_app in X. destruct (exec zero take unlit lib fs (tensor_code tid) s) as [s1|] eqn:E1; [|discriminate X]. destruct (tensor_code_back _ _ _ _ _ E1) as (D1 & N1 & L). cbn [exec] in X.
    destruct (exec1 zero take unlit lib fs (DeclCon (constant_name id) (tensor_name tid)) s1) as [s2|] eqn:E2; [|discriminate X]. injection X as <-. pose proof (exec1_declares _ _ _ _ _ E2) as [D2 N2]. rewrite D2. rewrite D1 in *.
    split; [reflexivity|]. split; [constructor; [exact N2|now constructor]|]. split; [intros i o n [K|[K|[]]]; discriminate K|auto].
  - cbn [code] in X. rewrite exec_app in X. destruct (exec zero take unlit lib fs (tensor_code tid) s) as [s1|] eqn:E1; [|discriminate X]. destruct (tensor_code_back _ _ _ _ _ E1) as (D1 & N1 & L). cbn [exec] in X.
    destruct (exec1 zero take unlit lib fs (DeclVar (variable_name id) (tensor_name tid) (lit l1) (lit l2) tr) s1) as [s2|] eqn:E2; [|discriminate X]. injection X as <-. pose proof (exec1_declares _ _ _ _ _ E2) as [D2 N2]. rewrite D2. rewrite D1 in *.
    split; [reflexivity|]. split; [constructor; [exact N2|now constructor]|]. split; [intros i o n [K|[K|[]]]; discriminate K|auto].
  - rewrite map_app. cbn [map ident Nat.eqb]. cbn [code] in X. rewrite exec_app in X. destruct (exec zero take unlit lib fs (code lit e) s) as [s1|] eqn:E1; [|discriminate X]. destruct (IH _ _ E1 Nd) as (D1 & N1 & A & B).
    cbn [exec] in X. destruct (exec1 zero take unlit lib fs (DeclAuto (unary_name o id) o [name_of e]) s1) as [s2|] eqn:E2; [|discriminate X]. injection X as <-. pose proof (exec1_declares _ _ _ _ _ E2) as [D2 N2].
    rewrite D2, rev_app_distr, D1. split; [reflexivity|]. split; [rewrite <- D1; now constructor|]. split; [|exact B]. intros i q n H. cbn [objects] in H. apply in_app_or in H. destruct H as [H|[H|[]]]; [now apply (A i)|].
    injection H as <- <- <-. cbn [exec1 length] in E2. now destruct (callable lib o 1).
  - rewrite !map_app. cbn [map ident Nat.eqb]. cbn [code] in X. rewrite exec_app in X. destruct (exec zero take unlit lib fs (code lit l) s) as [s1|] eqn:E1; [|discriminate X]. destruct (IHl _ _ E1 Nd) as (D1 & N1 & A1 & B1).
    rewrite exec_app in X. destruct (exec zero take unlit lib fs (code lit r) s1) as [s2|] eqn:E2; [|discriminate X]. destruct (IHr _ _ E2 N1) as (D2 & N2 & A2 & B2).
    cbn [exec] in X. destruct (exec1 zero take unlit lib fs (DeclAuto (binary_name o id) o [name_of l; name_of r]) s2) as [s3|] eqn:E3; [|discriminate X]. injection X as <-. pose proof (exec1_declares _ _ _ _ _ E3) as [D3 N3].
    rewrite D3, !rev_app_distr, D2, D1. cbn [rev app]. rewrite <- app_assoc. split; [reflexivity|]. split; [rewrite <- D1, <- D2; now constructor|]. split.
    + intros i q n H. cbn [objects] in H. apply in_app_or in H. destruct H as [H|H]; [now apply (A1 i)|]. apply in_app_or in H. destruct H as [H|[H|[]]]; [now apply (A2 i)|]. injection H as <- <- <-. cbn [exec1 length] in E3. now destruct (callable lib o 2).
    + cbn [tensors]. intros K. destruct (tensors l); [apply B2; exact K|apply B1; discriminate].
Qed.

Lemma run_literals lib fs : forall e s s', exec zero take unlit lib fs (code lit e) s = Some s' -> are_literals lit unlit e.
Proof.
  induction e as [id|id x|id tid x|id tid x l1 l2 tr|id o e IH|id o l IHl r IHr]; intros s s' X y I; cbn [literals] in I.
  - destruct I.
  - destruct I as [<-|[]]. cbn [code exec exec1] in X. destruct (unlit (lit x)) as [z|]; [now exists z|discriminate X].
  - destruct I.
  - cbn [code] in X. rewrite exec_app in X. destruct (exec zero take unlit lib fs (tensor_code tid) s) as [s1|]; [|discriminate X]. cbn [exec exec1] in X.
    destruct (find_tensor (tensor_name tid) s1); [|discriminate X]. destruct (unlit (lit l1)) as [z1|] eqn:E1; [|discriminate X]. destruct (unlit (lit l2)) as [z2|] eqn:E2; [|discriminate X].
    destruct I as [<-|[<-|[]]]; eauto.
  - cbn [code] in X. rewrite exec_app in X. destruct (exec zero take unlit lib fs (code lit e) s) as [s1|] eqn:E1; [|discriminate X]. exact (IH _ _ E1 y I).
  - cbn [code] in X. rewrite exec_app in X. destruct (exec zero take unlit lib fs (code lit l) s) as [s1|] eqn:E1; [|discriminate X].
    rewrite exec_app in X. destruct (exec zero take unlit lib fs (code lit r) s1) as [s2|] eqn:E2; [|discriminate X].
    apply in_app_or in I. destruct I as [I|I]; [exact (IHl _ _ E1 y I)|exact (IHr _ _ E2 y I)].
Qed.

(** ** Files *)

Lemma save_other : forall (e : ex E) fs p, (forall tid, In tid (map fst (tensors e)) -> p <> tensor_file tid) -> save_files put e fs p = fs p.
Proof.
  induction e as [id|id x|id tid x|id tid x l1 l2 tr|id o e IH|id o l IHl r IHr]; intros fs p H; cbn [save_files tensors map] in *; try reflexivity.
  - apply put_there. intros K. apply (H tid); [now left|auto].
  - apply put_there. intros K. apply (H tid); [now left|auto].
  - now apply IH.
  - rewrite map_app in H. rewrite IHr by (intros tid K; apply H; apply in_or_app; now right). apply IHl. intros tid K. apply H. apply in_or_app. now left.
Qed.
Lemma tensors_objects (e : ex E) tid : In tid (map fst (tensors e)) -> In (tid, KTensor) (objects e).
Proof.
  induction e as [id|id x|id t x|id t x l1 l2 tr|id o e IH|id o l IHl r IHr]; cbn [tensors objects map]; intros H; try easy.
  - destruct H as [<-|[]]. now left.
  - destruct H as [<-|[]]. now left.
  - apply in_or_app. left. now apply IH.
  - rewrite map_app in H. apply in_app_or in H. apply in_or_app. destruct H as [H|H]; [left; now apply IHl|right; apply in_or_app; left; now apply IHr].
Qed.
Lemma save_saves : forall e fs, NoDup (map fst (objects e)) -> saved_in (save_files put e fs) e.
Proof.
  induction e as [id|id x|id t x|id t x l1 l2 tr|id o e IH|id o l IHl r IHr]; intros fs Nd tid y H; cbn [tensors save_files objects] in *; try easy.
  - destruct H as [[= <- <-]|[]]. apply put_here.
  - destruct H as [[= <- <-]|[]]. apply put_here.
  - rewrite map_app in Nd. apply NoDup_app_remove_r in Nd. now apply (IH fs Nd).
  - rewrite !map_app in Nd. apply in_app_or in H. destruct H as [H|H].
    + rewrite save_other; [apply (IHl fs); [now apply NoDup_app_remove_r in Nd|exact H]|]. intros t K Et. apply tensor_file_inj in Et. subst t. apply tensors_objects in K.
      assert (L : In tid (map fst (objects l))) by (apply in_map_iff; exists (tid, KTensor); split; [reflexivity|]; apply tensors_objects; apply in_map_iff; exists (tid, y); auto).
      assert (R : In tid (map fst (objects r) ++ map fst [(id, KOp o 2)])) by (apply in_or_app; left; apply in_map_iff; exists (tid, KTensor); auto).
      clear -Nd L R. induction (map fst (objects l)) as [|a u IH]; [easy|]. cbn [app] in Nd. inversion Nd as [|? ? N1 N2]. subst. destruct L as [->|L]; [|now apply IH]. apply N1. apply in_or_app. now right.
    + apply IHr; [|exact H]. exact (NoDup_app_remove_r _ _ (NoDup_app_remove_l _ _ Nd)).
Qed.
End Exec.
