(** Runs of small expressions over leaves, step by step. *)
From Coq Require Import Reals List Arith Lia Bool PeanoNat.
From Verif Require Import ListBase TensorModel TensorSpec TensorProofs GraphModel GraphSpec GraphProps.
Import ListNotations.

Section Steps.
Context {A : Type} (zero one : A) (add mul : A -> A -> A).
Variable dbg : bool.
Notation forward := (forward zero one add mul dbg).

(** the part of a state that later steps depend on *)
Record core := Core { c_hp : list (list A); c_cache : nat -> option tensor; c_own : nat -> option tensor;
                      c_vars : nat -> vstate; c_holders : nat -> option tensor; c_training : bool }.
Definition core_of (s : st A) : core := Core (hp s) (cache s) (own s) (vars s) (holders s) (training s).

(** from any state with core c, forward on e gives t and a state with core c' *)
Definition yields (e : expr A) (c : core) (t : tensor) (c' : core) : Prop :=
  forall k s, core_of s = c -> exists s', forward k e s = Ok (t, s') /\ core_of s' = c'.

(** in prediction a leaf gives its tensor and changes nothing *)
Definition leaf (c : core) (e : expr A) (t : tensor) : Prop :=
  match e with
  | EVar v => vdata (c_vars c v) = t
  | EHold p => c_holders c p = Some t
  | EConst u => u = t
  | _ => False
  end.

Definition with_hp (c : core) (h : list (list A)) : core := Core h (c_cache c) (c_own c) (c_vars c) (c_holders c) (c_training c).
Definition done (c : core) (n : nat) (t : tensor) : core :=
  Core (c_hp c) (fupd (c_cache c) n (Some t)) (c_own c) (c_vars c) (c_holders c) (c_training c).
Definition owns (c : core) (n : nat) (t : tensor) : core :=
  Core (c_hp c) (c_cache c) (fupd (c_own c) n (Some t)) (c_vars c) (c_holders c) (c_training c).

Lemma y_leaf c e t : c_training c = false -> leaf c e t -> yields e c t c.
Proof.
  intros T L k s E. destruct e; cbn [leaf] in L; try contradiction.
  - exists s. split; [|exact E]. subst c. cbn [c_training c_vars core_of] in *. cbn [GraphModel.forward]. unfold var_forward, gbind, get. rewrite T.
    unfold gret. now rewrite L.
  - exists s. split; [|exact E]. subst c. cbn [c_holders core_of] in *. cbn [GraphModel.forward]. unfold hold_forward, gbind, get. now rewrite L.
  - exists s. split; [|exact E]. subst t. reflexivity.
Qed.

Definition no_value (e : expr A) : Prop := forall c, e <> EVal c.

Lemma leaf_no_value c e t : leaf c e t -> no_value e.
Proof. destruct e; cbn [leaf]; intros H; try contradiction; intros w; discriminate. Qed.

Lemma core_put_out k q (s : st A) : exists s', put_out k q s = Ok (tt, s') /\ core_of s' = core_of s.
Proof. eexists. split; reflexivity. Qed.

(** the operands of a binary operator that is not in the cache *)
Lemma y_bin n o l r c tl c1 tr c2 t c3 : no_value l -> no_value r -> c_cache c n = None -> yields l c tl c1 -> yields r c1 tr c2 ->
  (forall s, core_of s = c2 -> exists s', bin_forward zero add dbg n o tl tr s = Ok (t, s') /\ core_of s' = c3) ->
  yields (EBin n o l r) c t (done c3 n t).
Proof.
  intros Vl Vr N Hl Hr Ho k s E. cbn [GraphModel.forward]. unfold gbind at 1. unfold query at 1.
  assert (cache s n = None) as -> by (subst c; exact N).
  unfold gbind at 1. destruct (core_put_out k None s) as (s1 & E1 & C1). rewrite E1.
  assert (forall T (F : tensor * tensor -> G T), exists s2,
     gbind (match l, r with
                   | EVal c, _ =>
                       gbind (forward (Some (n, true)) r) (fun rt =>
                       gbind (put_in2 k (Some rt)) (fun _ =>
                       gbind (value_forward one mul c rt) (fun lt =>
                       gbind (put_in1 k (Some lt)) (fun _ =>
                       gret (lt, rt)))))
                   | _, EVal c =>
                       gbind (forward (Some (n, false)) l) (fun lt =>
                       gbind (put_in1 k (Some lt)) (fun _ =>
                       gbind (value_forward one mul c lt) (fun rt =>
                       gbind (put_in2 k (Some rt)) (fun _ =>
                       gret (lt, rt)))))
                   | _, _ =>
                       gbind (forward (Some (n, false)) l) (fun lt =>
                       gbind (put_in1 k (Some lt)) (fun _ =>
                       gbind (forward (Some (n, true)) r) (fun rt =>
                       gbind (put_in2 k (Some rt)) (fun _ =>
                       gret (lt, rt)))))
                   end) F s1 = F (tl, tr) s2 /\ core_of s2 = c2) as X.
  { intros T F. destruct (Hl (Some (n, false)) s1 ltac:(congruence)) as (s2 & F2 & C2).
    set (s3 := set_objs s2 (supd (objs s2) k (Obj (Some tl) (in2 (objs s2 k)) (out (objs s2 k))))).
    destruct (Hr (Some (n, true)) s3 ltac:(exact C2)) as (s4 & F4 & C4).
    exists (set_objs s4 (supd (objs s4) k (Obj (in1 (objs s4 k)) (Some tr) (out (objs s4 k))))). split; [|exact C4].
    assert (gbind (forward (Some (n, false)) l) (fun lt =>
                       gbind (put_in1 k (Some lt)) (fun _ =>
                       gbind (forward (Some (n, true)) r) (fun rt =>
                       gbind (put_in2 k (Some rt)) (fun _ =>
                       gret (lt, rt))))) s1 = Ok ((tl, tr), set_objs s4 (supd (objs s4) k (Obj (in1 (objs s4 k)) (Some tr) (out (objs s4 k)))))) as Y.
    { unfold gbind at 1. rewrite F2. unfold gbind at 1. unfold put_in1 at 1, modify. fold s3. unfold gbind at 1. rewrite F4. reflexivity. }
    unfold gbind at 1.
    destruct l; try (exfalso; eapply Vl; reflexivity); destruct r; try (exfalso; eapply Vr; reflexivity); rewrite Y; reflexivity. }
  destruct (X _ (fun lr => gbind (bin_forward zero add dbg n o (fst lr) (snd lr)) (fun t => gbind (put_out k (Some t)) (fun _ => gbind (update n t)
               (fun _ => gbind (modify (fun s => set_ran s (n :: ran s))) (fun _ => gret t)))))) as (s2 & F2 & C2).
  rewrite F2. cbn [fst snd]. destruct (Ho s2 C2) as (s3 & F3 & C3). unfold gbind at 1. rewrite F3.
  eexists. split; [reflexivity|]. subst c3. reflexivity.
Qed.

Lemma y_un n own_ f m b e c te c1 v : c_cache c n = None -> yields e c te c1 -> f (val_of (c_hp c1) te) = Some v ->
  own_ = false \/ c_own c1 n = None ->
  let t := mkT (fst v) (length (c_hp c1)) in
  yields (EUn n (UNew own_ f m b) e) c t
    (done (if own_ then owns (with_hp c1 (c_hp c1 ++ [snd v])) n t else with_hp c1 (c_hp c1 ++ [snd v])) n t).
Proof.
  intros N He Hf Ho t k s E. cbn [GraphModel.forward]. unfold gbind at 1. unfold query at 1.
  assert (cache s n = None) as -> by (subst c; exact N).
  unfold gbind at 1. destruct (core_put_out k None s) as (s1 & E1 & C1). rewrite E1.
  destruct (He (Some (n, false)) s1 ltac:(congruence)) as (s2 & F2 & C2). unfold gbind at 1. rewrite F2.
  unfold gbind at 1. unfold put_in1 at 1, modify.
  set (s3 := set_objs s2 _). assert (core_of s3 = c1) as C3 by exact C2. clearbody s3. clear C2 He.
  unfold gbind at 1. unfold un_forward. unfold gbind at 1, get. assert (hp s3 = c_hp c1) as -> by (now subst c1).
  unfold gbind at 1. rewrite Hf. cbn [the gret]. unfold gret at 1.
  destruct own_.
  - destruct Ho as [Ho|Ho]; [discriminate|]. unfold into_own. assert (own s3 n = None) as -> by (subst c1; exact Ho).
    assert (hp s3 = c_hp c1) as Eh by (now subst c1). rewrite Eh. eexists. split; [reflexivity|]. subst c1. reflexivity.
  - unfold new_tensor, heaply, alloc. assert (hp s3 = c_hp c1) as Eh by (now subst c1). rewrite Eh.
    eexists. split; [reflexivity|]. subst c1. reflexivity.
Qed.

Lemma y_new n f bo b l r c tl c1 tr c2 v : no_value l -> no_value r -> c_cache c n = None -> yields l c tl c1 -> yields r c1 tr c2 ->
  f (val_of (c_hp c2) tl) (val_of (c_hp c2) tr) = Some v -> c_own c2 n = None ->
  let t := mkT (fst v) (length (c_hp c2)) in
  yields (EBin n (BNew true f bo b) l r) c t (done (owns (with_hp c2 (c_hp c2 ++ [snd v])) n t) n t).
Proof.
  intros Vl Vr N Hl Hr Hf Ho t. eapply y_bin; eauto. intros s E. cbn [bin_forward]. unfold gbind at 1, get.
  assert (hp s = c_hp c2) as Eh by (now subst c2). rewrite Eh. unfold gbind at 1. rewrite Hf. cbn [the]. unfold gret, into_own.
  assert (own s n = None) as -> by (subst c2; exact Ho). rewrite Eh. eexists. split; [reflexivity|]. subst c2. reflexivity.
Qed.

Lemma zip_same sh p q (h : list (list A)) x y : nth_error h p = Some x -> nth_error h q = Some y -> length x = length y ->
  zip_broadcast zero dbg add (mkT sh p) (mkT sh q) h = Ok (mkT sh p, upd h p (map2 add x y)).
Proof.
  intros Hx Hy L. unfold zip_broadcast, bind, lift. cbn [shape]. unfold broadcast_shape. destruct (list_eqb_spec sh sh); [|contradiction].
  unfold broadcast_tensor. cbn [broadcast_loop shape]. destruct (list_eqb_spec sh sh); [|contradiction]. unfold ret, data. cbn [ref]. rewrite Hx, Hy.
  rewrite L, Nat.leb_refl. reflexivity.
Qed.

(** a sum of two tensors of one shape is computed inside the left one *)
Lemma y_plus n l r c sh p c1 q c2 x y : no_value l -> no_value r -> c_cache c n = None -> yields l c (mkT sh p) c1 -> yields r c1 (mkT sh q) c2 ->
  nth_error (c_hp c2) p = Some x -> nth_error (c_hp c2) q = Some y -> length x = length y ->
  yields (EBin n BPlus l r) c (mkT sh p) (done (with_hp c2 (upd (c_hp c2) p (map2 add x y))) n (mkT sh p)).
Proof.
  intros Vl Vr N Hl Hr Hx Hy L. eapply y_bin; eauto. intros s E. cbn [bin_forward]. unfold heaply.
  assert (hp s = c_hp c2) as -> by (now subst c2). rewrite (zip_same sh p q _ x y Hx Hy L). eexists. split; [reflexivity|]. subst c2. reflexivity.
Qed.

Lemma y_run e s t c' : yields e (Core (hp s) (fun _ => None) (own s) (vars s) (holders s) (training s)) t c' ->
  exists s', run zero one add mul dbg e s = Ok (t, s') /\ core_of s' = c'.
Proof. intros H. unfold run, gbind, modify. apply H. reflexivity. Qed.

End Steps.
