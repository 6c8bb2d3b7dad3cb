(** The storage of a run's result. *)
From Coq Require Import List Arith Lia Bool PeanoNat.
From Verif Require Import ListBase TensorModel TensorSpec TensorProofs TensorProofs2 GraphModel GraphSpec GraphProofs GraphProofs2 GraphProofs3 GraphProofs4 ShareProps StaleSpec.
Import ListNotations.

Section Fwd.
Context {A : Type} (zero one : A) (add mul : A -> A -> A).
Variable dbg : bool.
Variable e0 : expr A.
Variable q : env A.
Hypothesis Hcons : consistent e0.
Hypothesis Hsz : sizes_ok zero one add mul q e0.
Hypothesis Hdis : disciplined zero one add mul q e0.
Variable h0 : nat.

Notation inplace := (inplace zero one add mul q).
Notation eval := (eval zero one add mul q).
Notation inv := (inv zero one add mul e0 q).
Notation operands := (operands zero one add mul q).
Notation forward := (forward zero one add mul dbg).
Notation maker := (maker zero one add mul q).
Notation owner_of := (owner_of zero one add mul q).

(** t's elements are in the storage of y *)
Definition backed (s : st A) (y : expr A) (t : tensor) : Prop :=
  match y with
  | EVar v => ref t = ref (vdata (vars s v))
  | EHold p => exists u, holders s p = Some u /\ ref t = ref u
  | EConst u => ref t = ref u
  | EVal _ => False
  | EUn n _ _ | EBin n _ _ _ => if owns y then exists u, own s n = Some u /\ ref u = ref t else h0 <= ref t
  end.

Definition link (s : st A) : Prop := forall k x n t, At e0 k x -> node_id x = Some n -> cache s n = Some t -> backed s (maker x) t.

Record grows (s s' : st A) : Prop := {
  g_vars : vars s' = vars s;
  g_hold : holders s' = holders s;
  g_len : length (hp s) <= length (hp s');
  g_own : forall n u, own s n = Some u -> exists u', own s' n = Some u' /\ ref u' = ref u;
  g_same : forall n, (forall k y, At e0 k y -> node_id y = Some n -> owns y = false) -> own s' n = own s n
}.

Lemma grows_refl s : grows s s.
Proof. constructor; eauto. Qed.

Lemma grows_trans s1 s2 s3 : grows s1 s2 -> grows s2 s3 -> grows s1 s3.
Proof.
  intros [A1 A2 A3 A4 A5] [B1 B2 B3 B4 B5]. constructor; try congruence; [lia| |].
  - intros n u E. destruct (A4 n u E) as (u1 & E1 & R1). destruct (B4 n u1 E1) as (u2 & E2 & R2). exists u2. split; [assumption|congruence].
  - intros n H. rewrite B5, A5; auto.
Qed.

Lemma grows_own s s' : vars s' = vars s -> holders s' = holders s -> length (hp s) <= length (hp s') -> own s' = own s -> grows s s'.
Proof. intros E1 E2 E3 E4. constructor; auto; rewrite E4; eauto. Qed.

Lemma backed_grows s s' y t : grows s s' -> backed s y t -> backed s' y t.
Proof.
  intros [G1 G2 G3 G4 _]. destruct y as [v|p|u|c|n o y|n o l r]; cbn [backed]; rewrite ?G1, ?G2; auto;
  (destruct (owns _); [|auto]; intros (u & E & R); destruct (G4 _ _ E) as (u' & E' & R'); exists u'; split; [assumption|congruence]).
Qed.

Lemma link_grows s s' : grows s s' -> cache s' = cache s -> link s -> link s'.
Proof. intros G C L k x n t H E Ec. rewrite C in Ec. apply (backed_grows s); auto. now apply (L k x n). Qed.

(** storing a node's result *)
Lemma link_node s s' k x n t : grows s s' -> cache s' = fupd (cache s) n (Some t) -> At e0 k x -> node_id x = Some n ->
  backed s' (maker x) t -> link s -> link s'.
Proof.
  intros G C Hx Ex B L k' y m u Hy Ey Ec. rewrite C in Ec. destruct (Nat.eq_dec m n) as [->|N].
  - rewrite fupd_same in Ec. injection Ec as <-. rewrite (Hcons _ _ _ _ n Hy Hx Ey Ex). exact B.
  - rewrite fupd_other in Ec by assumption. apply (backed_grows s); auto. now apply (L k' y m).
Qed.

Lemma stored (b : bool) k x n v s t s' : At e0 k x -> node_id x = Some n -> owns x = b -> h0 <= length (hp s) ->
  (if b then into_own n v else new_tensor v) s = Ok (t, s') -> cache s' = cache s /\ grows s s' /\
  (if b then exists u, own s' n = Some u /\ ref u = ref t else h0 <= ref t).
Proof.
  intros Hx Ex Ob L E. destruct b.
  - unfold into_own in E. destruct (own s n) as [u|] eqn:Eu; injection E as <- <-.
    + split; [reflexivity|]. split.
      * constructor; cbn [set_own set_hp vars holders hp own]; auto; [rewrite upd_length; lia| |].
        -- intros m w Em. unfold fupd. destruct (Nat.eqb_spec m n) as [->|]; [|eauto]. exists (mkT (fst v) (ref u)). split; [reflexivity|]. cbn [ref]. congruence.
        -- intros m Hm. unfold fupd. destruct (Nat.eqb_spec m n) as [->|]; [|reflexivity]. rewrite (Hm k x Hx Ex) in Ob. discriminate.
      * cbn [set_own own]. rewrite fupd_same. eauto.
    + split; [reflexivity|]. split.
      * constructor; cbn [set_own set_hp vars holders hp own]; auto; [rewrite app_length; lia| |].
        -- intros m w Em. unfold fupd. destruct (Nat.eqb_spec m n) as [->|]; [congruence|eauto].
        -- intros m Hm. unfold fupd. destruct (Nat.eqb_spec m n) as [->|]; [|reflexivity]. rewrite (Hm k x Hx Ex) in Ob. discriminate.
      * cbn [set_own own]. rewrite fupd_same. eauto.
  - injection E as <- <-. split; [reflexivity|]. split; [|exact L]. apply grows_own; auto. cbn [set_hp hp]. rewrite app_length. lia.
Qed.

(** where a sum is *)
Lemma plus_storage k n l r s0 s who0 who lt rt t h' : At e0 k (EBin n BPlus l r) ->
  operands_post zero one add mul e0 q k n BPlus l r s0 s who0 who lt rt -> zip_broadcast zero dbg add lt rt (hp s) = Ok (t, h') ->
  length (hp s) <= length h' /\ if inplace l r then ref t = ref lt else length (hp s) <= ref t.
Proof.
  intros H [O1 O2 O3 O4 O5 O6 O7 O8 O9 O10 O11 O12 O13] E. set (x := EBin n BPlus l r) in *.
  destruct (Hsz k x H ltac:(discriminate)) as (w & Ew & Lw & _). pose proof Ew as Ew'. unfold x in Ew'. rewrite eval_bin, O10 in Ew'.
  cbn [obind2 fst snd] in Ew'. unfold plus_val in Ew'. unfold val_of in Ew' at 1 2. cbn [fst] in Ew'.
  destruct (broadcast_shape true (shape lt) (shape rt)) as [rs| |] eqn:B; try discriminate.
  apply broadcast_shape_iff in B.
  pose proof (At_left _ k n BPlus l r H) as Hl. pose proof (At_right _ k n BPlus l r H) as Hr.
  assert (Hlen : length (nth (ref lt) (hp s) []) = prod (shape lt) /\ length (nth (ref rt) (hp s) []) = prod (shape rt)).
  { pose proof O10 as Oo. unfold GraphSpec.operands in Oo.
    assert (forall v, eval l = Some v -> length (snd v) = prod (fst v)) as Sl.
    { intros v Ev. assert (is_value l = false) by (destruct l; auto; discriminate).
      destruct (Hsz _ l Hl ltac:(intros c ->; discriminate)) as (v' & Ev' & ? & _). rewrite Ev in Ev'. injection Ev' as <-. assumption. }
    assert (forall v, eval r = Some v -> length (snd v) = prod (fst v)) as Sr.
    { intros v Ev. assert (is_value r = false) by (destruct r; auto; discriminate).
      destruct (Hsz _ r Hr ltac:(intros c ->; discriminate)) as (v' & Ev' & ? & _). rewrite Ev in Ev'. injection Ev' as <-. assumption. }
    assert (Sc : forall c v, length (snd (const_like one mul c v)) = prod (fst (const_like one mul c v))).
    { intros c v. cbn. apply repeat_length. }
    change (length (snd (val_of (hp s) lt)) = prod (fst (val_of (hp s) lt)) /\ length (snd (val_of (hp s) rt)) = prod (fst (val_of (hp s) rt))).
    destruct (is_value l) eqn:Vl; [|destruct (is_value r) eqn:Vr].
    - destruct l as [| | |c| |]; try discriminate. destruct (eval r) as [v|] eqn:Er; [|discriminate]. cbn [obind2] in Oo.
      assert (E1 : const_like one mul c v = val_of (hp s) lt) by congruence. assert (E2 : v = val_of (hp s) rt) by congruence. rewrite <- E1, <- E2. auto.
    - destruct r as [| | |c| |]; try discriminate. destruct (eval l) as [v|] eqn:El; [|destruct l; discriminate].
      rewrite (operands_right _ _ _ _ _ l c v Vl El) in O10.
      assert (E1 : v = val_of (hp s) lt) by congruence. assert (E2 : const_like one mul c v = val_of (hp s) rt) by congruence. rewrite <- E1, <- E2. auto.
    - destruct (eval l) as [v|] eqn:El; [|destruct l, r; discriminate]. destruct (eval r) as [v'|] eqn:Er; [|destruct l, r; discriminate].
      rewrite (operands_plain _ _ _ _ _ l r v v' Vl Vr El Er) in O10.
      assert (E1 : v = val_of (hp s) lt) by congruence. assert (E2 : v' = val_of (hp s) rt) by congruence. rewrite <- E1, <- E2. auto. }
  destruct Hlen as [Ll Lr].
  destruct (nth_error (hp s) (ref lt)) as [dl|] eqn:Edl; [|apply nth_error_None in Edl; lia].
  destruct (nth_error (hp s) (ref rt)) as [dr|] eqn:Edr; [|apply nth_error_None in Edr; lia].
  rewrite (nth_error_nth _ _ [] Edl) in Ll. rewrite (nth_error_nth _ _ [] Edr) in Lr.
  destruct (zip_broadcast_full zero dbg add lt rt rs (hp s) dl dr Edl Ll Edr Lr B) as (t' & h1 & res & Z1 & Z2 & Z3 & Z4 & Z5 & Z6 & Z7 & Z8).
  rewrite Z1 in E. injection E as -> ->.
  split; [exact (same_length (hp s) h' (ref t) res Z3 Z8)|].
  assert (Hip : inplace l r = list_eqb (padded (length rs) (shape lt)) rs).
  { unfold GraphSpec.inplace. rewrite O10. unfold plus_val. unfold val_of. cbn [fst snd].
    rewrite (proj2 (broadcast_shape_iff _ _ _) B). reflexivity. }
  rewrite Hip. destruct (list_eqb_spec (padded (length rs) (shape lt)) rs) as [Ep|Np]; [exact (Z6 Ep)|exact (Z7 Np)].
Qed.

Ltac unbind H w s1 E := apply bind_ok in H; destruct H as (w & s1 & E & H).
Ltac same := apply grows_own; reflexivity.

(** the operands of a binary operator *)
Lemma operands_link k n o l r s who lt rt s3 :
  (forall k s who t s', At e0 k l -> is_value l = false -> inv s who -> (forall m b, k = Some (m, b) -> cache s m = None) -> h0 <= length (hp s) ->
     link s -> forward k l s = Ok (t, s') -> link s' /\ backed s' (maker l) t /\ grows s s') ->
  (forall k s who t s', At e0 k r -> is_value r = false -> inv s who -> (forall m b, k = Some (m, b) -> cache s m = None) -> h0 <= length (hp s) ->
     link s -> forward k r s = Ok (t, s') -> link s' /\ backed s' (maker r) t /\ grows s s') ->
  At e0 k (EBin n o l r) -> inv s who -> cache s n = None -> h0 <= length (hp s) -> link s ->
  operand_code zero one add mul dbg k n l r s = Ok ((lt, rt), s3) ->
  link s3 /\ grows s s3 /\ (if is_value l then h0 <= ref lt else backed s3 (maker l) lt).
Proof.
  intros IHl IHr H I C Lh L F. set (x := EBin n o l r) in *.
  pose proof (At_left _ k n o l r H) as Hl. pose proof (At_right _ k n o l r H) as Hr.
  assert (Hn : forall s' : st A, cache s' n = None -> forall (b b' : bool) m, Some (n, b) = Some (m, b') -> cache s' m = None) by congruence.
  destruct (evalx zero one add mul e0 q Hsz k x H eq_refl) as (w & Ew). unfold x in Ew. rewrite eval_bin in Ew.
  destruct (is_value l) eqn:Vl; [|destruct (is_value r) eqn:Vr].
  - destruct l as [| | |c| |]; try discriminate.
    assert (Vr : is_value r = false) by (destruct r; auto; discriminate).
    cbn [operand_code] in F. unbind F rt' s1 E1. unbind F u1 s2 E2. unbind F lt' s2' E3. unbind F u2 s4 E4.
    injection F as -> -> ->. destruct (IHr _ _ _ _ _ Hr Vr I (fun m b => Hn s C true b m) Lh L E1) as (L1 & _ & G1).
    injection E2 as _ <-. injection E3 as <- <-. injection E4 as _ <-. cbn [ref hp set_objs].
    assert (G : forall f g, grows s1 (set_objs (set_hp (set_objs s1 f) (hp s1 ++ [repeat (mul one c) (prod (shape rt))])) g)).
    { intros f g. apply grows_own; try reflexivity. cbn [set_objs set_hp hp]. rewrite app_length. lia. }
    split; [apply (link_grows s1); auto|]. split; [exact (grows_trans _ _ _ G1 (G _ _))|]. pose proof (g_len _ _ G1). lia.
  - destruct r as [| | |c| |]; try discriminate.
    rewrite (operand_code_right _ _ _ _ _ k n l c Vl) in F. unbind F lt' s1 E1. unbind F u1 s2 E2. unbind F rt' s2' E3. unbind F u2 s4 E4.
    injection F as -> -> ->. destruct (IHl _ _ _ _ _ Hl eq_refl I (fun m b => Hn s C false b m) Lh L E1) as (L1 & B1 & G1).
    injection E2 as _ <-. injection E3 as <- <-. injection E4 as _ <-. cbn [ref hp set_objs].
    assert (G : forall f g, grows s1 (set_objs (set_hp (set_objs s1 f) (hp s1 ++ [repeat (mul one c) (prod (shape lt))])) g)).
    { intros f g. apply grows_own; try reflexivity. cbn [set_objs set_hp hp]. rewrite app_length. lia. }
    split; [apply (link_grows s1); auto|]. split; [exact (grows_trans _ _ _ G1 (G _ _))|]. exact (backed_grows _ _ _ _ (G _ _) B1).
  - rewrite (operand_code_plain _ _ _ _ _ k n l r Vl Vr) in F. unbind F lt' s1 E1. unbind F u1 s2 E2. unbind F rt' s2' E3. unbind F u2 s4 E4.
    injection F as -> -> ->.
    destruct (forward_ok zero one add mul dbg e0 q Hcons Hsz Hdis l (Some (n, false)) s who Hl Vl I (fun m b => Hn s C false b m)) as (t1 & s1' & who1 & F1 & P).
    rewrite E1 in F1. injection F1 as <- <-. destruct P as [P1 P2 P3 P4 P5 P6 P7].
    assert (C1 : cache s1 n = None).
    { destruct (cache s1 n) eqn:E; [|reflexivity]. exfalso.
      destruct (P4 n ltac:(congruence)); [congruence|]. exact (no_cycle e0 Hcons _ _ _ Hl H0). }
    destruct (IHl _ _ _ _ _ Hl eq_refl I (fun m b => Hn s C false b m) Lh L E1) as (L1 & B1 & G1).
    injection E2 as _ <-. injection E4 as _ <-.
    set (s2 := set_objs s1 (supd (objs s1) k (Obj (Some lt) (in2 (objs s1 k)) (out (objs s1 k))))) in *.
    assert (I2 : inv s2 who1) by (apply (inv_objs zero one add mul e0 q Hcons s1 who1 k x n); auto).
    assert (G2 : grows s1 s2) by same. assert (L2 : link s2) by (apply (link_grows s1); auto).
    assert (Lh2 : h0 <= length (hp s2)) by (pose proof (g_len _ _ G1); cbn [s2 set_objs hp]; lia).
    destruct (IHr _ _ _ _ _ Hr eq_refl I2 (fun m b => Hn s2 C1 true b m) Lh2 L2 E3) as (L3 & _ & G3).
    assert (G4 : forall f, grows s2' (set_objs s2' f)) by (intros; same).
    assert (G5 : forall f, grows s1 (set_objs s2' f)) by (intros f; exact (grows_trans _ _ _ G2 (grows_trans _ _ _ G3 (G4 f)))).
    split; [apply (link_grows s2'); auto|]. split; [exact (grows_trans _ _ _ G1 (G5 _))|]. exact (backed_grows _ _ _ _ (G5 _) B1).
Qed.

(** the end of a node's forward *)
Lemma conclude_link k x n t s s' : At e0 k x -> node_id x = Some n -> backed s (maker x) t -> link s ->
  gbind (put_out k (Some t)) (fun _ => gbind (update n t) (fun _ => gbind (modify (fun s => set_ran s (n :: ran s))) (fun _ => gret t))) s = Ok (t, s') ->
  link s' /\ backed s' (maker x) t /\ grows s s'.
Proof.
  intros H E B L F. injection F as <-. 
  match goal with |- link ?S /\ _ => assert (G : grows s S) by same; assert (B' : backed S (maker x) t) by exact (backed_grows _ _ _ _ G B) end.
  split; [|auto]. eapply (link_node s _ k x n t G); eauto.
Qed.

Theorem forward_link x : forall k s who t s', At e0 k x -> is_value x = false -> inv s who ->
  (forall m b, k = Some (m, b) -> cache s m = None) -> h0 <= length (hp s) -> link s -> forward k x s = Ok (t, s') ->
  link s' /\ backed s' (maker x) t /\ grows s s'.
Proof.
  induction x as [v|p|u|c|n o y IH|n o l IHl r IHr]; intros k s who t s' H V I Hk Lh L F; try discriminate.
  - (* a variable *)
    cbn [GraphModel.forward] in F. unfold var_forward in F. unbind F tr s1 E1. injection E1 as <- <-. unbind F vs s1 E1. injection E1 as <- <-.
    destruct (training s).
    + unbind F u1 s1 E1. unbind F u2 s2 E2. injection E2 as _ <-. injection F as <- <-.
      unfold heaply in E1. destruct (reset _ _ _) as [[u3 h']| |] eqn:Er; try discriminate. injection E1 as <- <-.
      assert (Lr : length h' = length (hp s)).
      { unfold reset in Er. unfold map_inplace, TensorModel.bind, data, store in Er. destruct (nth_error _ _) as [d|] eqn:En; [|discriminate Er]. injection Er as _ <-. apply upd_length. }
      match goal with |- link ?S /\ _ => assert (G : grows s S) by (apply grows_own; try reflexivity; cbn [set_vobjs set_hp hp]; lia) end.
      split; [apply (link_grows s); auto|]. split; [reflexivity|assumption].
    + injection F as <- <-. split; [assumption|]. split; [reflexivity|apply grows_refl].
  - (* a placeholder *)
    destruct (i_hold _ _ _ _ _ _ _ _ I k p H) as (u & Eu & _). cbn [GraphModel.forward] in F. unfold hold_forward in F. unbind F t1 s1 E1. injection E1 as <- <-.
    rewrite Eu in F. injection F as <- <-. split; [assumption|]. split; [cbn [StaleSpec.maker backed]; eauto|apply grows_refl].
  - injection F as <- <-. split; [assumption|]. split; [reflexivity|apply grows_refl].
  - (* a unary operator *)
    set (x := EUn n o y) in *. cbn [x GraphModel.forward] in F. unbind F qt s1 E1. unbind F u1 s2 E2. injection E2 as _ <-.
    destruct (cache s n) as [u|] eqn:C.
    { destruct (hit_ok zero one add mul e0 q Hcons Hsz Hdis k x n u s who H eq_refl I Hk C) as [Hq P]. rewrite Hq in E1. injection E1 as <- <-. injection F as <- <-.
      match goal with |- link ?S /\ _ => assert (G : grows s S) by same end.
      split; [apply (link_grows s); auto|]. split; [|assumption]. exact (backed_grows _ _ _ _ G (L k x n u H eq_refl C)). }
    rewrite (miss_query n s C) in E1. injection E1 as <- <-.
    set (s1 := set_objs s (supd (objs s) k (Obj (in1 (objs s k)) (in2 (objs s k)) None))) in *.
    assert (I1 : inv s1 who) by (apply (inv_objs zero one add mul e0 q Hcons s who k x n); auto).
    pose proof (At_un _ k n o y H) as Hy.
    destruct (evalx zero one add mul e0 q Hsz k x H eq_refl) as (w & Ew).
    assert (Vy : is_value y = false) by (cbn in Ew; destruct y; auto; discriminate).
    assert (G1 : grows s s1) by same. assert (L1 : link s1) by (apply (link_grows s); auto).
    unbind F i s2 E2.
    destruct (IH (Some (n, false)) s1 who i s2 Hy Vy I1 ltac:(intros m b [= <- <-]; exact C) Lh L1 E2) as (L2 & B2 & G2).
    unbind F u2 s3 E3. injection E3 as _ <-.
    match type of F with gbind _ _ ?S = _ => set (s3 := S) in * end.
    assert (G3 : grows s2 s3) by same. assert (L3 : link s3) by (apply (link_grows s2); auto).
    assert (B3 : backed s3 (maker y) i) by exact (backed_grows _ _ _ _ G3 B2).
    assert (Lh3 : h0 <= length (hp s3)) by (pose proof (g_len _ _ G1); pose proof (g_len _ _ G2); pose proof (g_len _ _ G3); lia).
    unbind F t' s4 E4.
    assert (Q : t' = t).
    { clear - F. unbind F u1 s5 E5. unbind F u2 s6 E6. unbind F u3 s7 E7. injection F as -> _. reflexivity. }
    subst t'.
    assert (X4 : link s4 /\ grows s3 s4 /\ backed s4 (maker x) t).
    { destruct o as [b f m g|f]; cbn [un_forward] in E4.
      - unbind E4 hh s5 E5. injection E5 as <- <-. unbind E4 v s5 E5. destruct (f _) as [v'|] eqn:Ef; [|discriminate E5]. injection E5 as <- <-.
        assert (Ob : owns x = b) by (destruct b; reflexivity).
        destruct (stored b k x n v' s3 t s4 H eq_refl Ob Lh3 E4) as (Cs & Gs & Bs). split; [apply (link_grows s3); auto|]. split; [assumption|].
        cbn [StaleSpec.maker x backed]. fold x. rewrite Ob. exact Bs.
      - unbind E4 sh s5 E5. destruct (f _) as [sh'|] eqn:Ef; [|discriminate E5]. injection E5 as <- <-. injection E4 as <- <-.
        split; [assumption|]. split; [apply grows_refl|]. cbn [StaleSpec.maker x]. destruct (maker y); exact B3. }
    destruct X4 as (L4 & G4 & B4).
    destruct (conclude_link k x n t s4 s' H eq_refl B4 L4 F) as (L5 & B5 & G5).
    split; [assumption|]. split; [assumption|].
    exact (grows_trans _ _ _ G1 (grows_trans _ _ _ G2 (grows_trans _ _ _ G3 (grows_trans _ _ _ G4 G5)))).
  - (* a binary operator *)
    set (x := EBin n o l r) in *. cbn [x GraphModel.forward] in F. unbind F qt s1 E1. unbind F u1 s2 E2. injection E2 as _ <-.
    destruct (cache s n) as [u|] eqn:C.
    { destruct (hit_ok zero one add mul e0 q Hcons Hsz Hdis k x n u s who H eq_refl I Hk C) as [Hq P]. rewrite Hq in E1. injection E1 as <- <-. injection F as <- <-.
      match goal with |- link ?S /\ _ => assert (G : grows s S) by same end.
      split; [apply (link_grows s); auto|]. split; [|assumption]. exact (backed_grows _ _ _ _ G (L k x n u H eq_refl C)). }
    rewrite (miss_query n s C) in E1. injection E1 as <- <-. fold (operand_code zero one add mul dbg k n l r) in F.
    set (s1 := set_objs s (supd (objs s) k (Obj (in1 (objs s k)) (in2 (objs s k)) None))) in *.
    assert (I1 : inv s1 who) by (apply (inv_objs zero one add mul e0 q Hcons s who k x n); auto).
    assert (G1 : grows s s1) by same. assert (L1 : link s1) by (apply (link_grows s); auto).
    unbind F lr s3 E3. destruct lr as [lt rt]. cbn [fst snd] in F.
    destruct (operands_link k n o l r s1 who lt rt s3 IHl IHr H I1 C Lh L1 E3) as (L3 & G3 & B3).
    assert (Lh3 : h0 <= length (hp s3)) by (pose proof (g_len _ _ G1); pose proof (g_len _ _ G3); lia).
    destruct (operands_ok zero one add mul dbg e0 q Hcons Hsz Hdis k n o l r s1 who
      (forward_ok zero one add mul dbg e0 q Hcons Hsz Hdis l) (forward_ok zero one add mul dbg e0 q Hcons Hsz Hdis r) H I1 C) as (lt' & rt' & s3' & who3 & F3 & P3).
    rewrite E3 in F3. injection F3 as <- <- <-.
    unbind F t' s4 E4.
    assert (Q : t' = t).
    { clear - F. unbind F u1 s5 E5. unbind F u2 s6 E6. unbind F u3 s7 E7. injection F as -> _. reflexivity. }
    subst t'.
    assert (X4 : link s4 /\ grows s3 s4 /\ backed s4 (maker x) t).
    { destruct o as [|b f m g]; cbn [bin_forward] in E4.
      - unfold heaply in E4. destruct (zip_broadcast _ _ _ _ _ _) as [[t1 h1]| |] eqn:Ez; try discriminate. injection E4 as -> <-.
        destruct (plus_storage k n l r _ _ _ _ _ _ _ _ H P3 Ez) as (Lz & Rz).
        assert (G4 : grows s3 (set_hp s3 h1)) by (apply grows_own; try reflexivity; exact Lz).
        split; [apply (link_grows s3); auto|]. split; [assumption|].
        cbn [StaleSpec.maker x]. destruct (is_value l); cbn [negb andb].
        + cbn [backed owns x]. destruct (inplace l r); [rewrite Rz; exact B3|lia].
        + destruct (inplace l r).
          * apply (backed_grows _ _ _ _ G4) in B3. destruct (maker l); cbn [backed] in B3 |- *; rewrite ?Rz; exact B3.
          * cbn [backed owns]. lia.
      - unbind E4 hh s5 E5. injection E5 as <- <-. unbind E4 v s5 E5. destruct (f _ _) as [v'|] eqn:Ef; [|discriminate E5]. injection E5 as <- <-.
        assert (Ob : owns x = b) by (destruct b; reflexivity).
        destruct (stored b k x n v' s3 t s4 H eq_refl Ob Lh3 E4) as (Cs & Gs & Bs). split; [apply (link_grows s3); auto|]. split; [assumption|].
        cbn [StaleSpec.maker x backed]. fold x. rewrite Ob. exact Bs. }
    destruct X4 as (L4 & G4 & B4).
    destruct (conclude_link k x n t s4 s' H eq_refl B4 L4 F) as (L5 & B5 & G5).
    split; [assumption|]. split; [assumption|].
    exact (grows_trans _ _ _ G1 (grows_trans _ _ _ G3 (grows_trans _ _ _ G4 G5))).
Qed.

End Fwd.

(** A whole run. *)
Theorem run_link {A} zero one add mul dbg (e : expr A) s who t s1 : (forall c, e <> EVal c) -> consistent e ->
  sizes_ok zero one add mul (env_of s) e -> disciplined zero one add mul (env_of s) e -> separate e s who ->
  run zero one add mul dbg e s = Ok (t, s1) ->
  backed (length (hp s)) s1 (maker zero one add mul (env_of s) e) t /\ grows e s s1.
Proof.
  intros V C Z D S R. set (s0 := set_ran (set_cache s (fun _ => None)) []).
  assert (Ve : is_value e = false) by (destruct e; auto; exfalso; eapply V; reflexivity).
  pose proof (start_inv zero one add mul e s who S Z) as I. fold s0 in I.
  unfold run in R. apply bind_ok in R. destruct R as (u & s' & E & R). injection E as _ <-. fold s0 in R.
  destruct (forward_link zero one add mul dbg e (env_of s) C Z D (length (hp s)) e None s0 who t s1 (At_root e) Ve I ltac:(discriminate) (le_n _)) as (_ & B & G).
  - intros k x n t' _ _ Hc. discriminate Hc.
  - exact R.
  - split; [exact B|]. apply (grows_trans e s s0 s1); [|exact G]. apply grows_own; reflexivity.
Qed.
