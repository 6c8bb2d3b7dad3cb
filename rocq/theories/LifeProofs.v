(** The tensor a loss returns is a new one, and neither the backward pass nor the optimiser writes it: train_on_batch may read it last. *)
From Coq Require Import List Arith Lia Bool PeanoNat NArith ZArith Reals Lra.
From Verif Require Import ListBase TensorModel TensorSpec ArrayModel GraphModel GraphSpec GraphProofs CalcSpec LossModel LossSpec ComplexModel OptModel OptSpec FittingSpec RunFrame EvalProofs.
Import ListNotations.
Local Open Scope nat_scope.

(** the last operator allocates its result *)
Definition fresh_root (e : expr R) : Prop :=
  match e with EUn _ (UNew false _ _ _) _ | EBin _ (BNew false _ _ _) _ _ => True | _ => False end.

Lemma every_fresh dbg eps smooth lo up L n a b : In L (comparisons dbg eps smooth lo up) -> fresh_root (term L n a b).
Proof.
  intros H. unfold comparisons in H. cbn [In] in H. repeat match goal with H : _ \/ _ |- _ => destruct H as [<-|H] end; [..|destruct H]; exact I.
Qed.

(** ** A forward pass *)
Section Forward.
Variable dbg : bool.
Notation forward := (forward 0%R 1%R Rplus Rmult dbg).
Notation run := (run 0%R 1%R Rplus Rmult dbg).
Notation none := (fun _ : nat => False).

Definition grown (s s' : st R) : Prop := length (hp s) <= length (hp s') /\ vars s' = vars s /\ ownb s' = ownb s.
Definition grows {T} (m : G (A:=R) T) : Prop := forall s v s', m s = Ok (v, s') -> grown s s'.

Lemma grown_refl s : grown s s. Proof. split; auto. Qed.
Lemma grown_trans s1 s2 s3 : grown s1 s2 -> grown s2 s3 -> grown s1 s3.
Proof. intros (A1 & A2 & A3) (B1 & B2 & B3). split; [lia|]. split; congruence. Qed.
Lemma grows_ret {T} (v : T) : grows (gret v). Proof. intros s v' s' [= <- <-]. apply grown_refl. Qed.
Lemma grows_ub {T} : grows (fun _ => UB : outcome (T * st R)). Proof. intros s v s' H. discriminate. Qed.
Lemma grows_bind {S T} (m : G (A:=R) S) (f : S -> G (A:=R) T) : grows m -> (forall v, grows (f v)) -> grows (gbind m f).
Proof. intros Hm Hf s v s' H. unfold gbind in H. destruct (m s) as [[a s1]| |] eqn:E; try discriminate. eapply grown_trans; [exact (Hm _ _ _ E)|exact (Hf _ _ _ _ H)]. Qed.
Lemma grows_get {T} (g : st R -> T) : grows (get g). Proof. intros s v s' [= <- <-]. apply grown_refl. Qed.
Lemma grows_the {T} (o : option T) : grows (the o). Proof. destruct o; [apply grows_ret|apply grows_ub]. Qed.
Lemma grows_modify f : (forall s, hp (f s) = hp s /\ vars (f s) = vars s /\ ownb (f s) = ownb s) -> grows (modify f).
Proof. intros F s v s' [= <- <-]. destruct (F s) as (E1 & E2 & E3). split; [now rewrite E1|]. now split. Qed.
Lemma grows_heaply {T} (P : T -> Prop) m : tame none P m -> grows (heaply m).
Proof.
  intros H s v s' E. unfold heaply in E. destruct (m (hp s)) as [[a h]| |] eqn:Em; try discriminate. injection E as <- <-.
  destruct (H (hp s) (hp s) a h) as (_ & _ & _ & [Q _] & _); [|exact Em|now split]. split; [reflexivity|]. split; [reflexivity|tauto].
Qed.
Lemma grows_query n : grows (query n). Proof. intros s v s' [= <- <-]. apply grown_refl. Qed.
Lemma grows_own n v : grows (into_own n v).
Proof. intros s t s' H. unfold into_own in H. destruct (own s n) as [u|]; injection H as <- <-; (split; [|now split]); cbn [set_own set_hp hp]; rewrite ?upd_length, ?app_length; lia. Qed.
Lemma grows_new v : grows (new_tensor v). Proof. eapply grows_heaply, tame_alloc. Qed.

Lemma grows_var k v : grows (var_forward 0%R k v).
Proof.
  unfold var_forward. apply grows_bind; [apply grows_get|]. intros tr. apply grows_bind; [apply grows_get|]. intros vs. destruct tr; [|apply grows_ret].
  apply grows_bind; [|intros _; apply grows_bind; [now apply grows_modify|intros _; apply grows_ret]].
  eapply grows_heaply with (P := fun _ => True). unfold reset, map_inplace. eapply tame_bind; [apply tame_data; tauto|]. intros d _. apply tame_store. tauto.
Qed.
Lemma grows_hold p : grows (hold_forward dbg p).
Proof. unfold hold_forward. apply grows_bind; [apply grows_get|]. intros [t|]; [apply grows_ret|]. destruct dbg; [intros s v s' H; discriminate|]. eapply grows_heaply, tame_alloc. Qed.
Lemma grows_un n o i : grows (un_forward n o i).
Proof.
  destruct o as [w f m b|f]; cbn [un_forward].
  - apply grows_bind; [apply grows_get|]. intros h. apply grows_bind; [apply grows_the|]. intros v. destruct w; [apply grows_own|apply grows_new].
  - apply grows_bind; [apply grows_the|]. intros v. apply grows_ret.
Qed.
Lemma grows_bin n o l r : grows (bin_forward 0%R Rplus dbg n o l r).
Proof.
  destruct o as [|w f m b]; cbn [bin_forward].
  - eapply grows_heaply, tame_zip; tauto.
  - apply grows_bind; [apply grows_get|]. intros h. apply grows_bind; [apply grows_the|]. intros v. destruct w; [apply grows_own|apply grows_new].
Qed.

Lemma grows_forward e : forall k, grows (forward k e).
Proof.
  induction e as [v|p|t|c|n o e IH|n o l IHl r IHr]; intros k; cbn [GraphModel.forward].
  - apply grows_var.
  - apply grows_hold.
  - apply grows_ret.
  - apply grows_ub.
  - apply grows_bind; [apply grows_query|]. intros q. apply grows_bind; [now apply grows_modify|]. intros _. destruct q; [apply grows_ret|].
    apply grows_bind; [apply IH|]. intros i. apply grows_bind; [now apply grows_modify|]. intros _. apply grows_bind; [apply grows_un|]. intros t.
    repeat (apply grows_bind; [now apply grows_modify|]; intros _). apply grows_ret.
  - apply grows_bind; [apply grows_query|]. intros q. apply grows_bind; [now apply grows_modify|]. intros _. destruct q; [apply grows_ret|].
    apply grows_bind.
    + assert (P1 : forall t, grows (put_in1 (A:=R) k t)) by (intros t; now apply grows_modify). assert (P2 : forall t, grows (put_in2 (A:=R) k t)) by (intros t; now apply grows_modify).
      destruct l; [| | |..]; try (apply grows_bind; [apply IHr|]; intros rt; apply grows_bind; [apply P2|]; intros _; apply grows_bind; [apply grows_new|]; intros lt; apply grows_bind; [apply P1|]; intros _; apply grows_ret);
        destruct r; (apply grows_bind; [apply IHl|]; intros lt; apply grows_bind; [apply P1|]; intros _; apply grows_bind; [first [apply grows_new|apply IHr]|]; intros rt; apply grows_bind; [apply P2|]; intros _; apply grows_ret).
    + intros [lt rt]. apply grows_bind; [apply grows_bin|]. intros t. repeat (apply grows_bind; [now apply grows_modify|]; intros _). apply grows_ret.
Qed.

Lemma fresh_result e s y s1 : fresh_root e -> run e s = Ok (y, s1) -> length (hp s) <= ref y < length (hp s1).
Proof.
  intros Fr H. unfold GraphModel.run in H. unfold gbind at 1, modify at 1 in H. set (a := set_ran (set_cache s (fun _ => None)) []) in *.
  change (hp s) with (hp a). assert (Ca : forall n, cache a n = None) by reflexivity. clearbody a. clear s. destruct e as [| | | |n o e|n o l r]; try (destruct Fr; fail).
  - destruct o as [w f m b|f]; [|destruct Fr]. destruct w; [destruct Fr|]. clear Fr. cbn [GraphModel.forward] in H. unfold gbind at 1, query at 1 in H. rewrite Ca in H. unfold gbind at 1, put_out at 1, modify at 1 in H. cbv iota in H. set (a1 := set_objs a _) in H. change (hp a) with (hp a1). clearbody a1.
    unfold gbind at 1 in H. destruct (forward (Some (n, false)) e a1) as [[i a2]| |] eqn:E; try discriminate. pose proof (grows_forward _ _ _ _ _ E) as (Q & _).
    unfold gbind at 1, put_in1 at 1, modify at 1 in H. set (a3 := set_objs a2 _) in H. change (hp a2) with (hp a3) in Q. clearbody a3. unfold gbind at 1 in H. cbn [un_forward] in H.
    unfold gbind at 1, get at 1 in H. unfold gbind at 1 in H. destruct (f (val_of (hp a3) i)) as [v|]; cbn [the] in H; [|discriminate H]. unfold gret at 1 in H. unfold new_tensor, heaply, alloc in H.
    unfold gbind, put_out, update, modify, gret in H. injection H as <- <-. cbn [ref set_hp set_objs set_cache set_ran hp]. rewrite app_length. cbn [length]. lia.
  - destruct o as [|w f m b]; [destruct Fr|]. destruct w; [destruct Fr|]. clear Fr. cbn [GraphModel.forward] in H. unfold gbind at 1, query at 1 in H. rewrite Ca in H. unfold gbind at 1, put_out at 1, modify at 1 in H. cbv iota in H. set (a1 := set_objs a _) in H. change (hp a) with (hp a1). clearbody a1.
    unfold gbind at 1 in H. match type of H with match ?q with _ => _ end = _ => destruct q as [[[lt rt] a3]| |] eqn:E; try discriminate end.
    assert (Q : length (hp a1) <= length (hp a3)).
    { revert E. match goal with |- ?mm a1 = _ -> _ => assert (G0 : grows mm) end.
      - assert (P1 : forall t, grows (put_in1 (A:=R) None t)) by (intros t; now apply grows_modify). assert (P2 : forall t, grows (put_in2 (A:=R) None t)) by (intros t; now apply grows_modify).
        destruct l; [| | |..]; try (apply grows_bind; [apply grows_forward|]; intros ?; apply grows_bind; [apply P2|]; intros _; apply grows_bind; [apply grows_new|]; intros ?; apply grows_bind; [apply P1|]; intros _; apply grows_ret);
          destruct r; (apply grows_bind; [apply grows_forward|]; intros ?; apply grows_bind; [apply P1|]; intros _; apply grows_bind; [first [apply grows_new|apply grows_forward]|]; intros ?; apply grows_bind; [apply P2|]; intros _; apply grows_ret).
      - intros E. apply (G0 _ _ _ E). }
    unfold gbind at 1 in H. cbn [bin_forward fst snd] in H.
    unfold gbind at 1, get at 1 in H. unfold gbind at 1 in H. destruct (f (val_of (hp a3) lt) (val_of (hp a3) rt)) as [v|]; cbn [the] in H; [|discriminate H]. unfold gret at 1 in H. unfold new_tensor, heaply, alloc in H.
    unfold gbind, put_out, update, modify, gret in H. injection H as <- <-. cbn [ref set_hp set_objs set_cache set_ran hp]. rewrite app_length. cbn [length]. lia.
Qed.
Lemma grows_run e : grows (run e).
Proof. apply grows_bind; [now apply grows_modify|]. intros _. apply grows_forward. Qed.
End Forward.

(** ** The optimiser *)
Section Update.
Variables (dbg : bool) (eps : R) (z : nat) (sess : list (nat * bool)).
Notation X := (fun r => r = z).

Definition sane (w : world) : Prop := z < length (hp (gr w)) /\ forall v, In (v, true) sess -> ~ In z (foot w v).
Definition spares {T} (P : T -> Prop) (m : O T) : Prop :=
  forall w v w', sane w -> m w = Ok (v, w') -> sane w' /\ nth_error (hp (gr w')) z = nth_error (hp (gr w)) z /\ P v.

Lemma spares_ret {T} (P : T -> Prop) v : P v -> spares P (oret v). Proof. intros H w v' w' Sa [= <- <-]. auto. Qed.
Lemma spares_bnd {S T} (Q : S -> Prop) (P : T -> Prop) (m : O S) f : spares Q m -> (forall v, Q v -> spares P (f v)) -> spares P (obnd m f).
Proof.
  intros Hm Hf w v w' Sa H. unfold obnd in H. destruct (m w) as [[a w1]| |] eqn:E; try discriminate. destruct (Hm _ _ _ Sa E) as (S1 & E1 & Qa).
  destruct (Hf a Qa _ _ _ S1 H) as (S2 & E2 & Pv). split; [exact S2|]. split; [congruence|exact Pv].
Qed.
Lemma spares_heap {T} (P : T -> Prop) m : tame X P m -> spares P (on_heap m).
Proof.
  intros H w v w' [Lz Sa] E. unfold on_heap, on_graph, heaply in E. destruct (m (hp (gr w))) as [[a h]| |] eqn:Em; try discriminate. injection E as <- <-. cbn [gr set_hp hp].
  destruct (H (hp (gr w)) (hp (gr w)) a h) as (_ & _ & _ & [Q1 Q2] & _ & Pa); [split; [reflexivity|]; split; [reflexivity|]; intros r ->; exact Lz|exact Em|].
  split; [|split; [now apply Q2|exact Pa]]. split; [cbn [gr set_hp hp]; lia|exact Sa].
Qed.
Lemma spares_vars v : In (v, true) sess -> spares (fun vs => ref (vdata vs) <> z /\ ref (vgrad vs) <> z) (on_graph (get (fun s => vars s v))).
Proof.
  intros Hv w vs w' Sa H. unfold on_graph, get in H. injection H as <- <-. destruct w as [g c]. split; [exact Sa|]. split; [reflexivity|]. destruct Sa as [_ Sa]. specialize (Sa v Hv).
  split; intros Q; apply Sa; unfold foot; cbn [gr ctx] in *; rewrite Q; cbn [In]; auto.
Qed.
Lemma spares_context v j : In (v, true) sess -> spares (fun t => ref t <> z) (context v j).
Proof.
  intros Hv w t w' Sa H. unfold context in H. destruct (nth_error (ctx w v) j) as [u|] eqn:E; [|discriminate]. injection H as <- <-. split; [exact Sa|]. split; [reflexivity|].
  intros Q. apply (proj2 Sa v Hv). right. right. rewrite <- Q. apply in_map. eapply nth_error_In, E.
Qed.
Lemma spares_push v n : In (v, true) sess -> spares (fun _ => True) (push_zeros v n).
Proof.
  intros Hv. induction n as [|n IH]; cbn [push_zeros]; [now apply spares_ret|]. eapply spares_bnd; [now apply spares_vars|]. intros vs _. eapply spares_bnd; [apply spares_heap, tame_alloc|].
  intros t Nt. cbv beta in Nt. eapply spares_bnd with (Q := fun _ => True); [|intros _ _; exact IH].
  intros w u w' [Lz Sa] H. injection H as <- <-. split; [|now split]. split; [exact Lz|]. intros v' Hv' Hz. apply (Sa v' Hv'). unfold foot in *. cbn [gr ctx] in *. destruct Hz as [Hz|[Hz|Hz]]; [now left|right; now left|right; right].
  unfold fupd in Hz. destruct (Nat.eqb_spec v' v) as [->|_]; [|exact Hz]. rewrite map_app in Hz. apply in_app_or in Hz. destruct Hz as [Hz|[Hz|[]]]; [exact Hz|]. now destruct Nt.
Qed.
Lemma spares_create v n : In (v, true) sess -> spares (fun _ => True) (create v n).
Proof. intros Hv w u w' Sa H. unfold create in H. destruct (ctx w v); [exact (spares_push v n Hv w u w' Sa H)|]. injection H as <- <-. auto. Qed.

Lemma tame_each lead t u v f : ref lead <> z -> ref t <> z -> ref u <> z -> ref v <> z -> tame X (fun _ => True) (each lead t u v f).
Proof.
  intros H1 H2 H3 H4. unfold each. eapply tame_bind; [now apply tame_data|]. intros dl _. eapply tame_bind; [now apply tame_data|]. intros dt _. eapply tame_bind; [now apply tame_data|]. intros du _.
  eapply tame_bind; [now apply tame_data|]. intros dv _. cbv zeta. destruct (_ && _)%bool; [now apply tame_store|apply tame_ub].
Qed.
Lemma tame_zip_inplace f t u : ref t <> z -> ref u <> z -> tame X (fun _ => True) (zip_inplace dbg (A:=R) f t u).
Proof.
  intros H1 H2. unfold zip_inplace. eapply tame_bind; [apply tame_assert|]. intros _ _. eapply tame_bind; [now apply tame_data|]. intros d _. eapply tame_bind; [now apply tame_data|]. intros d' _.
  destruct (_ <=? _); [now apply tame_store|apply tame_ub].
Qed.
Lemma tame_map f t : ref t <> z -> tame X (fun _ => True) (map_inplace (A:=R) f t).
Proof. intros H. unfold map_inplace. eapply tame_bind; [now apply tame_data|]. intros d _. now apply tame_store. Qed.
Lemma tame_scalar f t : ref t <> z -> tame X (fun t => ref t <> z) (scalar_op 0%R f t).
Proof.
  intros H. unfold scalar_op, deep_copy. eapply tame_bind.
  - eapply tame_bind; [now apply tame_data|]. intros d _. eapply tame_bind; [apply tame_copy_front|]. intros d' _. apply tame_alloc.
  - intros u Nu. cbv beta in Nu. eapply tame_bind; [now apply tame_map|]. intros _ _. now apply tame_ret.
Qed.

Lemma spares_update_var a lr it v : In (v, true) sess -> spares (fun _ => True) (update_var dbg eps a lr it v).
Proof.
  intros Hv. unfold update_var. eapply spares_bnd; [now apply spares_vars|]. intros vs [Nd Ng]. cbv zeta. eapply spares_bnd with (Q := fun _ => True); [|intros _ _; apply spares_heap; now apply tame_map].
  destruct a;
    repeat first
      [ eapply spares_bnd; [now apply spares_create|]; intros _ _
      | eapply spares_bnd; [now apply spares_context|]; intros ? ?; cbv beta in *
      | eapply spares_bnd; [apply spares_heap; now apply tame_each|]; intros _ _
      | eapply spares_bnd; [apply spares_heap; now apply tame_zip_inplace|]; intros _ _
      | eapply spares_bnd; [apply spares_heap; now apply tame_scalar|]; intros ? ?; cbv beta in *
      | apply spares_heap; now apply tame_each
      | apply spares_heap; now apply tame_zip_inplace
      | match goal with |- context [if ?c then _ else _] => destruct c end ].
Qed.
Lemma spares_update_all a lr it l : incl l sess -> spares (fun _ => True) (update_all dbg eps a lr it l).
Proof.
  induction l as [|[v tr] l IH]; intros Hi; cbn [update_all]; [now apply spares_ret|]. eapply spares_bnd with (Q := fun _ => True).
  - destruct tr; [apply spares_update_var, Hi; now left|now apply spares_ret].
  - intros _ _. apply IH. intros x Hx. apply Hi. now right.
Qed.

(** the variables' tensors are the same *)
Definition steady {T} (m : O T) : Prop := forall w v w', m w = Ok (v, w') -> vars (gr w') = vars (gr w).
Lemma steady_ret {T} (v : T) : steady (oret v). Proof. intros w v' w' [= <- <-]. reflexivity. Qed.
Lemma steady_bnd {S T} (m : O S) (f : S -> O T) : steady m -> (forall v, steady (f v)) -> steady (obnd m f).
Proof. intros Hm Hf w v w' H. unfold obnd in H. destruct (m w) as [[a w1]| |] eqn:E; try discriminate. rewrite (Hf _ _ _ _ H). exact (Hm _ _ _ E). Qed.
Lemma steady_heap {T} (m : M (A:=R) T) : steady (on_heap m).
Proof. intros w v w' E. unfold on_heap, on_graph, heaply in E. destruct (m (hp (gr w))) as [[a h]| |]; try discriminate. injection E as <- <-. reflexivity. Qed.
Lemma steady_get v : steady (on_graph (get (fun s => vars s v))). Proof. intros w u w' [= <- <-]. reflexivity. Qed.
Lemma steady_context v j : steady (context v j). Proof. intros w u w' H. unfold context in H. destruct (nth_error _ _); [|discriminate]. now injection H as <- <-. Qed.
Lemma steady_create v n : steady (create v n).
Proof.
  assert (P : steady (push_zeros v n)).
  { induction n as [|n IH]; cbn [push_zeros]; [apply steady_ret|]. apply steady_bnd; [apply steady_get|]. intros vs. apply steady_bnd; [apply steady_heap|]. intros t. apply steady_bnd; [|intros _; exact IH].
    intros w u w' [= <- <-]. reflexivity. }
  intros w u w' H. unfold create in H. destruct (ctx w v); [exact (P _ _ _ H)|now injection H as <- <-].
Qed.
Lemma steady_update_all a lr it l : steady (update_all dbg eps a lr it l).
Proof.
  induction l as [|[v tr] l IH]; cbn [update_all]; [apply steady_ret|]. apply steady_bnd; [|intros _; exact IH]. destruct tr; [|apply steady_ret].
  unfold update_var. apply steady_bnd; [apply steady_get|]. intros vs. cbv zeta. apply steady_bnd; [|intros _; apply steady_heap].
  destruct a;
    repeat first
      [ apply steady_heap
      | apply steady_bnd; [first [apply steady_create|apply steady_context|apply steady_heap]|intros ?]
      | match goal with |- context [if ?c then _ else _] => destruct c end ].
Qed.
End Update.

(** ** A batch *)
Theorem result_kept dbg eps sess e out p w who feed o y s1 o' w' (s := bound feed (gr w)) :
  ready sess out (W s (ctx w)) who -> made_from (EHold p) out e -> fresh_root e ->
  (forall v f, In (v, f) sess -> exists k, At out k (EVar v)) ->
  run 0%R 1%R Rplus Rmult dbg e s = Ok (y, s1) -> step dbg eps sess e o (W (set_cache s1 (fun _ => None)) (ctx w)) = Ok (o', w') -> (forall v, vars (gr w') v = vars s v) ->
  nth_error (hp (gr w')) (ref y) = nth_error (hp s1) (ref y).
Proof.
  intros Rd Mf Fr Oc R1 St Ev. destruct (fresh_result dbg e s y s1 Fr R1) as [Z1 Z2]. destruct (grows_run dbg e s y s1 R1) as (G1 & G2 & G3). set (z := ref y) in *.
  pose proof Rd as [Sp Or Rv Rl Ri Rc Rh Rt]. cbn [gr ctx] in *. destruct Sp as (Sv & _ & _ & _ & Sb).
  unfold step in St. unfold obnd at 1 in St. unfold on_graph at 1, new_tensor at 1, heaply at 1, alloc at 1 in St. cbn [gr ctx fst snd set_cache hp] in St.
  set (sa := set_hp (set_cache s1 _) _) in St. unfold obnd at 1, on_graph at 1 in St. cbn [gr ctx] in St.
  match type of St with match match ?q with _ => _ end with _ => _ end = _ => destruct q as [[u s2]| |] eqn:EB; try discriminate end.
  set (Y := fun r => (exists v, (exists f, In (v, f) sess) /\ r = ref (vgrad (vars s v))) \/ (exists n b u, ownb s n b = Some u /\ r = ref u) \/ length (hp s1) <= r).
  assert (Yn : forall r, length (hp s1) <= r -> Y r) by (intros r Hr; right; now right).
  assert (Nz : ~ Y z).
  { intros [(v & (f & Hv) & Q)|[(n & b & t & Q & Q')|Q]]; [| |lia].
    - destruct (Oc v f Hv) as [k Hk]. destruct (Sv k v Hk) as (_ & _ & Q'). lia.
    - destruct (Sb n b t Q) as [_ Q'']. lia. }
  destruct (writes_backward 0%R 1%R Rplus Rmult Ropp rleb eps dbg Y (fun v => ref (vgrad (vars s v))) (length (hp s1)) Yn e None (mkT [1] (length (hp s1)))) with (s := sa) (v := u) (s' := s2) as (_ & [[Kl Kh] _ _] & _).
  - apply (Mf (known Y (fun v => ref (vgrad (vars s v))))); cbn [known]; auto.
    apply (vars_known Y _ out) with (k := None); [|apply At_root]. intros k v Hk. left. exists v. split; [exact (Rv k v Hk)|reflexivity].
  - apply Yn. cbn [ref]. lia.
  - constructor; unfold sa; cbn [set_hp set_cache hp vars ownb].
    + rewrite app_length. lia.
    + intros v. now rewrite G2.
    + intros n b t Ht. rewrite G3 in Ht. right. left. now exists n, b, t.
  - exact EB.
  - specialize (Kh z Nz). unfold sa in Kl, Kh. cbn [set_hp set_cache hp] in Kl, Kh. rewrite nth_error_app1 in Kh by exact Z2. rewrite app_length in Kl. cbn [length] in Kl.
    cbv zeta in St. unfold obnd in St. match type of St with match ?q with _ => _ end = _ => destruct q as [[u' w3]| |] eqn:EU; try discriminate end. unfold oret in St. injection St as _ <-.
    pose proof (steady_update_all dbg eps _ _ _ _ _ _ _ EU) as Vu. cbn [gr] in Vu.
    assert (Sn : sane z sess (W s2 (ctx w))).
    { split; [cbn [gr]; lia|]. intros v Hv Hz. specialize (Ev v). rewrite Vu in Ev. destruct (t_live _ _ (o_tidy _ _ Or v true Hv) z) as [Q _]; [|cbn [gr] in Q; lia].
      unfold foot in *. cbn [gr ctx] in *. now rewrite <- Ev. }
    destruct (spares_update_all dbg eps z sess _ _ _ sess (incl_refl _) _ _ _ Sn EU) as (_ & Q & _). cbn [gr] in Q. congruence.
Qed.
