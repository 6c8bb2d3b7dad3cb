(** What a forward pass depends on, and whose buffers it leaves alone. *)
From Coq Require Import List Arith Lia Bool PeanoNat.
From Verif Require Import ListBase TensorModel GraphModel GraphSpec GraphProofs ComplexRun.
Import ListNotations.

Section Core.
Context {A : Type} (zero one : A) (add mul : A -> A -> A).
Variable dbg : bool.
Notation forward := (forward zero one add mul dbg).

(** ** The forward pass depends on the core only *)
Definition same_out {T} (a b : outcome (T * st A)) : Prop :=
  match a, b with
  | Ok (t, s), Ok (t', s') => t = t' /\ core_of s = core_of s'
  | Abort, Abort | UB, UB => True
  | _, _ => False
  end.
Definition twins {T} (m m' : G (A := A) T) : Prop := forall s s', core_of s = core_of s' -> same_out (m s) (m' s').

Lemma twins_bind {S T} (m m' : G (A := A) S) (f f' : S -> G (A := A) T) : twins m m' -> (forall v, twins (f v) (f' v)) -> twins (gbind m f) (gbind m' f').
Proof.
  intros Hm Hf s s' E. specialize (Hm s s' E). unfold gbind. destruct (m s) as [[v s1]| |], (m' s') as [[v' s1']| |]; cbn in Hm; try contradiction; try exact I.
  destruct Hm as [<- E1]. now apply Hf.
Qed.
Lemma twins_ret {T} (v : T) : twins (gret v) (gret v).
Proof. intros s s' E. split; [reflexivity|exact E]. Qed.
Lemma twins_get {T} (f f' : st A -> T) : (forall s s', core_of s = core_of s' -> f s = f' s') -> twins (get f) (get f').
Proof. intros H s s' E. split; [now apply H|exact E]. Qed.
Lemma twins_mod (f f' : st A -> st A) : (forall s s', core_of s = core_of s' -> core_of (f s) = core_of (f' s')) -> twins (modify f) (modify f').
Proof. intros H s s' E. split; [reflexivity|now apply H]. Qed.

Lemma core_hp s s' : core_of (A := A) s = core_of s' -> hp s = hp s'. Proof. intros E. exact (f_equal c_hp E). Qed.
Lemma core_cache s s' : core_of (A := A) s = core_of s' -> cache s = cache s'. Proof. intros E. exact (f_equal c_cache E). Qed.
Lemma core_own s s' : core_of (A := A) s = core_of s' -> own s = own s'. Proof. intros E. exact (f_equal c_own E). Qed.
Lemma core_vars s s' : core_of (A := A) s = core_of s' -> vars s = vars s'. Proof. intros E. exact (f_equal c_vars E). Qed.
Lemma core_holders s s' : core_of (A := A) s = core_of s' -> holders s = holders s'. Proof. intros E. exact (f_equal c_holders E). Qed.
Lemma core_training s s' : core_of (A := A) s = core_of s' -> training s = training s'. Proof. intros E. exact (f_equal c_training E). Qed.
Lemma core_eq (s s' : st A) : hp s = hp s' -> cache s = cache s' -> own s = own s' -> vars s = vars s' -> holders s = holders s' -> training s = training s' -> core_of s = core_of s'.
Proof. unfold core_of. congruence. Qed.

Ltac split_core E := pose proof (core_hp _ _ E); pose proof (core_cache _ _ E); pose proof (core_own _ _ E); pose proof (core_vars _ _ E); pose proof (core_holders _ _ E); pose proof (core_training _ _ E).
Ltac core_solve := apply core_eq; cbn [set_hp set_cache set_objs set_vobjs set_vars set_holders set_own set_ownb set_training set_ran hp cache own vars holders training]; try congruence.

Lemma twins_heaply {T} (m : M (A := A) T) : twins (heaply m) (heaply m).
Proof.
  intros s s' E. split_core E. unfold heaply. rewrite <- (core_hp _ _ E). destruct (m (hp s)) as [[v h]| |]; cbn; try exact I. split; [reflexivity|]. core_solve.
Qed.
Lemma twins_put_in1 k k' t : twins (put_in1 k t) (put_in1 k' t). Proof. apply twins_mod. intros s s' E. exact E. Qed.
Lemma twins_put_in2 k k' t : twins (put_in2 k t) (put_in2 k' t). Proof. apply twins_mod. intros s s' E. exact E. Qed.
Lemma twins_put_out k k' t : twins (put_out k t) (put_out k' t). Proof. apply twins_mod. intros s s' E. exact E. Qed.
Lemma twins_ran n : twins (modify (fun s => set_ran s (n :: ran s))) (modify (fun s => set_ran s (n :: ran s))). Proof. apply twins_mod. intros s s' E. exact E. Qed.
Lemma twins_update n t : twins (update n t) (update n t).
Proof. apply twins_mod. intros s s' E. split_core E. core_solve. Qed.
Lemma twins_query n : twins (query n) (query n).
Proof. intros s s' E. split_core E. unfold query. rewrite H, H0. split; [reflexivity|exact E]. Qed.
Lemma twins_the {T} (o : option T) : twins (the o) (the o).
Proof. destruct o; [apply twins_ret|]. intros s s' E. exact I. Qed.
Lemma twins_into n v : twins (into_own n v) (into_own n v).
Proof.
  intros s s' E. split_core E. unfold into_own. rewrite H1, H. destruct (own s' n) as [t|]; cbn; (split; [reflexivity|]); core_solve.
Qed.
Lemma twins_un n o i : twins (un_forward n o i) (un_forward n o i).
Proof.
  destruct o as [b f m bk|f]; cbn [un_forward].
  - apply twins_bind; [apply twins_get, core_hp|]. intros h. apply twins_bind; [apply twins_the|]. intros v. destruct b; [apply twins_into|apply twins_heaply].
  - apply twins_bind; [apply twins_the|]. intros v. apply twins_ret.
Qed.
Lemma twins_bin n o l r : twins (bin_forward zero add dbg n o l r) (bin_forward zero add dbg n o l r).
Proof.
  destruct o as [|b f bo bk]; cbn [bin_forward]; [apply twins_heaply|].
  apply twins_bind; [apply twins_get, core_hp|]. intros h. apply twins_bind; [apply twins_the|]. intros v. destruct b; [apply twins_into|apply twins_heaply].
Qed.

Lemma forward_twins e : forall k k', twins (forward k e) (forward k' e).
Proof.
  induction e as [v|p|t|c|n o x IH|n o l IHl r IHr]; intros k k'; cbn [GraphModel.forward].
  - unfold var_forward. apply twins_bind; [apply twins_get, core_training|]. intros tr.
    apply twins_bind; [apply twins_get; intros s s' E; now rewrite (core_vars _ _ E)|]. intros vs. destruct tr; [|apply twins_ret].
    apply twins_bind; [apply twins_heaply|]. intros _. apply twins_bind; [apply twins_mod; intros s s' E; exact E|]. intros _. apply twins_ret.
  - unfold hold_forward. apply twins_bind; [apply twins_get; intros s s' E; now rewrite (core_holders _ _ E)|]. intros [t|]; [apply twins_ret|].
    destruct dbg; [intros s s' E; exact I|apply twins_heaply].
  - apply twins_ret.
  - intros s s' E. exact I.
  - apply twins_bind; [apply twins_query|]. intros q. apply twins_bind; [apply twins_put_out|]. intros _. destruct q; [apply twins_ret|].
    apply twins_bind; [apply IH|]. intros i. apply twins_bind; [apply twins_put_in1|]. intros _. apply twins_bind; [apply twins_un|]. intros t.
    apply twins_bind; [apply twins_put_out|]. intros _. apply twins_bind; [apply twins_update|]. intros _. apply twins_bind; [apply twins_ran|]. intros _. apply twins_ret.
  - apply twins_bind; [apply twins_query|]. intros q. apply twins_bind; [apply twins_put_out|]. intros _. destruct q; [apply twins_ret|].
    apply twins_bind.
    + assert (P : twins (gbind (forward (Some (n, false)) l) (fun lt => gbind (put_in1 k (Some lt)) (fun _ => gbind (forward (Some (n, true)) r) (fun rt => gbind (put_in2 k (Some rt)) (fun _ => gret (lt, rt))))))
                        (gbind (forward (Some (n, false)) l) (fun lt => gbind (put_in1 k' (Some lt)) (fun _ => gbind (forward (Some (n, true)) r) (fun rt => gbind (put_in2 k' (Some rt)) (fun _ => gret (lt, rt))))))).
      { apply twins_bind; [apply IHl|]. intros lt. apply twins_bind; [apply twins_put_in1|]. intros _. apply twins_bind; [apply IHr|]. intros rt. apply twins_bind; [apply twins_put_in2|]. intros _. apply twins_ret. }
      assert (Ql : forall c, twins (gbind (forward (Some (n, true)) r) (fun rt => gbind (put_in2 k (Some rt)) (fun _ => gbind (value_forward one mul c rt) (fun lt => gbind (put_in1 k (Some lt)) (fun _ => gret (lt, rt))))))
                        (gbind (forward (Some (n, true)) r) (fun rt => gbind (put_in2 k' (Some rt)) (fun _ => gbind (value_forward one mul c rt) (fun lt => gbind (put_in1 k' (Some lt)) (fun _ => gret (lt, rt))))))).
      { intros c. apply twins_bind; [apply IHr|]. intros rt. apply twins_bind; [apply twins_put_in2|]. intros _. apply twins_bind; [apply twins_heaply|]. intros lt. apply twins_bind; [apply twins_put_in1|]. intros _. apply twins_ret. }
      assert (Qr : forall c, twins (gbind (forward (Some (n, false)) l) (fun lt => gbind (put_in1 k (Some lt)) (fun _ => gbind (value_forward one mul c lt) (fun rt => gbind (put_in2 k (Some rt)) (fun _ => gret (lt, rt))))))
                        (gbind (forward (Some (n, false)) l) (fun lt => gbind (put_in1 k' (Some lt)) (fun _ => gbind (value_forward one mul c lt) (fun rt => gbind (put_in2 k' (Some rt)) (fun _ => gret (lt, rt))))))).
      { intros c. apply twins_bind; [apply IHl|]. intros lt. apply twins_bind; [apply twins_put_in1|]. intros _. apply twins_bind; [apply twins_heaply|]. intros rt. apply twins_bind; [apply twins_put_in2|]. intros _. apply twins_ret. }
      clear IHl IHr. destruct l; try apply Ql; destruct r; try apply Qr; exact P.
    + intros lr. apply twins_bind; [apply twins_bin|]. intros t.
      apply twins_bind; [apply twins_put_out|]. intros _. apply twins_bind; [apply twins_update|]. intros _. apply twins_bind; [apply twins_ran|]. intros _. apply twins_ret.
Qed.

(** a run tells what the forward pass does anywhere *)
Lemma yields_of_run e s t s1 : run zero one add mul dbg e s = Ok (t, s1) ->
  yields zero one add mul dbg e (Core (hp s) (fun _ => None) (own s) (vars s) (holders s) (training s)) t (core_of s1).
Proof.
  intros H k s' E. unfold run, gbind, modify in H. set (s0 := set_ran (set_cache s (fun _ => None)) []) in H.
  assert (E0 : core_of s0 = core_of s') by (rewrite E; reflexivity).
  pose proof (forward_twins e None k s0 s' E0) as T. rewrite H in T. destruct (forward k e s') as [[t' s1']| |]; cbn in T; try contradiction.
  destruct T as [-> E1]. exists s1'. split; [reflexivity|congruence].
Qed.

(** ** Buffers of operators that do not occur are left alone *)
Definition spares {T} (j : nat) (m : G (A := A) T) : Prop := forall s v s', m s = Ok (v, s') -> own s' j = own s j.

Lemma spares_bind {S T} j (m : G (A := A) S) (f : S -> G (A := A) T) : spares j m -> (forall v, spares j (f v)) -> spares j (gbind m f).
Proof.
  intros Hm Hf s v s' H. unfold gbind in H. destruct (m s) as [[u s1]| |] eqn:E; try discriminate. rewrite (Hf u s1 v s' H). exact (Hm s u s1 E).
Qed.
Lemma spares_ret {T} j (v : T) : spares j (gret v). Proof. intros s u s' [= _ <-]. reflexivity. Qed.
Lemma spares_get {T} j (f : st A -> T) : spares j (get f). Proof. intros s u s' [= _ <-]. reflexivity. Qed.
Lemma spares_mod j (f : st A -> st A) : (forall s, own (f s) j = own s j) -> spares j (modify f).
Proof. intros H s u s' [= _ <-]. apply H. Qed.
Lemma spares_heaply {T} j (m : M (A := A) T) : spares j (heaply m).
Proof. intros s u s' H. unfold heaply in H. destruct (m (hp s)) as [[v h]| |]; try discriminate. now injection H as _ <-. Qed.
Lemma spares_the {T} j (o : option T) : spares (T := T) j (the o).
Proof. destruct o; [apply spares_ret|]. intros s v s' H. discriminate. Qed.
Lemma spares_into j n v : n <> j -> spares j (into_own n v).
Proof. intros N s u s' H. unfold into_own in H. destruct (own s n); injection H as _ <-; cbn [set_own own]; apply fupd_other; auto. Qed.
Lemma spares_un j n o i : n <> j -> spares j (un_forward n o i).
Proof.
  intros N. destruct o as [b f m bk|f]; cbn [un_forward].
  - apply spares_bind; [apply spares_get|]. intros h. apply spares_bind; [apply spares_the|]. intros v. destruct b; [now apply spares_into|apply spares_heaply].
  - apply spares_bind; [apply spares_the|]. intros v. apply spares_ret.
Qed.
Lemma spares_bin j n o l r : n <> j -> spares j (bin_forward zero add dbg n o l r).
Proof.
  intros N. destruct o as [|b f bo bk]; cbn [bin_forward]; [apply spares_heaply|].
  apply spares_bind; [apply spares_get|]. intros h. apply spares_bind; [apply spares_the|]. intros v. destruct b; [now apply spares_into|apply spares_heaply].
Qed.

Lemma forward_spares j e : ~ In j (ids e) -> forall k, spares j (forward k e).
Proof.
  induction e as [v|p|t|c|n o x IH|n o l IHl r IHr]; cbn [ids]; intros N k; cbn [GraphModel.forward].
  - unfold var_forward. apply spares_bind; [apply spares_get|]. intros tr. apply spares_bind; [apply spares_get|]. intros vs. destruct tr; [|apply spares_ret].
    apply spares_bind; [apply spares_heaply|]. intros _. apply spares_bind; [now apply spares_mod|]. intros _. apply spares_ret.
  - unfold hold_forward. apply spares_bind; [apply spares_get|]. intros [t|]; [apply spares_ret|]. destruct dbg; [intros s v s' H; discriminate|apply spares_heaply].
  - apply spares_ret.
  - intros s v s' H. discriminate.
  - assert (n <> j /\ ~ In j (ids x)) as [Nn Nx] by (cbn [In] in N; intuition).
    apply spares_bind; [intros s v s' [= _ <-]; reflexivity|]. intros q. apply spares_bind; [now apply spares_mod|]. intros _. destruct q; [apply spares_ret|].
    apply spares_bind; [now apply IH|]. intros i. apply spares_bind; [now apply spares_mod|]. intros _. apply spares_bind; [now apply spares_un|]. intros t.
    apply spares_bind; [now apply spares_mod|]. intros _. apply spares_bind; [now apply spares_mod|]. intros _. apply spares_bind; [now apply spares_mod|]. intros _. apply spares_ret.
  - assert (n <> j /\ ~ In j (ids l) /\ ~ In j (ids r)) as (Nn & Nl & Nr).
    { cbn [In] in N. split; [intuition|]. split; intros H; apply N; right; apply in_or_app; auto. }
    specialize (IHl Nl). specialize (IHr Nr).
    apply spares_bind; [intros s v s' [= _ <-]; reflexivity|]. intros q. apply spares_bind; [now apply spares_mod|]. intros _. destruct q; [apply spares_ret|].
    apply spares_bind.
    + assert (P : spares j (gbind (forward (Some (n, false)) l) (fun lt => gbind (put_in1 k (Some lt)) (fun _ => gbind (forward (Some (n, true)) r) (fun rt => gbind (put_in2 k (Some rt)) (fun _ => gret (lt, rt))))))).
      { apply spares_bind; [apply IHl|]. intros lt. apply spares_bind; [now apply spares_mod|]. intros _. apply spares_bind; [apply IHr|]. intros rt. apply spares_bind; [now apply spares_mod|]. intros _. apply spares_ret. }
      assert (Ql : forall c, spares j (gbind (forward (Some (n, true)) r) (fun rt => gbind (put_in2 k (Some rt)) (fun _ => gbind (value_forward one mul c rt) (fun lt => gbind (put_in1 k (Some lt)) (fun _ => gret (lt, rt))))))).
      { intros c. apply spares_bind; [apply IHr|]. intros rt. apply spares_bind; [now apply spares_mod|]. intros _. apply spares_bind; [apply spares_heaply|]. intros lt. apply spares_bind; [now apply spares_mod|]. intros _. apply spares_ret. }
      assert (Qr : forall c, spares j (gbind (forward (Some (n, false)) l) (fun lt => gbind (put_in1 k (Some lt)) (fun _ => gbind (value_forward one mul c lt) (fun rt => gbind (put_in2 k (Some rt)) (fun _ => gret (lt, rt))))))).
      { intros c. apply spares_bind; [apply IHl|]. intros lt. apply spares_bind; [now apply spares_mod|]. intros _. apply spares_bind; [apply spares_heaply|]. intros rt. apply spares_bind; [now apply spares_mod|]. intros _. apply spares_ret. }
      clear IHl IHr N Nl Nr. destruct l; try apply Ql; destruct r; try apply Qr; exact P.
    + intros lr. apply spares_bind; [now apply spares_bin|]. intros t.
      apply spares_bind; [now apply spares_mod|]. intros _. apply spares_bind; [now apply spares_mod|]. intros _. apply spares_bind; [now apply spares_mod|]. intros _. apply spares_ret.
Qed.

Lemma run_spares j e s t s1 : ~ In j (ids e) -> run zero one add mul dbg e s = Ok (t, s1) -> own s1 j = own s j.
Proof. intros N H. unfold run, gbind, modify in H. now rewrite (forward_spares j e N None _ _ _ H). Qed.

(** an operator whose result is in the cache, and not empty, does not run again *)
Lemma y_hit e n c t : node_id e = Some n -> c_cache c n = Some t -> nth (ref t) (c_hp c) [] <> [] -> yields zero one add mul dbg e c t c.
Proof.
  intros N C H k s E.
  assert (Q : query n s = Ok (Some t, s)).
  { unfold query. replace (cache s n) with (Some t) by (subst c; symmetry; exact C). replace (hp s) with (c_hp c) by (now subst c). destruct (nth (ref t) (c_hp c) []); [contradiction|reflexivity]. }
  destruct e; try discriminate N; injection N as ->; cbn [GraphModel.forward]; unfold gbind at 1; rewrite Q; unfold gbind at 1; eexists; (split; [reflexivity|exact E]).
Qed.

Lemma y_hold p c t : c_holders c p = Some t -> yields zero one add mul dbg (EHold p) c t c.
Proof.
  intros H k s E. exists s. split; [|exact E]. cbn [GraphModel.forward]. unfold hold_forward, gbind, get. replace (holders s p) with (Some t) by (subst c; symmetry; exact H). reflexivity.
Qed.
End Core.
