(** Proofs about composed models: the passes with named buffers are those of GraphModel.v when no buffers are shared. *)
From Coq Require Import List Arith Lia Bool PeanoNat.
From Verif Require Import ListBase TensorModel ArrayModel GraphModel GraphSpec ComposeModel ComposeSpec.
Import ListNotations.

Section Sim.
Context {A : Type} (zero one : A) (add mul : A -> A -> A) (opp : A -> A) (leb : A -> A -> bool) (eps : A).
Variable dbg : bool.
Variable buf : nat -> nat.
Variable L : list nat.
Hypothesis Hap : apart buf L.

Notation alike := (@ComposeSpec.alike A buf L).
Notation Alike := (@ComposeSpec.Alike A buf L).
Definition sim {T} (m m' : G (A:=A) T) : Prop := forall s s', alike s s' ->
  match m s, m' s' with
  | Ok (v, s1), Ok (v', s1') => v = v' /\ alike s1 s1'
  | Abort, Abort => True
  | UB, UB => True
  | _, _ => False
  end.

Lemma sim_ret {T} (v : T) : sim (gret v) (gret v).
Proof. intros s s' H. split; [reflexivity|exact H]. Qed.
Lemma sim_ub {T} : @sim T (fun _ => UB) (fun _ => UB).
Proof. intros s s' H. exact I. Qed.
Lemma sim_abort {T} : @sim T (fun _ => Abort) (fun _ => Abort).
Proof. intros s s' H. exact I. Qed.
Lemma sim_bind {S T} (m m' : G (A:=A) S) (f f' : S -> G (A:=A) T) : sim m m' -> (forall v, sim (f v) (f' v)) -> sim (gbind m f) (gbind m' f').
Proof.
  intros Hm Hf s s' H. unfold gbind. specialize (Hm s s' H). destruct (m s) as [[v s1]| |], (m' s') as [[v' s1']| |]; try contradiction; try exact I.
  destruct Hm as [<- H1]. exact (Hf v s1 s1' H1).
Qed.
Lemma sim_get {T} (f : st A -> T) : (forall s s', alike s s' -> f s = f s') -> sim (get f) (get f).
Proof. intros Hf s s' H. split; [exact (Hf s s' H)|exact H]. Qed.
Lemma sim_modify (f f' : st A -> st A) : (forall s s', alike s s' -> alike (f s) (f' s')) -> sim (modify f) (modify f').
Proof. intros Hf s s' H. split; [reflexivity|exact (Hf s s' H)]. Qed.
Lemma alike_hp s s' h : alike s s' -> alike (set_hp s h) (set_hp s' h).
Proof. intros [s0 o ob Ho Hb]. exact (Alike (set_hp s0 h) o ob Ho Hb). Qed.
Lemma sim_heaply {T} (m : M (A:=A) T) : sim (heaply m) (heaply m).
Proof.
  intros s s' H. assert (hp s' = hp s) as E by (destruct H; reflexivity). unfold heaply. rewrite E. destruct (m (hp s)) as [[v h]| |]; try exact I.
  split; [reflexivity|exact (alike_hp s s' h H)].
Qed.
Lemma sim_the {T} (o : option T) : sim (the (A:=A) o) (the o).
Proof. destruct o; [apply sim_ret|apply sim_ub]. Qed.
Lemma sim_hp : sim (get (@hp A)) (get (@hp A)).
Proof. apply sim_get. intros s s' []. reflexivity. Qed.

Lemma sim_query n : sim (query (A:=A) n) (query n).
Proof. intros s s' [s0 o ob Ho Hb]. split; [reflexivity|exact (Alike s0 o ob Ho Hb)]. Qed.
Lemma sim_update n t : sim (update (A:=A) n t) (update n t).
Proof. apply sim_modify. intros s s' [s0 o ob Ho Hb]. exact (Alike (set_cache s0 (fupd (cache s0) n (Some t))) o ob Ho Hb). Qed.
Lemma sim_objs (f : (slot -> obj) -> slot -> obj) :
  sim (modify (fun s : st A => set_objs s (f (objs s)))) (modify (fun s => set_objs s (f (objs s)))).
Proof. apply sim_modify. intros s s' [s0 o ob Ho Hb]. exact (Alike (set_objs s0 (f (objs s0))) o ob Ho Hb). Qed.
Lemma sim_in1 k t : sim (put_in1 (A:=A) k t) (put_in1 k t).
Proof. exact (sim_objs (fun ob => supd ob k (Obj t (in2 (ob k)) (out (ob k))))). Qed.
Lemma sim_in2 k t : sim (put_in2 (A:=A) k t) (put_in2 k t).
Proof. exact (sim_objs (fun ob => supd ob k (Obj (in1 (ob k)) t (out (ob k))))). Qed.
Lemma sim_out k t : sim (put_out (A:=A) k t) (put_out k t).
Proof. exact (sim_objs (fun ob => supd ob k (Obj (in1 (ob k)) (in2 (ob k)) t))). Qed.
Lemma sim_ran n : sim (modify (fun s : st A => set_ran s (n :: ran s))) (modify (fun s => set_ran s (n :: ran s))).
Proof. apply sim_modify. intros s s' [s0 o ob Ho Hb]. exact (Alike (set_ran s0 (n :: ran s0)) o ob Ho Hb). Qed.

Lemma sim_own n v : In n L -> sim (into_own (A:=A) (buf n) v) (into_own n v).
Proof.
  intros Hn s s' [s0 o ob Ho Hb]. unfold into_own. cbn [own set_ownb set_own hp]. rewrite (Ho n Hn).
  assert (forall t h, alike (set_own (set_hp s0 h) (fupd (own s0) (buf n) (Some t)))
            (set_own (set_hp (set_ownb (set_own s0 o) ob) h) (fupd o n (Some t)))) as G.
  { intros t h. refine (Alike (set_own (set_hp s0 h) (fupd (own s0) (buf n) (Some t))) (fupd o n (Some t)) ob _ _); cbn [own ownb set_own set_hp].
    - intros m Hm. unfold fupd. destruct (Nat.eqb_spec m n) as [->|Hne]; [rewrite Nat.eqb_refl; reflexivity|].
      destruct (Nat.eqb_spec (buf m) (buf n)) as [E|]; [destruct (Hne (Hap m n Hm Hn E))|]. exact (Ho m Hm).
    - exact Hb. }
  destruct (own s0 (buf n)) as [t|]; (split; [reflexivity|apply G]).
Qed.
Lemma sim_ownb n b v : In n L -> sim (into_ownb (A:=A) (buf n) b v) (into_ownb n b v).
Proof.
  intros Hn s s' [s0 o ob Ho Hb]. unfold into_ownb. cbn [ownb set_ownb set_own hp]. rewrite (Hb n b Hn).
  assert (forall t h, alike (set_ownb (set_hp s0 h) (fupd (ownb s0) (buf n) (fun b0 => if Bool.eqb b0 b then Some t else ownb s0 (buf n) b0)))
            (set_ownb (set_hp (set_ownb (set_own s0 o) ob) h) (fupd ob n (fun b0 => if Bool.eqb b0 b then Some t else ob n b0)))) as G.
  { intros t h. refine (Alike (set_ownb (set_hp s0 h) (fupd (ownb s0) (buf n) (fun b0 => if Bool.eqb b0 b then Some t else ownb s0 (buf n) b0))) o
      (fupd ob n (fun b0 => if Bool.eqb b0 b then Some t else ob n b0)) _ _); cbn [own ownb set_own set_ownb set_hp].
    - exact Ho.
    - intros m c Hm. unfold fupd. destruct (Nat.eqb_spec m n) as [->|Hne].
      + rewrite Nat.eqb_refl. destruct (Bool.eqb c b); [reflexivity|exact (Hb n c Hn)].
      + destruct (Nat.eqb_spec (buf m) (buf n)) as [E|]; [destruct (Hne (Hap m n Hm Hn E))|]. exact (Hb m c Hm). }
  destruct (ownb s0 (buf n) b) as [t|]; (split; [reflexivity|apply G]).
Qed.

Lemma sim_un n o i : In n L -> sim (un_forward (A:=A) (buf n) o i) (un_forward n o i).
Proof.
  intros Hn. destruct o as [ow f m b|f]; cbn [un_forward].
  - apply sim_bind; [apply sim_hp|]. intros h. apply sim_bind; [apply sim_the|]. intros v. destruct ow; [apply sim_own, Hn|apply sim_heaply].
  - apply sim_bind; [apply sim_the|]. intros v. apply sim_ret.
Qed.
Lemma sim_bin n o l r : In n L -> sim (bin_forward zero add dbg (buf n) o l r) (bin_forward zero add dbg n o l r).
Proof.
  intros Hn. destruct o as [|ow f bo b]; cbn [bin_forward]; [apply sim_heaply|].
  apply sim_bind; [apply sim_hp|]. intros h. apply sim_bind; [apply sim_the|]. intros v. destruct ow; [apply sim_own, Hn|apply sim_heaply].
Qed.
Lemma sim_var k v : sim (var_forward zero k v) (var_forward zero k v).
Proof.
  unfold var_forward. apply sim_bind; [apply sim_get; intros s s' []; reflexivity|]. intros tr.
  apply sim_bind; [apply sim_get; intros s s' []; reflexivity|]. intros vs. destruct tr; [|apply sim_ret].
  apply sim_bind; [apply sim_heaply|]. intros _. apply sim_bind; [|intros _; apply sim_ret]. apply sim_modify.
  intros s s' [s0 o ob Ho Hb].
  exact (Alike (set_vobjs s0 (supd (vobjs s0) k (VObj false (trainable (vobjs s0 k)) (l1 (vobjs s0 k)) (l2 (vobjs s0 k))))) o ob Ho Hb).
Qed.
Lemma sim_hold p : sim (hold_forward (A:=A) dbg p) (hold_forward dbg p).
Proof.
  unfold hold_forward. apply sim_bind; [apply sim_get; intros s s' []; reflexivity|]. intros [t|]; [apply sim_ret|].
  destruct dbg; [apply sim_abort|apply sim_heaply].
Qed.

Lemma sim_forward e : forall k, incl (ids e) L -> sim (forward_in zero one add mul dbg buf k e) (forward zero one add mul dbg k e).
Proof.
  induction e as [v|p|t|c|n o x IH|n o l IHl r IHr]; intros k Hi; cbn [forward_in forward ids] in *.
  - apply sim_var.
  - apply sim_hold.
  - apply sim_ret.
  - apply sim_ub.
  - assert (In n L) as Hn by (apply Hi; left; reflexivity).
    apply sim_bind; [apply sim_query|]. intros q. apply sim_bind; [apply sim_out|]. intros _. destruct q as [t|]; [apply sim_ret|].
    apply sim_bind; [apply IH; intros i Hin; apply Hi; right; exact Hin|]. intros i. apply sim_bind; [apply sim_in1|]. intros _.
    apply sim_bind; [apply sim_un, Hn|]. intros t. apply sim_bind; [apply sim_out|]. intros _. apply sim_bind; [apply sim_update|]. intros _.
    apply sim_bind; [apply sim_ran|]. intros _. apply sim_ret.
  - assert (In n L) as Hn by (apply Hi; left; reflexivity).
    assert (incl (ids l) L) as Hl by (intros i Hin; apply Hi; right; apply in_or_app; left; exact Hin).
    assert (incl (ids r) L) as Hr by (intros i Hin; apply Hi; right; apply in_or_app; right; exact Hin).
    specialize (fun k => IHl k Hl). specialize (fun k => IHr k Hr).
    apply sim_bind; [apply sim_query|]. intros q. apply sim_bind; [apply sim_out|]. intros _. destruct q as [t|]; [apply sim_ret|].
    apply sim_bind.
    + assert (forall (m m' : G tensor) c, sim m m' -> sim
        (gbind m (fun rt => gbind (put_in2 k (Some rt)) (fun _ => gbind (value_forward one mul c rt) (fun lt => gbind (put_in1 k (Some lt)) (fun _ => gret (lt, rt))))))
        (gbind m' (fun rt => gbind (put_in2 k (Some rt)) (fun _ => gbind (value_forward one mul c rt) (fun lt => gbind (put_in1 k (Some lt)) (fun _ => gret (lt, rt))))))) as V1.
      { intros m m' c Hm. apply sim_bind; [exact Hm|]. intros rt. apply sim_bind; [apply sim_in2|]. intros _. apply sim_bind; [apply sim_heaply|].
        intros lt. apply sim_bind; [apply sim_in1|]. intros _. apply sim_ret. }
      assert (forall (m m' : G tensor) c, sim m m' -> sim
        (gbind m (fun lt => gbind (put_in1 k (Some lt)) (fun _ => gbind (value_forward one mul c lt) (fun rt => gbind (put_in2 k (Some rt)) (fun _ => gret (lt, rt))))))
        (gbind m' (fun lt => gbind (put_in1 k (Some lt)) (fun _ => gbind (value_forward one mul c lt) (fun rt => gbind (put_in2 k (Some rt)) (fun _ => gret (lt, rt))))))) as V2.
      { intros m m' c Hm. apply sim_bind; [exact Hm|]. intros rt. apply sim_bind; [apply sim_in1|]. intros _. apply sim_bind; [apply sim_heaply|].
        intros lt. apply sim_bind; [apply sim_in2|]. intros _. apply sim_ret. }
      assert (forall (m m' p p' : G tensor), sim m m' -> sim p p' -> sim
        (gbind m (fun lt => gbind (put_in1 k (Some lt)) (fun _ => gbind p (fun rt => gbind (put_in2 k (Some rt)) (fun _ => gret (lt, rt))))))
        (gbind m' (fun lt => gbind (put_in1 k (Some lt)) (fun _ => gbind p' (fun rt => gbind (put_in2 k (Some rt)) (fun _ => gret (lt, rt))))))) as V3.
      { intros m m' p p' Hm Hp. apply sim_bind; [exact Hm|]. intros rt. apply sim_bind; [apply sim_in1|]. intros _. apply sim_bind; [exact Hp|].
        intros lt. apply sim_bind; [apply sim_in2|]. intros _. apply sim_ret. }
      specialize (IHl (Some (n, false))). specialize (IHr (Some (n, true))).
      destruct l; try (apply V1; exact IHr);
        destruct r; try (apply V2; exact IHl); (apply V3; [exact IHl|exact IHr]).
    + intros lr. apply sim_bind; [apply sim_bin, Hn|]. intros t. apply sim_bind; [apply sim_out|]. intros _. apply sim_bind; [apply sim_update|].
      intros _. apply sim_bind; [apply sim_ran|]. intros _. apply sim_ret.
Qed.

Lemma sim_run e : incl (ids e) L -> sim (run_in zero one add mul dbg buf e) (run zero one add mul dbg e).
Proof.
  intros Hi. unfold run_in, run. apply sim_bind; [|intros _; apply sim_forward, Hi]. apply sim_modify. intros s s' [s0 o ob Ho Hb].
  exact (Alike (set_ran (set_cache s0 (fun _ => None)) []) o ob Ho Hb).
Qed.

Lemma sim_vback k v g : sim (var_backward zero one add mul opp leb eps dbg k v g) (var_backward zero one add mul opp leb eps dbg k v g).
Proof.
  unfold var_backward. apply sim_bind; [apply sim_get; intros s s' []; reflexivity|]. intros o. destruct (negb (trainable o)); [apply sim_ret|].
  apply sim_bind; [apply sim_get; intros s s' []; reflexivity|]. intros vs. apply sim_bind.
  { destruct (list_eqb _ _); [apply sim_ret|apply sim_heaply]. }
  intros gt. apply sim_bind.
  { apply sim_modify. intros s s' [s0 o' ob Ho Hb]. exact (Alike (set_vars s0 (fupd (vars s0) v (VState (vdata vs) gt))) o' ob Ho Hb). }
  intros _. apply sim_bind; [apply sim_heaply|]. intros _. destruct (synced o); [apply sim_ret|].
  apply sim_bind; [apply sim_hp|]. intros h. apply sim_bind; [apply sim_heaply|]. intros _. apply sim_modify. intros s s' [s0 o' ob Ho Hb].
  exact (Alike (set_vobjs s0 (supd (vobjs s0) k (VObj true (trainable o) (l1 o) (l2 o)))) o' ob Ho Hb).
Qed.
Lemma sim_unback n o i y g : In n L -> sim (un_backward (A:=A) (buf n) o i y g) (un_backward n o i y g).
Proof.
  intros Hn. unfold un_backward. apply sim_bind; [apply sim_hp|]. intros h. destruct o as [ow f m b|f]; [|apply sim_ret].
  apply sim_bind; [apply sim_the|]. intros v. destruct m; [apply sim_heaply|apply sim_ownb, Hn|].
  apply sim_bind; [apply sim_heaply|]. intros _. apply sim_ret.
Qed.
Lemma sim_binback n o i j y g : In n L -> sim (bin_backward zero add dbg (buf n) o i j y g) (bin_backward zero add dbg n o i j y g).
Proof.
  intros Hn. unfold bin_backward. apply sim_bind; [apply sim_hp|]. intros h. destruct o as [|ow f bo b].
  - apply sim_bind; [apply sim_the|]. intros gl. apply sim_bind; [apply sim_heaply|]. intros tl. apply sim_bind; [apply sim_the|]. intros gr.
    apply sim_bind; [apply sim_heaply|]. intros tr. apply sim_ret.
  - apply sim_bind; [apply sim_the|]. intros p. destruct bo.
    + apply sim_bind; [apply sim_ownb, Hn|]. intros tl. apply sim_bind; [apply sim_ownb, Hn|]. intros tr. apply sim_ret.
    + apply sim_bind; [apply sim_heaply|]. intros tl. apply sim_bind; [apply sim_heaply|]. intros tr. apply sim_ret.
Qed.
Lemma sim_backward e : forall k g, incl (ids e) L ->
  sim (backward_in zero one add mul opp leb eps dbg buf k e g) (backward zero one add mul opp leb eps dbg k e g).
Proof.
  induction e as [v|p|t|c|n o x IH|n o l IHl r IHr]; intros k g Hi; cbn [backward_in backward ids] in *; try apply sim_ret.
  - apply sim_vback.
  - assert (In n L) as Hn by (apply Hi; left; reflexivity).
    apply sim_bind; [apply sim_get; intros s s' []; reflexivity|]. intros b. apply sim_bind; [apply sim_unback, Hn|]. intros g1.
    apply IH. intros i Hin. apply Hi. right. exact Hin.
  - assert (In n L) as Hn by (apply Hi; left; reflexivity).
    apply sim_bind; [apply sim_get; intros s s' []; reflexivity|]. intros b. apply sim_bind; [apply sim_binback, Hn|]. intros gs.
    apply sim_bind; [apply IHl|intros _; apply IHr]; intros i Hin; apply Hi; right; apply in_or_app; auto.
Qed.

Lemma in_existsb n : In n L -> existsb (Nat.eqb n) L = true.
Proof. intros H. apply existsb_exists. exists n. split; [exact H|apply Nat.eqb_refl]. Qed.

Lemma alike_named s : alike s (named buf L s).
Proof. apply Alike; intros n; [|intros b]; intros Hn; rewrite (in_existsb n Hn); reflexivity. Qed.
End Sim.
