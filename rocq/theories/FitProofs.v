(** Lemmas about the training loops. *)
From Coq Require Import List Arith ZArith Bool PeanoNat Reals Lia Lra.
From Verif Require Import ListBase TensorModel FitModel FitSpec.
Import ListNotations.
Local Open Scope nat_scope.

Section Fit.
Context {E W : Type} (zero : E) (loss : W -> Z -> (list E * list E) -> R * (W * (list E * list E)))
        (optimise : W -> Z -> (list E * list E) -> W * (list E * list E)).
Hypothesis Hk : keeps_sizes loss optimise.

Definition lesson (x y : list E) nx ny training l := (group nx l x, group ny l y, l <=? training).

Lemma copy_group : forall (x : list E) n l dst, l * n + n <= length x -> length dst = n ->
  copy_n x (l * n) n dst = Ok (group n l x).
Proof.
  intros x n l dst H Hd. unfold copy_n. destruct (Nat.leb_spec (l * n + n) (length x)) as [_|]; [|lia].
  destruct (Nat.leb_spec n (length dst)) as [_|]; [|lia]. cbn [andb]. rewrite (skipn_all2 dst) by lia. rewrite app_nil_r. reflexivity.
Qed.

Lemma group_length : forall (x : list E) n l, l * n + n <= length x -> length (group n l x) = n.
Proof. intros x n l H. unfold group. rewrite firstn_length, skipn_length. lia. Qed.

Lemma fed : forall x y nx ny l s, l * nx + nx <= length (snd x) -> l * ny + ny <= length (snd y) ->
  length (fst (bufs s)) = nx -> length (snd (bufs s)) = ny ->
  feed x y nx ny l s = Ok (State (E := E) (W := W) (world s) (phase s) (group nx l (snd x), group ny l (snd y))).
Proof. intros. unfold feed. rewrite !copy_group by assumption. reflexivity. Qed.

Lemma epoch_ok : forall x y nx ny training todo l te ve s, (l + todo) * nx <= length (snd x) -> (l + todo) * ny <= length (snd y) ->
  length (fst (bufs s)) = nx -> length (snd (bufs s)) = ny ->
  exists s' : @state E W, epoch_loop loss optimise x y nx ny training l todo te ve s =
    (let '(tes, ves, w) := course loss optimise (phase s) (map (lesson (snd x) (snd y) nx ny training) (seq l todo)) (world s) in
     Ok (fold_left Rplus tes te, fold_left Rplus ves ve, State w (phase s) (bufs s'))) /\
    length (fst (bufs s')) = nx /\ length (snd (bufs s')) = ny.
Proof.
  intros x y nx ny training. induction todo as [|todo IH]; intros l te ve s Hx Hy H1 H2; cbn [epoch_loop seq map].
  - exists s. cbn [course fold_left]. destruct s; cbn in *. split; [reflexivity|]. split; assumption.
  - rewrite fed by (try assumption; nia). cbn [course lesson]. unfold run_loss. cbn [world phase bufs].
    set (b := (group nx l (snd x), group ny l (snd y))).
    assert (length (fst b) = nx /\ length (snd b) = ny) as [B1 B2] by (subst b; cbn [fst snd]; split; apply group_length; nia).
    destruct Hk as [Hl Ho]. specialize (Hl (world s) (phase s) b). cbn zeta in Hl.
    destruct (loss (world s) (phase s) b) as [e [w1 b1]] eqn:El. cbn [fst snd] in *. destruct Hl as [L1 L2].
    destruct (l <=? training).
    + unfold run_optimiser. cbn [world phase bufs]. specialize (Ho w1 (phase s) b1). cbn zeta in Ho. destruct Ho as [O1 O2].
      destruct (IH (S l) (te + e)%R ve (State (fst (optimise w1 (phase s) b1)) (phase s) (snd (optimise w1 (phase s) b1)))) as (s' & Es & S1 & S2);
        [cbn [plus] in *; nia|nia|cbn [bufs]; congruence|cbn [bufs]; congruence|].
      exists s'. split; [|split; assumption]. rewrite Es. cbn [phase world].
      destruct (course loss optimise (phase s) (map (lesson (snd x) (snd y) nx ny training) (seq (S l) todo)) (fst (optimise w1 (phase s) b1))) as [[tes ves] w'].
      reflexivity.
    + destruct (IH (S l) te (ve + e)%R (State w1 (phase s) b1)) as (s' & Es & S1 & S2);
        [cbn [plus] in *; nia|nia|cbn [bufs]; congruence|cbn [bufs]; congruence|].
      exists s'. split; [|split; assumption]. rewrite Es. cbn [phase world].
      destruct (course loss optimise (phase s) (map (lesson (snd x) (snd y) nx ny training) (seq (S l) todo)) w1) as [[tes ves] w'].
      reflexivity.
Qed.

Lemma fold_total : forall l a, fold_left Rplus l a = (a + total l)%R.
Proof. induction l as [|x l IH]; intros a; cbn [fold_left total fold_right]; [lra|]. rewrite IH. unfold total. lra. Qed.

Lemma epochs_ok : forall x y nx ny loops training n s, loops * nx <= length (snd x) -> loops * ny <= length (snd y) ->
  length (fst (bufs s)) = nx -> length (snd (bufs s)) = ny ->
  exists s' : @state E W, epochs loss optimise x y nx ny loops training n s =
    (let '(es, w) := courses loss optimise (phase s) (map (lesson (snd x) (snd y) nx ny training) (seq 0 loops)) n (world s) in
     Ok (map (fun e => quotient (total (fst e)) training) es, map (fun e => quotient (total (snd e)) (loops - training)) es,
         State w (phase s) (bufs s'))).
Proof.
  intros x y nx ny loops training. induction n as [|n IH]; intros s Hx Hy H1 H2; cbn [epochs courses].
  - exists s. cbn [map]. destruct s; reflexivity.
  - destruct (epoch_ok x y nx ny training loops 0 0%R 0%R s Hx Hy H1 H2) as (s1 & E1 & S1 & S2). rewrite E1.
    destruct (course loss optimise (phase s) (map (lesson (snd x) (snd y) nx ny training) (seq 0 loops)) (world s)) as [[tes ves] w1].
    destruct (IH (State w1 (phase s) (bufs s1)) Hx Hy S1 S2) as (s2 & E2). exists s2. rewrite E2. cbn [phase world].
    destruct (courses loss optimise (phase s) (map (lesson (snd x) (snd y) nx ny training) (seq 0 loops)) n w1) as [es w2].
    cbn [map fst snd]. rewrite !fold_total, !Rplus_0_l. reflexivity.
Qed.

Lemma evaluate_ok : forall x y nx ny todo l ve s, (l + todo) * nx <= length (snd x) -> (l + todo) * ny <= length (snd y) ->
  length (fst (bufs s)) = nx -> length (snd (bufs s)) = ny ->
  exists s' : @state E W, evaluate_loop loss x y nx ny l todo ve s =
    (let '(_, ves, w) := course loss optimise (phase s)
                            (map (fun l => (group nx l (snd x), group ny l (snd y), false)) (seq l todo)) (world s) in
     Ok (fold_left Rplus ves ve, State w (phase s) (bufs s'))).
Proof.
  intros x y nx ny. induction todo as [|todo IH]; intros l ve s Hx Hy H1 H2; cbn [evaluate_loop seq map].
  - exists s. cbn [course fold_left]. destruct s; reflexivity.
  - rewrite fed by (try assumption; nia). cbn [course]. unfold run_loss. cbn [world phase bufs].
    set (b := (group nx l (snd x), group ny l (snd y))).
    assert (length (fst b) = nx /\ length (snd b) = ny) as [B1 B2] by (subst b; cbn [fst snd]; split; apply group_length; nia).
    destruct Hk as [Hl Ho]. specialize (Hl (world s) (phase s) b). cbn zeta in Hl.
    destruct (loss (world s) (phase s) b) as [e [w1 b1]] eqn:El. cbn [fst snd] in *. destruct Hl as [L1 L2].
    destruct (IH (S l) (ve + e)%R (State w1 (phase s) b1)) as (s' & Es); [nia|nia|cbn [bufs]; congruence|cbn [bufs]; congruence|].
    exists s'. rewrite Es. cbn [phase world].
    destruct (course loss optimise (phase s) (map (fun l => (group nx l (snd x), group ny l (snd y), false)) (seq (S l) todo)) w1) as [[tes ves] w'].
    reflexivity.
Qed.

(** too few targets: the loop reads past their end *)
Lemma epoch_short : forall x y nx ny training todo l te ve s, (l + todo) * nx <= length (snd x) -> length (snd y) < (l + todo) * ny ->
  l * ny <= length (snd y) -> length (fst (bufs s)) = nx -> length (snd (bufs s)) = ny ->
  epoch_loop loss optimise x y nx ny training l todo te ve s = UB.
Proof.
  intros x y nx ny training. induction todo as [|todo IH]; intros l te ve s Hx Hy Hl' H1 H2; cbn [epoch_loop]; [lia|].
  destruct (le_lt_dec (l * ny + ny) (length (snd y))) as [Hok|Hshort].
  - rewrite fed by (try assumption; nia). unfold run_loss. cbn [world phase bufs].
    set (b := (group nx l (snd x), group ny l (snd y))).
    assert (length (fst b) = nx /\ length (snd b) = ny) as [B1 B2] by (subst b; cbn [fst snd]; split; apply group_length; nia).
    destruct Hk as [Hl Ho]. specialize (Hl (world s) (phase s) b). cbn zeta in Hl.
    destruct (loss (world s) (phase s) b) as [e [w1 b1]] eqn:El. cbn [fst snd] in *. destruct Hl as [L1 L2].
    destruct (l <=? training); apply IH; try nia.
    + unfold run_optimiser. cbn [world phase bufs]. specialize (Ho w1 (phase s) b1). cbn zeta in Ho. destruct Ho as [O1 _]. congruence.
    + unfold run_optimiser. cbn [world phase bufs]. specialize (Ho w1 (phase s) b1). cbn zeta in Ho. destruct Ho as [_ O2]. congruence.
    + cbn [bufs]. congruence.
    + cbn [bufs]. congruence.
  - unfold feed. rewrite copy_group by (try assumption; nia). unfold copy_n.
    destruct (Nat.leb_spec (l * ny + ny) (length (snd y))) as [|_]; [lia|]. reflexivity.
Qed.

Lemma lessons_eq : forall (x y : list nat * list E) b loops training,
  lessons x y b loops (S training) =
  map (lesson (snd x) (snd y) (b * per_sample (fst x)) (b * per_sample (fst y)) training) (seq 0 loops).
Proof. intros. unfold lessons, lesson. apply map_ext. intros l. reflexivity. Qed.

(** how many are trained on *)
Lemma course_counts : forall ph bs w, let '(te, ve, _) := course loss optimise ph bs w in
  length te = length (filter snd bs) /\ length ve = length (filter (fun b => negb (snd b)) bs).
Proof.
  induction bs as [|[b t] bs IH]; intros w; cbn [course]; [split; reflexivity|].
  destruct (loss w ph b) as [e wb]. destruct t; cbn [filter snd negb].
  - specialize (IH (fst (optimise (fst wb) ph (snd wb)))). destruct (course loss optimise ph bs _) as [[te ve] w']. cbn [length]. destruct IH; split; congruence.
  - specialize (IH (fst wb)). destruct (course loss optimise ph bs (fst wb)) as [[te ve] w']. cbn [length]. destruct IH; split; congruence.
Qed.

End Fit.

Lemma lessons_trained : forall {E} (x y : list nat * list E) b loops trained,
  filter snd (lessons x y b loops trained) = firstn trained (lessons x y b loops trained).
Proof.
  intros E x y b loops trained. unfold lessons.
  match goal with |- filter _ (map ?F _) = _ => set (f := F) end.
  assert (forall l, filter snd (map f (seq l loops)) = firstn (trained - l) (map f (seq l loops))) as G.
  { induction loops as [|loops IH]; intros l; cbn [seq map]; [now rewrite firstn_nil|].
    cbn [filter]. replace (snd (f l)) with (l <? trained) by reflexivity. destruct (Nat.ltb_spec l trained) as [H|H].
    - replace (trained - l) with (S (trained - S l)) by lia. cbn [firstn]. f_equal. apply IH.
    - rewrite IH. replace (trained - S l) with 0 by lia. replace (trained - l) with 0 by lia. reflexivity. }
  rewrite (G 0), Nat.sub_0_r. reflexivity.
Qed.
