(** Proofs about sliding_2d. *)
From Coq Require Import List Arith Lia Bool PeanoNat ZArith Reals.
From Verif Require Import ListBase Loops TensorModel TensorProofs ArrayModel ArrayProofs LayerModel LayerSpec LayerProofs LayerProofs2 SlideModel SlideSpec.
Import ListNotations.
Local Open Scope nat_scope.

Lemma moved_back_some n y d v : moved_back n y d = Some v <-> v < n /\ Z.of_nat y = (Z.of_nat v + d)%Z.
Proof.
  unfold moved_back. destruct ((0 <=? Z.of_nat y - d) && (Z.of_nat y - d <? Z.of_nat n))%Z eqn:E.
  - apply andb_true_iff in E. rewrite Z.leb_le, Z.ltb_lt in E. split.
    + intros [= <-]. lia.
    + intros [H1 H2]. f_equal. lia.
  - split; [ discriminate | ]. intros [H1 H2]. apply andb_false_iff in E. rewrite Z.leb_gt, Z.ltb_ge in E. lia.
Qed.

Section S.
Context {A : Type} (zero : A).

Lemma slide_writes_in n r c k sgn sh (d : list A) wr : In wr (slide_writes zero n r c k sgn sh d) <->
  exists i w y z y' z', i < n /\ w < k /\ y < r /\ z < c /\
    moved_back r y (sgn * fst (nth w sh (0, 0)%Z)) = Some y' /\ moved_back c z (sgn * snd (nth w sh (0, 0)%Z)) = Some z' /\
    wr = (pos4 r c k i y z w, nth (pos4 r c k i y' z' w) d zero).
Proof.
  unfold slide_writes. rewrite in_concat. split.
  - intros (l & Hl & Hw). apply in_loop4 in Hl. destruct Hl as (i & w & y & z & Hi & Hk & Hy & Hz & ->). cbv zeta in Hw.
    destruct (moved_back r y _) as [y'|] eqn:E1; [|destruct Hw]. destruct (moved_back c z _) as [z'|] eqn:E2; [|destruct Hw].
    destruct Hw as [<-|[]]. exists i, w, y, z, y', z'. auto 10.
  - intros (i & w & y & z & y' & z' & Hi & Hk & Hy & Hz & E1 & E2 & ->). eexists. split.
    + apply in_loop4. exists i, w, y, z. split; [assumption|]. split; [assumption|]. split; [assumption|]. split; [assumption|]. reflexivity.
    + cbv zeta. rewrite E1, E2. now left.
Qed.

Lemma slide_fill n r c k sgn sh (d : list A) : length d = prod [n; r; c; k] ->
  exists e, fill (repeat zero (prod [n; r; c; k])) [n; r; c; k] (slide_writes zero n r c k sgn sh d) = Ok (e, Arr [n; r; c; k] e) /\
    length e = prod [n; r; c; k] /\
    forall i y z w, i < n -> y < r -> z < c -> w < k ->
      nth_error e (pos4 r c k i y z w)
      = match moved_back r y (sgn * fst (nth w sh (0, 0)%Z)), moved_back c z (sgn * snd (nth w sh (0, 0)%Z)) with
        | Some y', Some z' => nth_error d (pos4 r c k i y' z' w)
        | _, _ => Some zero
        end.
Proof.
  intros L. eexists. split; [ | split ].
  - apply fill_ok. intros wr H. apply slide_writes_in in H. destruct H as (i & w & y & z & y' & z' & Hi & Hk & Hy & Hz & _ & _ & ->).
    cbn [fst]. rewrite repeat_length. now apply pos4_lt.
  - now rewrite writes_length, repeat_length.
  - intros i y z w Hi Hy Hz Hw.
    assert (P : pos4 r c k i y z w < prod [n; r; c; k]) by now apply pos4_lt.
    assert (Q : forall wr, In wr (slide_writes zero n r c k sgn sh d) -> fst wr = pos4 r c k i y z w ->
      exists y' z', moved_back r y (sgn * fst (nth w sh (0, 0)%Z)) = Some y' /\ moved_back c z (sgn * snd (nth w sh (0, 0)%Z)) = Some z' /\
        snd wr = nth (pos4 r c k i y' z' w) d zero).
    { intros wr H E. apply slide_writes_in in H. destruct H as (i1 & w1 & y1 & z1 & y' & z' & Hi1 & Hk1 & Hy1 & Hz1 & E1 & E2 & ->).
      cbn [fst snd] in *. apply (pos4_inj n) in E; try assumption. destruct E as (-> & -> & -> & ->). eauto. }
    destruct (moved_back r y _) as [y'|] eqn:E1.
    + destruct (moved_back c z _) as [z'|] eqn:E2.
      * assert (y' < r) by (apply moved_back_some in E1; lia). assert (z' < c) by (apply moved_back_some in E2; lia).
        rewrite (nth_error_of_nth zero d) by (rewrite L; now apply pos4_lt).
        apply writes_at; [ now rewrite repeat_length | | ].
        -- apply slide_writes_in. exists i, w, y, z, y', z'. auto 10.
        -- intros wr H3 E. destruct (Q wr H3 E) as (y1 & z1 & F1 & F2 & ->). congruence.
      * rewrite writes_other; [ now apply nth_error_repeat_lt | ]. intros wr H E. destruct (Q wr H E) as (y1 & z1 & F1 & F2 & _). congruence.
    + rewrite writes_other; [ now apply nth_error_repeat_lt | ]. intros wr H E. destruct (Q wr H E) as (y1 & z1 & F1 & F2 & _). congruence.
Qed.

Variable dbg : bool.

Lemma nth_drawn draws k w : w < k -> nth w (drawn draws k) (0, 0)%Z = (rows draws w, cols draws w).
Proof. intros. unfold drawn. now rewrite nth_tab. Qed.

(** the cache of padding is empty or has a border of zeros *)
Definition clean (p n r c k : nat) (cache : list A) : Prop :=
  forall i Y Z w, i < n -> Y < p + r + p -> Z < p + c + p -> w < k -> inside p p r c Y Z = false ->
    nth_error (resized zero cache (prod [n; p + r + p; p + c + p; k])) (pos4 (p + r + p) (p + c + p) k i Y Z w) = Some zero.

Lemma clean_nil p n r c k : clean p n r c k [].
Proof. intros i Y Z w Hi HY HZ Hw _. rewrite resized_nil. apply nth_error_repeat_lt. now apply pos4_lt. Qed.

(** one forward pass *)
Lemma sliding_step p learning draws s (x : arr A) n r c k :
  wf x -> ashape x = [n; r; c; k] -> r <> 0 -> c <> 0 -> within p draws -> clean p n r c k (pad_cache s) ->
  exists s' y, sliding_fwd zero dbg p learning draws s x = Ok (s', y) /\ clean p n r c k (pad_cache s') /\
    shifts s' = (if learning then drawn draws k else shifts s) /\ pad_in s' = x /\ ashape (crop_in s') = [n; p + r + p; p + c + p; k] /\
    (if learning then slid zero (rows draws) (cols draws) x y else y = x).
Proof.
  intros W E Hr Hc Hd Hcl. set (R := p + r + p). set (C := p + c + p).
  destruct (pad_fwd_ok zero dbg p p p p (pad_cache s) x n r c k W E) as (d1 & E1 & L1 & V1). cbv zeta in *. fold R C in E1, L1, V1.
  unfold sliding_fwd. rewrite E1. cbn [obind snd fst].
  assert (Cl : clean p n r c k d1).
  { intros i Y Z w Hi HY HZ Hw Hin. rewrite resized_same by exact L1. fold R C. rewrite V1 by assumption. rewrite Hin. now apply Hcl. }
  assert (Pad : forall i v z w, i < n -> v < R -> z < C -> w < k -> nth_error d1 (pos4 R C k i v z w) =
      if inside p p r c v z then nth_error (adata x) (pos4 r c k i (v - p) (z - p) w) else Some zero).
  { intros i v z w Hi Hv Hz Hw. rewrite V1 by assumption. destruct (inside p p r c v z) eqn:Ei; [reflexivity|]. now apply Hcl. }
  destruct learning; cbn [slide_fwd ashape adata].
  - rewrite L1, Nat.leb_refl.
    destruct (slide_fill n R C k 1 (drawn draws k) d1 L1) as (d2 & E2 & L2 & V2). rewrite E2. cbn [obind snd fst].
    destruct (crop_fwd_ok zero dbg p p p p (crop_cache s) (Arr [n; R; C; k] d2) n r c k) as (d3 & E3 & L3 & V3);
      [ exact L2 | reflexivity | assumption | assumption | ]. cbv zeta in *. fold R C in V3. cbn [adata] in V3. rewrite E3. cbn [obind snd fst].
    eexists. eexists. split; [reflexivity|]. cbn [pad_cache shifts pad_in crop_in ashape].
    split; [assumption|]. split; [reflexivity|]. split; [reflexivity|]. split; [reflexivity|].
    exists n, r, c, k. split; [assumption|]. split; [reflexivity|]. split; [exact L3|].
    intros i v z w Hi Hv Hz Hw. rewrite at4. rewrite V3 by assumption. rewrite V2 by (unfold R, C; lia).
    rewrite nth_drawn by assumption. cbn [fst snd]. rewrite !Z.mul_1_l.
    pose proof (Hd (2 * w)) as D1. pose proof (Hd (2 * w + 1)) as D2. fold (rows draws w) in D1. fold (cols draws w) in D2.
    assert (X1 : moved_back R (p + v) (rows draws w) = Some (Z.to_nat (Z.of_nat (p + v) - rows draws w))) by (apply moved_back_some; unfold R; lia).
    assert (X2 : moved_back C (p + z) (cols draws w) = Some (Z.to_nat (Z.of_nat (p + z) - cols draws w))) by (apply moved_back_some; unfold C; lia).
    rewrite X1, X2. rewrite Pad by (unfold R, C; lia). destruct x as [sx dx]. cbn [ashape adata] in *. subst sx. split.
    + intros v' z' Hv' Hz' Ev Ez. rewrite at4. rewrite (proj2 (inside_spec _ _ _ _ _ _)) by lia. do 2 f_equal; lia.
    + intros Hno. destruct (inside p p r c _ _) eqn:Ei; [|reflexivity]. apply inside_spec in Ei. exfalso. apply Hno.
      exists (Z.to_nat (Z.of_nat (p + v) - rows draws w) - p), (Z.to_nat (Z.of_nat (p + z) - cols draws w) - p). lia.
  - destruct (crop_fwd_ok zero dbg p p p p (crop_cache s) (Arr [n; R; C; k] d1) n r c k) as (d3 & E3 & L3 & V3);
      [ exact L1 | reflexivity | assumption | assumption | ]. cbv zeta in *. fold R C in V3. cbn [adata] in V3. cbn [obind snd fst]. rewrite E3. cbn [obind snd fst].
    eexists. eexists. split; [reflexivity|]. cbn [pad_cache shifts pad_in crop_in ashape].
    split; [assumption|]. split; [reflexivity|]. split; [reflexivity|]. split; [reflexivity|].
    destruct x as [sx dx]. cbn [ashape adata] in *. subst sx. f_equal.
    unfold wf in W. cbn [ashape adata] in W. apply list_eq_nth; [congruence|]. intros q Hq. rewrite L3 in Hq.
    destruct (pos4_surj _ _ _ _ _ Hq) as (i & v & z & w & Hi & Hv & Hz & Hw & ->).
    rewrite V3 by assumption. rewrite Pad by (unfold R, C; lia). rewrite (proj2 (inside_spec _ _ _ _ _ _)) by lia. do 2 f_equal; lia.
Qed.

Definition fits (p n r c k : nat) (t : bool * (nat -> Z) * arr A) : Prop :=
  wf (snd t) /\ ashape (snd t) = [n; r; c; k] /\ within p (snd (fst t)).

Lemma slidings_ok p n r c k h : r <> 0 -> c <> 0 -> Forall (fits p n r c k) h ->
  forall s, clean p n r c k (pad_cache s) ->
  exists s' ys, slidings zero dbg p s h = Ok (s', ys) /\
    Forall2 (fun (t : bool * (nat -> Z) * arr A) y => if fst (fst t) then slid zero (rows (snd (fst t))) (cols (snd (fst t))) (snd t) y else y = snd t) h ys /\
    shifts s' = (match last_draws h with Some d => drawn d k | None => shifts s end) /\
    (h <> [] -> ashape (pad_in s') = [n; r; c; k] /\ ashape (crop_in s') = [n; p + r + p; p + c + p; k]).
Proof.
  intros Hr Hc F. induction F as [ | ((learning, draws), x) h (W & E & D) F IH ]; intros s Cl; cbn [slidings last_draws].
  - exists s, []. split; [reflexivity|]. split; [constructor|]. split; [reflexivity|]. intros []. reflexivity.
  - cbn [fst snd] in *.
    destruct (sliding_step p learning draws s x n r c k W E Hr Hc D Cl) as (s1 & y & E1 & C1 & S1 & P1 & K1 & V1).
    rewrite E1. cbn [obind fst snd]. destruct (IH s1 C1) as (s2 & ys & E2 & V2 & S2 & K2). rewrite E2. cbn [obind fst snd].
    exists s2, (y :: ys). split; [reflexivity|]. split; [ | split ].
    + constructor; [ exact V1 | exact V2 ].
    + rewrite S2, S1. destruct (last_draws h); [ reflexivity | destruct learning; reflexivity ].
    + intros _. destruct h as [ | t h ].
      * cbn [slidings] in E2. injection E2 as <- _. rewrite P1. auto.
      * apply K2. discriminate.
Qed.

End S.

(** shifting forward and shifting back are adjoint *)
Lemma slide_adjoint n r c k (dr dc : nat -> Z) (x y g b : list R) :
  length x = prod [n; r; c; k] -> length y = prod [n; r; c; k] -> length g = prod [n; r; c; k] -> length b = prod [n; r; c; k] ->
  (forall i v z w, i < n -> v < r -> z < c -> w < k -> nth_error y (pos4 r c k i v z w) =
     match moved_back r v (dr w), moved_back c z (dc w) with
     | Some v', Some z' => nth_error x (pos4 r c k i v' z' w) | _, _ => Some 0%R end) ->
  (forall i v z w, i < n -> v < r -> z < c -> w < k -> nth_error b (pos4 r c k i v z w) =
     match moved_back r v (- dr w), moved_back c z (- dc w) with
     | Some v', Some z' => nth_error g (pos4 r c k i v' z' w) | _, _ => Some 0%R end) ->
  inner b x = inner g y.
Proof.
  intros Lx Ly Lg Lb Ey Eb.
  set (f := fun (sg : Z) i v z w => match moved_back r v (sg * dr w), moved_back c z (sg * dc w) with
     | Some v', Some z' => Some (pos4 r c k i v' z' w) | _, _ => None end).
  assert (Hf : forall sg i v z w j, i < n -> v < r -> z < c -> w < k -> (f sg i v z w = Some j <->
     exists v' z', v' < r /\ z' < c /\ Z.of_nat v = (Z.of_nat v' + sg * dr w)%Z /\ Z.of_nat z = (Z.of_nat z' + sg * dc w)%Z /\ j = pos4 r c k i v' z' w)).
  { intros sg i v z w j Hi Hv Hz Hw. unfold f. split.
    - destruct (moved_back r v _) as [v'|] eqn:E1; [|discriminate]. destruct (moved_back c z _) as [z'|] eqn:E2; [|discriminate].
      intros [= <-]. apply moved_back_some in E1. apply moved_back_some in E2. exists v', z'. lia.
    - intros (v' & z' & Hv' & Hz' & E1 & E2 & ->).
      rewrite (proj2 (moved_back_some r v (sg * dr w) v')) by lia. rewrite (proj2 (moved_back_some c z (sg * dc w) z')) by lia. reflexivity. }
  apply (adjoint_injective (dec4 n r c k (f 1%Z) None) (dec4 n r c k (f (-1)%Z) None) (prod [n; r; c; k]) (prod [n; r; c; k])); auto.
  - intros p Hp. destruct (pos4_surj _ _ _ _ _ Hp) as (i & v & z & w & Hi & Hv & Hz & Hw & ->). rewrite dec4_pos4 by assumption.
    specialize (Ey i v z w Hi Hv Hz Hw). unfold f. rewrite !Z.mul_1_l.
    destruct (moved_back r v _) as [v'|] eqn:E1; [|exact (nth_error_nth _ _ _ Ey)].
    destruct (moved_back c z _) as [z'|] eqn:E2; [|exact (nth_error_nth _ _ _ Ey)].
    apply moved_back_some in E1. apply moved_back_some in E2.
    rewrite (nth_error_of_nth 0%R x) in Ey by (rewrite Lx; apply pos4_lt; lia). exact (nth_error_nth _ _ _ Ey).
  - intros p Hp. destruct (pos4_surj _ _ _ _ _ Hp) as (i & v & z & w & Hi & Hv & Hz & Hw & ->). rewrite dec4_pos4 by assumption.
    specialize (Eb i v z w Hi Hv Hz Hw). unfold f. replace (-1 * dr w)%Z with (- dr w)%Z by lia. replace (-1 * dc w)%Z with (- dc w)%Z by lia.
    destruct (moved_back r v _) as [v'|] eqn:E1; [|exact (nth_error_nth _ _ _ Eb)].
    destruct (moved_back c z _) as [z'|] eqn:E2; [|exact (nth_error_nth _ _ _ Eb)].
    apply moved_back_some in E1. apply moved_back_some in E2.
    rewrite (nth_error_of_nth 0%R g) in Eb by (rewrite Lg; apply pos4_lt; lia). exact (nth_error_nth _ _ _ Eb).
  - intros p j Hp E. destruct (pos4_surj _ _ _ _ _ Hp) as (i & v & z & w & Hi & Hv & Hz & Hw & ->). rewrite dec4_pos4 in E by assumption.
    apply Hf in E; try assumption. destruct E as (v' & z' & ? & ? & _ & _ & ->). now apply pos4_lt.
  - intros p j Hp E. destruct (pos4_surj _ _ _ _ _ Hp) as (i & v & z & w & Hi & Hv & Hz & Hw & ->). rewrite dec4_pos4 in E by assumption.
    apply Hf in E; try assumption. destruct E as (v' & z' & ? & ? & _ & _ & ->). now apply pos4_lt.
  - intros p q Hp Hq. destruct (pos4_surj _ _ _ _ _ Hp) as (i & v & z & w & Hi & Hv & Hz & Hw & ->).
    destruct (pos4_surj _ _ _ _ _ Hq) as (i' & v1 & z1 & w' & Hi' & Hv1 & Hz1 & Hw' & ->). rewrite !dec4_pos4 by assumption.
    rewrite !Hf by assumption. split; intros (v' & z' & Hv' & Hz' & E1 & E2 & E); apply (pos4_inj n) in E; try assumption;
      destruct E as (-> & -> & -> & ->).
    + exists v, z. lia.
    + exists v1, z1. lia.
Qed.

(** backward of the whole operator *)
Lemma sliding_bwd_ok p s draws (g : arr R) n r c k :
  wf g -> ashape g = [n; r; c; k] -> within p draws ->
  ashape (pad_in s) = [n; r; c; k] -> ashape (crop_in s) = [n; p + r + p; p + c + p; k] -> shifts s = drawn draws k ->
  exists b, sliding_bwd 0%R p s g = Ok (Arr [n; r; c; k] b) /\ length b = prod [n; r; c; k] /\
    forall i v z w, i < n -> v < r -> z < c -> w < k -> nth_error b (pos4 r c k i v z w) =
     match moved_back r v (- rows draws w), moved_back c z (- cols draws w) with
     | Some v', Some z' => nth_error (adata g) (pos4 r c k i v' z' w) | _, _ => Some 0%R end.
Proof.
  intros W E Hd P K S. set (R := p + r + p) in *. set (C := p + c + p) in *. unfold sliding_bwd.
  destruct (crop_bwd_ok 0%R p p p p (crop_in s) g n r c k K W E) as (d1 & E1 & L1 & V1). cbv zeta in *. fold R C in E1, L1, V1.
  rewrite E1. cbn [obind]. unfold slide_bwd. cbn [ashape adata]. rewrite S.
  replace (length (drawn draws k) <? k) with false by (symmetry; apply Nat.ltb_ge; unfold drawn; rewrite tab_length; lia).
  cbn [andb]. rewrite L1, Nat.leb_refl.
  destruct (slide_fill 0%R n R C k (-1) (drawn draws k) d1 L1) as (d2 & E2 & L2 & V2). rewrite E2. cbn [obind snd].
  destruct (pad_bwd_ok 0%R p p p p (pad_in s) (Arr [n; R; C; k] d2) n r c k P L2 eq_refl) as (d3 & E3 & L3 & V3).
  cbv zeta in *. fold R C in V3. cbn [adata] in V3. exists d3. split; [assumption|]. split; [assumption|].
  intros i v z w Hi Hv Hz Hw. rewrite V3 by assumption. rewrite V2 by (unfold R, C; lia).
  rewrite nth_drawn by assumption. cbn [fst snd].
  pose proof (Hd (2 * w)) as D1. pose proof (Hd (2 * w + 1)) as D2. fold (rows draws w) in D1. fold (cols draws w) in D2.
  assert (X1 : moved_back R (p + v) (-1 * rows draws w) = Some (Z.to_nat (Z.of_nat (p + v) + rows draws w))) by (apply moved_back_some; unfold R; lia).
  assert (X2 : moved_back C (p + z) (-1 * cols draws w) = Some (Z.to_nat (Z.of_nat (p + z) + cols draws w))) by (apply moved_back_some; unfold C; lia).
  rewrite X1, X2. rewrite V1 by (unfold R, C; lia).
  destruct (inside p p r c _ _) eqn:Ei.
  - apply inside_spec in Ei.
    rewrite (proj2 (moved_back_some r v (- rows draws w) (Z.to_nat (Z.of_nat (p + v) + rows draws w) - p))) by lia.
    rewrite (proj2 (moved_back_some c z (- cols draws w) (Z.to_nat (Z.of_nat (p + z) + cols draws w) - p))) by lia. reflexivity.
  - destruct (moved_back r v _) as [v'|] eqn:F1; [|reflexivity]. destruct (moved_back c z _) as [z'|] eqn:F2; [|reflexivity].
    apply moved_back_some in F1. apply moved_back_some in F2. apply not_true_iff_false in Ei. exfalso. apply Ei. apply inside_spec. lia.
Qed.

(** [slid] in terms of positions *)
Lemma slid_at (dr dc : nat -> Z) (x y : arr R) n r c k : slid 0%R dr dc x y -> ashape x = [n; r; c; k] ->
  ashape y = [n; r; c; k] /\ wf y /\ forall i v z w, i < n -> v < r -> z < c -> w < k -> nth_error (adata y) (pos4 r c k i v z w) =
     match moved_back r v (dr w), moved_back c z (dc w) with
     | Some v', Some z' => nth_error (adata x) (pos4 r c k i v' z' w) | _, _ => Some 0%R end.
Proof.
  intros (n0 & r0 & c0 & k0 & Ex & Ey & W & H) E. rewrite Ex in E. injection E as -> -> -> ->. split; [assumption|]. split; [assumption|].
  intros i v z w Hi Hv Hz Hw. destruct (H i v z w Hi Hv Hz Hw) as (H1 & H2). destruct x as [sx dx], y as [sy dy]. cbn [ashape adata] in *. subst sx sy.
  rewrite at4 in H2. destruct (moved_back r v (dr w)) as [v'|] eqn:E1.
  - destruct (moved_back c z (dc w)) as [z'|] eqn:E2.
    + apply moved_back_some in E1. apply moved_back_some in E2. rewrite <- !at4 with (N := n). apply H1; lia.
    + apply H2. intros (v1 & z1 & ? & ? & ? & Q). rewrite (proj2 (moved_back_some c z (dc w) z1)) in E2 by lia. discriminate.
  - apply H2. intros (v1 & z1 & ? & ? & Q & ?). rewrite (proj2 (moved_back_some r v (dr w) v1)) in E1 by lia. discriminate.
Qed.
