(** Lemmas about ParallelModel. *)
From Coq Require Import List NArith ZArith Bool Lia Permutation.
From Verif Require Import ParallelModel.
Import ListNotations.
Local Open Scope N_scope.

Definition iota (a : N) (k : nat) : list N := map (fun j => a + N.of_nat j) (seq 0 k).

Definition upto (a b : N) : list N := iota a (N.to_nat (b - a)).

Lemma iota_length a k : length (iota a k) = k.
Proof. unfold iota. now rewrite map_length, seq_length. Qed.

Lemma iota_S a k : iota a (S k) = a :: iota (a + 1) k.
Proof.
  unfold iota. cbn [seq map]. rewrite N.add_0_r. f_equal. rewrite <- seq_shift, map_map. apply map_ext. intros. lia.
Qed.

Lemma iota_app a k1 k2 : iota a (k1 + k2) = iota a k1 ++ iota (a + N.of_nat k1) k2.
Proof.
  revert a; induction k1 as [|k1 IH]; intros a.
  - replace (a + N.of_nat 0) with a by lia. reflexivity.
  - cbn [Nat.add]. rewrite !iota_S, IH. cbn [app]. replace (a + N.of_nat (S k1)) with (a + 1 + N.of_nat k1) by lia. reflexivity.
Qed.

Lemma upto_app a b c : a <= b -> b <= c -> upto a b ++ upto b c = upto a c.
Proof.
  intros. unfold upto. replace (N.to_nat (c - a)) with (N.to_nat (b - a) + N.to_nat (c - b))%nat by lia.
  rewrite iota_app. replace (a + N.of_nat (N.to_nat (b - a))) with b by lia. reflexivity.
Qed.

Lemma upto_nil a b : b <= a -> upto a b = [].
Proof. intros. unfold upto. replace (N.to_nat (b - a)) with O by lia. reflexivity. Qed.

Lemma in_upto a b x : In x (upto a b) <-> a <= x < b.
Proof.
  unfold upto, iota. rewrite in_map_iff. split.
  - intros (k & <- & Hk). apply in_seq in Hk. lia.
  - intros H. exists (N.to_nat (x - a)). split; [lia|]. apply in_seq. lia.
Qed.

Lemma upto_NoDup a b : NoDup (upto a b).
Proof.
  unfold upto, iota. apply FinFun.Injective_map_NoDup; [|apply seq_NoDup]. intros x y. lia.
Qed.

Lemma upto_length a b : length (upto a b) = N.to_nat (b - a).
Proof. unfold upto. now rewrite iota_length. Qed.

Lemma w64_small x : x < 2 ^ 64 -> w64 x = x.
Proof. intros. unfold w64. now apply N.mod_small. Qed.

Lemma sub64_small a b : b <= a -> a < 2 ^ 64 -> sub64 a b = a - b.
Proof.
  intros. unfold sub64, w64. replace (a + 2 ^ 64 - b) with (a - b + 1 * 2 ^ 64) by lia.
  rewrite N.mod_add by discriminate. apply N.mod_small. lia.
Qed.

Lemma range_upto a b : a <= b -> b < 2 ^ 64 -> range a b = upto a b.
Proof.
  intros. unfold range, upto, iota. rewrite sub64_small by lia.
  apply map_ext_in. intros k Hk. apply in_seq in Hk. apply w64_small. lia.
Qed.

Lemma job_slice_upto a b : b < 2 ^ 64 -> job_slice a b = upto a b.
Proof.
  intros. unfold job_slice. destruct (N.leb_spec b a).
  - now rewrite upto_nil.
  - apply range_upto; lia.
Qed.

Lemma concat_singletons {A} (l : list A) : concat (map (fun i => [i]) l) = l.
Proof. induction l; cbn; [reflexivity|]. now rewrite IHl. Qed.

(** tasks per thread *)
Definition tpt (cores n : N) : N := (n + cores - 1) / cores.

Lemma tpt_bound cores n : 1 < cores -> tpt cores n * cores <= n + cores - 1.
Proof. intros. unfold tpt. rewrite N.mul_comm. apply N.mul_div_le. lia. Qed.

Lemma slices_concat t f last m : f <= last -> last < 2 ^ 64 -> t * N.of_nat m + f < 2 ^ 64 ->
  concat (map (fun k => let index := N.of_nat k in
                  let first := N.min (w64 (t * index + f)) last in
                  let last' := N.min (w64 (first + t)) last in
                  job_slice first last') (seq 0 m))
  = upto f (N.min (f + t * N.of_nat m) last).
Proof.
  intros Hf Hl. induction m as [|m IH]; intros Hw.
  - cbn [seq map concat]. rewrite N.mul_0_r, N.add_0_r. rewrite upto_nil; [reflexivity|lia].
  - rewrite seq_S, map_app, concat_app, IH by nia. cbn [Nat.add map concat]. cbv zeta. rewrite app_nil_r.
    rewrite (w64_small (t * N.of_nat m + f)) by nia.
    destruct (N.le_gt_cases last (t * N.of_nat m + f)) as [C|C].
    + rewrite (N.min_r (t * N.of_nat m + f)) by exact C.
      rewrite job_slice_upto by lia. rewrite (upto_nil last) by lia. rewrite app_nil_r.
      rewrite !N.min_r by nia. reflexivity.
    + rewrite (N.min_l (t * N.of_nat m + f)) by lia. rewrite (w64_small (t * N.of_nat m + f + t)) by nia.
      rewrite (N.min_l (f + t * N.of_nat m)) by lia. rewrite (N.add_comm f).
      rewrite job_slice_upto by lia. rewrite upto_app by lia. f_equal. f_equal. nia.
Qed.

Lemma parallel_concat mode cores th f last : f <= last -> last + cores < 2 ^ 64 ->
  concat (parallel mode cores th f last) =
  if (mode =? 0) || (cores <=? 1) || (last - f <=? th) || (last - f <=? cores) then upto f last
  else upto f (N.min (f + tpt cores (last - f) * (cores - 1)) last)
       ++ upto (tpt cores (last - f) * (cores - 1)) last.
Proof.
  intros Hf Hl. unfold parallel. rewrite sub64_small by lia.
  assert (R : range f last = upto f last) by (apply range_upto; lia).
  destruct (N.eqb_spec mode 0); cbn [orb concat]; [now rewrite app_nil_r|].
  destruct (N.leb_spec cores 1); cbn [orb concat]; [now rewrite app_nil_r|].
  destruct (N.leb_spec (last - f) th); cbn [orb concat]; [now rewrite app_nil_r|].
  destruct (N.leb_spec (last - f) cores); cbn [orb concat].
  { rewrite concat_app, concat_singletons. cbn [concat]. now rewrite !app_nil_r. }
  cbv zeta. rewrite (w64_small (last - f + cores - 1)) by lia. change ((last - f + cores - 1) / cores) with (tpt cores (last - f)).
  pose proof (tpt_bound cores (last - f) ltac:(lia)) as B. set (t := tpt cores (last - f)) in *.
  assert (B2 : t * (cores - 1) <= last - f + cores - 1) by nia.
  rewrite concat_app, slices_concat by (rewrite ?N2Nat.id; nia).
  rewrite N2Nat.id. cbn [concat]. rewrite app_nil_r, (w64_small (t * (cores - 1))) by lia.
  rewrite job_slice_upto by lia. reflexivity.
Qed.

Lemma parallel_from_zero mode cores th n : n + cores < 2 ^ 64 -> concat (parallel mode cores th 0 n) = upto 0 n.
Proof.
  intros H. rewrite parallel_concat by lia. rewrite N.sub_0_r, N.add_0_l.
  destruct (_ || _); [reflexivity|]. set (m := tpt cores n * (cores - 1)).
  destruct (N.le_gt_cases n m).
  - rewrite N.min_r by lia. rewrite (upto_nil m) by lia. apply app_nil_r.
  - rewrite N.min_l by lia. apply upto_app; lia.
Qed.

Lemma parallel_iff mode cores th f last : f <= last -> last + cores < 2 ^ 64 ->
  Permutation (concat (parallel mode cores th f last)) (upto f last) <->
  (f = 0 \/ mode = 0 \/ cores <= 1 \/ last - f <= th \/ last - f <= cores \/ last <= tpt cores (last - f) * (cores - 1)).
Proof.
  intros Hf Hl. rewrite parallel_concat by assumption. set (m := tpt cores (last - f) * (cores - 1)).
  destruct (N.eqb_spec mode 0); cbn [orb]. { split; [lia|reflexivity]. }
  destruct (N.leb_spec cores 1); cbn [orb]. { split; [lia|reflexivity]. }
  destruct (N.leb_spec (last - f) th); cbn [orb]. { split; [lia|reflexivity]. }
  destruct (N.leb_spec (last - f) cores); cbn [orb]. { split; [lia|reflexivity]. }
  split.
  - intros P. apply Permutation_length in P. rewrite app_length, !upto_length in P. lia.
  - intros [->|[|[|[|[|C]]]]]; try lia.
    + rewrite N.add_0_l. destruct (N.le_gt_cases last m).
      * rewrite N.min_r by lia. rewrite (upto_nil m) by lia. now rewrite app_nil_r.
      * rewrite N.min_l by lia. rewrite upto_app by lia. reflexivity.
    + rewrite N.min_r by lia. rewrite (upto_nil m) by lia. now rewrite app_nil_r.
Qed.

(* ------------------------------------------------------------------ schedules *)

Lemma interleave_in {A} (ts : list (list A)) s : interleave ts s -> forall a, In a s <-> In a (concat ts).
Proof.
  induction 1 as [ts H|ts1 a t ts2 s H IH]; intros x.
  - split; [easy|]. intros Hx. apply in_concat in Hx. destruct Hx as (t & Ht & Hx).
    rewrite Forall_forall in H. rewrite (H t Ht) in Hx. easy.
  - cbn [In]. rewrite IH. rewrite !concat_app. cbn [concat].
    rewrite !in_app_iff. cbn [In]. tauto.
Qed.

Lemma interleave_alone {A} (P : A -> bool) (ts : list (list A)) s : interleave ts s ->
  forall ts1 t ts2, ts = ts1 ++ t :: ts2 ->
  Forall (fun t' => filter P t' = []) ts1 -> Forall (fun t' => filter P t' = []) ts2 -> filter P s = filter P t.
Proof.
  induction 1 as [ts H|us1 a u us2 s H IH]; intros ts1 t ts2 E F1 F2.
  - subst ts. rewrite Forall_app in H. destruct H as (_ & H). inversion H; subst. reflexivity.
  - assert (D : (us1 = ts1 /\ a :: u = t /\ us2 = ts2) \/
               (exists v, ts1 = us1 ++ (a :: u) :: v /\ us2 = v ++ t :: ts2) \/
               (exists v, us1 = ts1 ++ t :: v /\ ts2 = v ++ (a :: u) :: us2)).
    { clear -E. revert ts1 E. induction us1 as [|x us1 IH]; intros [|y ts1] E; cbn [app] in E; injection E as E1 E2.
      - left. now rewrite E1, E2.
      - right; left. exists ts1. subst. auto.
      - right; right. exists us1. subst. auto.
      - subst y. destruct (IH ts1 E2) as [(-> & ? & ?)|[(v & -> & ?)|(v & -> & ?)]].
        + left. auto.
        + right; left. exists v. auto.
        + right; right. exists v. auto. }
    destruct D as [(-> & <- & ->)|[(v & -> & ->)|(v & -> & ->)]].
    + cbn [filter]. rewrite (IH ts1 u ts2 eq_refl F1 F2). reflexivity.
    + rewrite Forall_app in F1. destruct F1 as (F1a & F1b). inversion F1b as [|? ? Fa Fb]; subst.
      cbn [filter] in *. destruct (P a) eqn:EP; [discriminate|].
      apply (IH (us1 ++ u :: v) t ts2); [now rewrite <- app_assoc|apply Forall_app; split; [assumption|now constructor]|assumption].
    + rewrite Forall_app in F2. destruct F2 as (F2a & F2b). inversion F2b as [|? ? Fa Fb]; subst.
      cbn [filter] in *. destruct (P a) eqn:EP; [discriminate|].
      apply (IH ts1 t (v ++ u :: us2)); [now rewrite <- app_assoc|assumption|apply Forall_app; split; [assumption|now constructor]].
Qed.

Lemma NoDup_app_l {A} (l1 l2 : list A) : NoDup (l1 ++ l2) -> NoDup l1 /\ NoDup l2 /\ forall x, In x l1 -> ~ In x l2.
Proof.
  induction l1 as [|a l1 IH]; cbn [app]; intros H; [repeat split; [constructor|assumption|easy]|].
  inversion H as [|? ? Ha Hr]; subst. destruct (IH Hr) as (A1 & A2 & A3). rewrite in_app_iff in Ha. split; [|split].
  - constructor; tauto.
  - assumption.
  - intros x [<-|Hx]; [tauto|now apply A3].
Qed.

Lemma existsb_in i l : existsb (N.eqb i) l = true <-> In i l.
Proof.
  rewrite existsb_exists. split; [intros (x & Hx & E); apply N.eqb_eq in E; now subst|].
  intros H. exists i. split; [assumption|apply N.eqb_refl].
Qed.

Section Loop.
Variable V : Type.
Variables (bs : list N) (w : N) (f : list V -> V) (n : N).
Hypothesis disjoint : Forall (fun b => b = w \/ b + n <= w \/ w + n <= b) bs.
Variable m0 : N -> V.

Let body := for_each_body V bs w f.
Let vals (i : N) : list V := map (fun b => m0 (b + i)) bs.

Lemma body_length i : length (body i) = S (length bs).
Proof. unfold body, for_each_body. rewrite app_length, map_length. cbn [length]. lia. Qed.

Lemma body_idx i : Forall (fun op => fst op = i) (body i).
Proof.
  unfold body, for_each_body. apply Forall_app. split; [|repeat constructor].
  apply Forall_forall. intros op Hop. apply in_map_iff in Hop. destruct Hop as (b & <- & _). reflexivity.
Qed.

Lemma mstep_store_snd st i x g : snd (mstep V st (i, Store x g)) = snd st.
Proof. cbn [mstep]. destruct (g (snd st i)); reflexivity. Qed.

(** p i = number of steps of body i already taken *)
Definition progress (p : N -> nat) (st : mstate V) : Prop :=
  (forall i, (p i <= S (length bs))%nat) /\
  (forall i, n <= i -> p i = S (length bs)) /\
  (forall x, fst st x = if (w <=? x) && (x <? w + n) && (Nat.eqb (p (x - w)) (S (length bs))) then f (vals (x - w)) else m0 x) /\
  (forall i, i < n -> snd st i = rev (firstn (p i) (vals i))).

Lemma progress_run s : forall p st, progress p st ->
  (forall i, filter (fun op => fst op =? i) s = skipn (p i) (body i)) ->
  exists p', progress p' (mrun V st s) /\ forall i, p' i = S (length bs).
Proof.
  induction s as [|[i o] s IH]; intros p st HP HF.
  - exists p. split; [exact HP|]. intros i. specialize (HF i). cbn [filter] in HF.
    apply (f_equal (@length _)) in HF. rewrite skipn_length, body_length in HF. cbn [length] in HF.
    destruct HP as (H & _). specialize (H i). lia.
  - destruct HP as (H1 & H2 & H3 & H4).
    pose proof (HF i) as Hi. cbn [filter fst] in Hi. rewrite N.eqb_refl in Hi.
    assert (Hlt : (p i < S (length bs))%nat).
    { apply (f_equal (@length _)) in Hi. rewrite skipn_length, body_length in Hi. cbn [length] in Hi. lia. }
    assert (Hin : i < n). { destruct (N.lt_ge_cases i n) as [|C]; [assumption|]. specialize (H2 i C). lia. }
    assert (Ho : nth_error (body i) (p i) = Some (i, o) /\ filter (fun op => fst op =? i) s = skipn (S (p i)) (body i)).
    { clear -Hi. revert Hi. generalize (body i) (p i) (filter (fun op : N * prim V => fst op =? i) s).
      intros l k r. revert l. induction k as [|k IHk]; intros [|y l] E; cbn [skipn nth_error] in *; try discriminate.
      - injection E as <- <-. auto.
      - now apply IHk. }
    destruct Ho as (Ho & Hrest).
    cbn [mrun fold_left].
    assert (GOAL : progress (setf p i (S (p i))) (mstep V st (i, o))).
    { split; [|split; [|split]].
      - intros j. unfold setf. destruct (N.eqb_spec j i); [lia|apply H1].
      - intros j Hj. unfold setf. destruct (N.eqb_spec j i); [lia|now apply H2].
      - intros x. unfold body, for_each_body in Ho.
        destruct (Nat.lt_ge_cases (p i) (length bs)) as [L|L].
        + rewrite nth_error_app1 in Ho by (rewrite map_length; exact L).
          rewrite nth_error_map in Ho. destruct (nth_error bs (p i)) as [b|] eqn:Eb; [|discriminate].
          injection Ho as <-. cbn [mstep fst]. rewrite H3. unfold setf.
          destruct (N.eqb_spec (x - w) i) as [E|E]; [|reflexivity].
          rewrite E. replace (Nat.eqb (p i) (S (length bs))) with false by (symmetry; apply Nat.eqb_neq; lia).
          replace (Nat.eqb (S (p i)) (S (length bs))) with false by (symmetry; apply Nat.eqb_neq; lia). reflexivity.
        + assert (EQ : p i = length bs) by lia. rewrite EQ in Ho.
          rewrite nth_error_app2 in Ho by (rewrite map_length; lia). rewrite map_length, Nat.sub_diag in Ho.
          cbn [nth_error] in Ho. injection Ho as <-. cbn [mstep].
          rewrite (H4 i Hin). rewrite EQ. rewrite firstn_all2 by (unfold vals; rewrite map_length; lia).
          rewrite rev_involutive, rev_length. unfold vals at 1. rewrite map_length, Nat.eqb_refl.
          cbn [fst]. unfold setf.
          destruct (N.eqb_spec x (w + i)) as [->|NE].
          * replace (w + i - w) with i by lia. rewrite !N.eqb_refl.
            destruct (N.leb_spec w (w + i)); [|lia]. destruct (N.ltb_spec (w + i) (w + n)); [|lia].
            rewrite Nat.eqb_refl. reflexivity.
          * rewrite H3. destruct (N.leb_spec w x); [|reflexivity].
            destruct (N.ltb_spec x (w + n)); [|reflexivity]. cbn [andb].
            destruct (N.eqb_spec (x - w) i); [lia|reflexivity].
      - intros j Hj. unfold body, for_each_body in Ho.
        destruct (Nat.lt_ge_cases (p i) (length bs)) as [L|L].
        + rewrite nth_error_app1 in Ho by (rewrite map_length; exact L).
          rewrite nth_error_map in Ho. destruct (nth_error bs (p i)) as [b|] eqn:Eb; [|discriminate].
          injection Ho as <-. cbn [mstep snd]. unfold setf. destruct (N.eqb_spec j i) as [->|NE]; [|now apply H4].
          rewrite (H4 i Hj).
          assert (Ev : fst st (b + i) = m0 (b + i)).
          { rewrite H3. pose proof (nth_error_In _ _ Eb) as Hb. rewrite Forall_forall in disjoint.
            destruct (disjoint b Hb) as [->|D].
            - replace (w + i - w) with i by lia.
              replace (Nat.eqb (p i) (S (length bs))) with false by (symmetry; apply Nat.eqb_neq; lia).
              now rewrite Bool.andb_false_r.
            - destruct (N.leb_spec w (b + i)); [|reflexivity]. destruct (N.ltb_spec (b + i) (w + n)); [lia|reflexivity]. }
          rewrite Ev.
          assert (Ef : firstn (S (p i)) (vals i) = firstn (p i) (vals i) ++ [m0 (b + i)]).
          { assert (EV : nth_error (vals i) (p i) = Some (m0 (b + i))) by (unfold vals; rewrite nth_error_map, Eb; reflexivity).
            clear -EV. revert EV. generalize (vals i) (p i) (m0 (b + i)). intros l k v. revert l.
            induction k as [|k IHk]; intros [|y l] E; cbn [nth_error] in E; try discriminate.
            - injection E as ->. reflexivity.
            - cbn [firstn app]. f_equal. now apply IHk. }
          rewrite Ef, rev_app_distr. reflexivity.
        + assert (EQ : p i = length bs) by lia. rewrite EQ in Ho.
          rewrite nth_error_app2 in Ho by (rewrite map_length; lia). rewrite map_length, Nat.sub_diag in Ho.
          cbn [nth_error] in Ho. injection Ho as <-. rewrite mstep_store_snd.
          rewrite (H4 j Hj). f_equal. unfold setf. destruct (N.eqb_spec j i) as [->|NE]; [|reflexivity].
          rewrite EQ. unfold vals. rewrite !firstn_all2 by (rewrite map_length; lia). reflexivity. }
    apply (IH _ _ GOAL).
    intros j. unfold setf. destruct (N.eqb_spec j i) as [->|NE]; [exact Hrest|].
    specialize (HF j). cbn [filter fst] in HF. destruct (N.eqb_spec i j); [congruence|exact HF].
Qed.

Lemma filter_flat_body l i : NoDup l ->
  filter (fun op => fst op =? i) (flat_map body l) = if existsb (N.eqb i) l then body i else [].
Proof.
  assert (Fs : forall j, j <> i -> filter (fun op => fst op =? i) (body j) = []).
  { intros j Hj. pose proof (body_idx j) as B. induction B as [|op l' Hop _ IH]; [reflexivity|].
    cbn [filter]. rewrite Hop. destruct (N.eqb_spec j i); [contradiction|exact IH]. }
  assert (Fi : filter (fun op => fst op =? i) (body i) = body i).
  { pose proof (body_idx i) as B. induction B as [|op l' Hop _ IH]; [reflexivity|].
    cbn [filter]. rewrite Hop, N.eqb_refl. now f_equal. }
  induction 1 as [|j l Hj ND IH]; [reflexivity|]. cbn [flat_map existsb]. rewrite filter_app, IH.
  destruct (N.eqb_spec i j) as [->|NE]; cbn [orb].
  - rewrite Fi. destruct (existsb (N.eqb j) l) eqn:E; [|apply app_nil_r].
    apply existsb_exists in E. destruct E as (x & Hx & E). apply N.eqb_eq in E. subst. contradiction.
  - rewrite Fs by congruence. reflexivity.
Qed.

Lemma schedule_projection ls s i : NoDup (concat ls) -> interleave (map (flat_map body) ls) s ->
  filter (fun op => fst op =? i) s = if existsb (N.eqb i) (concat ls) then body i else [].
Proof.
  intros ND HI. destruct (existsb (N.eqb i) (concat ls)) eqn:E.
  - apply existsb_in in E. apply in_concat in E. destruct E as (l & Hl & Hi).
    apply in_split in Hl. destruct Hl as (l1 & l2 & ->).
    rewrite concat_app in ND. cbn [concat] in ND.
    destruct (NoDup_app_l _ _ ND) as (N1 & N2 & N3). destruct (NoDup_app_l _ _ N2) as (N4 & N5 & N6).
    assert (forall ls', NoDup (concat ls') -> ~ In i (concat ls') -> Forall (fun t' => filter (fun op => fst op =? i) t' = []) (map (flat_map body) ls')) as Z.
    { induction ls' as [|l' ls' IH]; intros ND' Hn; cbn [map concat] in *; constructor.
      - destruct (NoDup_app_l _ _ ND') as (N1' & _). rewrite filter_flat_body by assumption.
        destruct (existsb (N.eqb i) l') eqn:E; [|reflexivity]. apply existsb_in in E. rewrite in_app_iff in Hn. tauto.
      - destruct (NoDup_app_l _ _ ND') as (_ & N2' & _). apply IH; [assumption|]. rewrite in_app_iff in Hn. tauto. }
    rewrite (interleave_alone _ _ _ HI (map (flat_map body) l1) (flat_map body l) (map (flat_map body) l2)).
    + rewrite filter_flat_body by assumption. apply existsb_in in Hi. now rewrite Hi.
    + now rewrite map_app.
    + apply Z; [assumption|]. intros C. apply (N3 i C). rewrite in_app_iff. now left.
    + apply Z; [assumption|]. now apply N6.
  - destruct (filter (fun op => fst op =? i) s) as [|op r] eqn:EF; [reflexivity|]. exfalso.
    assert (Hop : In op (filter (fun op => fst op =? i) s)) by (rewrite EF; now left).
    apply filter_In in Hop. destruct Hop as (Hop & Hfst). apply (interleave_in _ _ HI) in Hop.
    apply in_concat in Hop. destruct Hop as (t & Ht & Hop). apply in_map_iff in Ht. destruct Ht as (l & <- & Hl).
    apply in_flat_map in Hop. destruct Hop as (j & Hj & Hop). pose proof (body_idx j) as B. rewrite Forall_forall in B.
    rewrite (B _ Hop) in Hfst. apply N.eqb_eq in Hfst. subst j.
    assert (existsb (N.eqb i) (concat ls) = true) by (apply existsb_in, in_concat; exists l; auto). congruence.
Qed.

Lemma for_each_any_schedule mode cores s : n + cores < 2 ^ 64 ->
  interleave (for_each_threads V mode cores bs w f n) s ->
  forall x, fst (mrun V (m0, fun _ => []) s) x =
            if (w <=? x) && (x <? w + n) then f (map (fun b => m0 (b + (x - w))) bs) else m0 x.
Proof.
  intros Hn HI x.
  set (p0 := fun i => if i <? n then O else S (length bs)).
  destruct (progress_run s p0 (m0, fun _ => [])) as (p' & (_ & _ & H3 & _) & Hp').
  - split; [|split; [|split]]; unfold p0.
    + intros i. destruct (i <? n); lia.
    + intros i Hi. destruct (N.ltb_spec i n); [lia|reflexivity].
    + intros y. cbn [fst]. destruct (N.leb_spec w y); [|reflexivity]. destruct (N.ltb_spec y (w + n)); [|reflexivity].
      cbn [andb]. destruct (N.ltb_spec (y - w) n); [reflexivity|lia].
    + intros i Hi. destruct (N.ltb_spec i n); [reflexivity|lia].
  - intros i. rewrite (schedule_projection (parallel mode cores 8 0 n) _ i); [|rewrite parallel_from_zero by assumption; apply upto_NoDup|exact HI].
    rewrite parallel_from_zero by assumption. unfold p0. destruct (N.ltb_spec i n) as [L|L].
    + assert (E : existsb (N.eqb i) (upto 0 n) = true) by (apply existsb_in, in_upto; lia). rewrite E. reflexivity.
    + rewrite skipn_all2 by (rewrite body_length; lia).
      destruct (existsb (N.eqb i) (upto 0 n)) eqn:E; [|reflexivity]. apply existsb_in, in_upto in E. lia.
  - rewrite H3, Hp', Nat.eqb_refl, Bool.andb_true_r. reflexivity.
Qed.
End Loop.

(** an interleaving always exists: running the threads one after another *)
Lemma interleave_concat {A} (ts : list (list A)) : interleave ts (concat ts).
Proof.
  assert (G : forall done, Forall (fun t => t = []) done -> interleave (done ++ ts) (concat ts)).
  { induction ts as [|t ts IH]; intros done Hd.
    - rewrite app_nil_r. now constructor.
    - induction t as [|a t IHt].
      + cbn [concat app]. specialize (IH (done ++ [[]])). rewrite <- app_assoc in IH. apply IH.
        apply Forall_app. split; [assumption|repeat constructor].
      + cbn [concat app]. now constructor. }
  apply (G [] (Forall_nil _)).
Qed.

Lemma count_upto a b i : count_occ N.eq_dec (upto a b) i = if (a <=? i) && (i <? b) then 1%nat else 0%nat.
Proof.
  destruct (N.leb_spec a i); destruct (N.ltb_spec i b); cbn [andb].
  - apply NoDup_count_occ'; [apply upto_NoDup|apply in_upto; lia].
  - apply count_occ_not_In. rewrite in_upto. lia.
  - apply count_occ_not_In. rewrite in_upto. lia.
  - apply count_occ_not_In. rewrite in_upto. lia.
Qed.

Lemma count_iff_perm l a b :
  (forall i, count_occ N.eq_dec l i = if (a <=? i) && (i <? b) then 1%nat else 0%nat) <-> Permutation l (upto a b).
Proof.
  rewrite (Permutation_count_occ N.eq_dec). split; intros H i; [now rewrite H, count_upto|now rewrite H, count_upto].
Qed.
