(** parallel() and for_each() (include/utils/parallel.hpp, for_each.hpp): properties C04, C05.
    [parallel mode cores threshold first last] lists, per thread, the indices passed to the user's function. *)
From Coq Require Import List NArith Bool Lia Permutation.
From Verif Require Import ParallelModel ParallelProofs.
Import ListNotations.
Local Open Scope N_scope.

(** every index of [a, b) is passed to the function exactly once, by exactly one thread, and no other index ever is *)
Definition visits_each_once (threads : list (list N)) (a b : N) : Prop :=
  forall i, count_occ N.eq_dec (concat threads) i = if (a <=? i) && (i <? b) then 1%nat else 0%nat.

(** C04.  Any mode, any core count, any threshold, any number of jobs (as long as n + cores fits in 64 bits). *)
Theorem C04_parallel_visits_each_once : forall mode cores threshold n, n + cores < 2 ^ 64 ->
  visits_each_once (parallel mode cores threshold 0 n) 0 n.
Proof.
  intros mode cores threshold n H. unfold visits_each_once. rewrite count_iff_perm. rewrite parallel_from_zero by exact H. reflexivity.
Qed.
Print Assumptions C04_parallel_visits_each_once.

Example C04_case : 20 + 6 < 2 ^ 64 /\
  parallel 1 6 8 0 20 = [[0;1;2;3]; [4;5;6;7]; [8;9;10;11]; [12;13;14;15]; [16;17;18;19]; []].
Proof. split; [reflexivity|vm_compute; reflexivity]. Qed.

(** C04.  With another start index the partition is right exactly in these cases ([ceil] is the number of jobs per thread). *)
Theorem C04_parallel_start_index : forall mode cores threshold first last, first <= last -> last + cores < 2 ^ 64 ->
  let jobs := last - first in
  let ceil := (jobs + cores - 1) / cores in
  visits_each_once (parallel mode cores threshold first last) first last <->
  (first = 0 \/ mode = 0 \/ cores <= 1 \/ jobs <= threshold \/ jobs <= cores \/ last <= ceil * (cores - 1)).
Proof.
  intros mode cores threshold first last H1 H2. cbv zeta.
  exact (iff_trans (count_iff_perm _ _ _) (parallel_iff mode cores threshold first last H1 H2)).
Qed.
Print Assumptions C04_parallel_start_index.

(** C04, the limit: called for [100, 120) on two cores with the default threshold it also visits 10..99, and some twice. *)
Theorem C04_parallel_start_index_refuted :
  ~ visits_each_once (parallel 1 2 8 100 120) 100 120 /\
  count_occ N.eq_dec (concat (parallel 1 2 8 100 120)) 10 = 1%nat /\
  count_occ N.eq_dec (concat (parallel 1 2 8 100 120)) 105 = 2%nat.
Proof.
  split; [|split; vm_compute; reflexivity]. intros H. specialize (H 10). vm_compute in H. discriminate.
Qed.
Print Assumptions C04_parallel_start_index_refuted.

(** C05.  [for_each] over n elements: sequences read start at the addresses [bs], the written one at [w]; each read sequence is
    the written one or lies outside it.  Whatever the interleaving of the threads' loads and stores, the final memory is the one
    of the sequential loop: f applied pointwise to the initial values in [w, w+n), and nothing else changed. *)
Theorem C05_for_each_schedule_independent : forall (V : Type) (bs : list N) (w n : N) (f : list V -> V) (mem : N -> V)
    (mode cores : N) (schedule : list (N * prim V)),
  Forall (fun b => b = w \/ b + n <= w \/ w + n <= b) bs ->
  n + cores < 2 ^ 64 ->
  interleave (for_each_threads V mode cores bs w f n) schedule ->
  forall x, fst (mrun V (mem, fun _ => []) schedule) x =
            if (w <=? x) && (x <? w + n) then f (map (fun b => mem (b + (x - w))) bs) else mem x.
Proof. exact (fun V bs w n f mem mode cores s D => for_each_any_schedule V bs w f n D mem mode cores s). Qed.
Print Assumptions C05_for_each_schedule_independent.

(** there is at least one schedule, so the statement is not empty: twelve elements at 100.. incremented by those at 200..,
    on four cores *)
Example C05_case :
  let th := for_each_threads N 1 4 [100; 200] 100 (fun l => match l with [a; b] => a + b | _ => 0 end) 12 in
  length th = 4%nat /\ interleave th (concat th) /\
  map (fst (mrun N (fun x => x, fun _ => []) (concat th))) [99;100;101;111;112] = [99;300;302;322;112].
Proof. cbv zeta. split; [reflexivity|]. split; [apply interleave_concat|vm_compute; reflexivity]. Qed.

(** C05, the hypothesis matters: reading a sequence that overlaps the written one at an offset depends on the schedule. *)
Theorem C05_for_each_overlap_refuted :
  exists (s1 s2 : list (N * prim N)),
    let th := for_each_threads N 1 16 [1] 0 (fun l => match l with [a] => a + 1 | _ => 0 end) 9 in
    interleave th s1 /\ interleave th s2 /\
    fst (mrun N (fun x => x, fun _ => []) s1) 0 <> fst (mrun N (fun x => x, fun _ => []) s2) 0.
Proof.
  set (th := for_each_threads N 1 16 [1] 0 (fun l => match l with [a] => a + 1 | _ => 0 end) 9).
  exists (concat th), (concat (skipn 1 th) ++ concat (firstn 1 th)). cbv zeta. split; [apply interleave_concat|]. split.
  - change th with (firstn 1 th ++ skipn 1 th) at 1.
    remember (skipn 1 th) as b eqn:Eb. destruct (firstn 1 th) as [|t [|? ?]] eqn:Ea; [discriminate Ea| |discriminate Ea].
    cbn [concat app]. rewrite app_nil_r.
    assert (G : forall done, Forall (fun t => t = []) done -> interleave (t :: done ++ b) (concat b ++ t)).
    { clear. induction b as [|u b IH]; intros done Hd.
      - rewrite app_nil_r. cbn [concat app]. induction t as [|a t IHt]; [now constructor; constructor|]. apply (il_step []). exact IHt.
      - induction u as [|a u IHu].
        + cbn [concat app]. specialize (IH (done ++ [[]])). rewrite <- app_assoc in IH. apply IH.
          apply Forall_app. split; [assumption|repeat constructor].
        + cbn [concat app]. apply (il_step (t :: done) a u b). exact IHu. }
    apply (G [] (Forall_nil _)).
  - vm_compute. discriminate.
Qed.
Print Assumptions C05_for_each_overlap_refuted.
