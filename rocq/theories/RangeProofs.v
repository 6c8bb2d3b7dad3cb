(** Proofs for loops over range, enumerate and reverse. *)
From Coq Require Import List Arith Lia Bool PeanoNat ZArith.
From Verif Require Import ListBase TensorModel RangeModel RangeSpec.
Import ListNotations.

Lemma for_values_S {V S} k (g : nat -> V) (body : V -> S -> S) s :
  for_values (Datatypes.S k) g body s = for_values k (fun i => g (Datatypes.S i)) body (body (g 0) s).
Proof.
  unfold for_values. cbn [seq fold_left]. rewrite <- seq_shift. generalize (body (g 0) s). generalize (seq 0 k).
  intros l. induction l as [|i l IH]; intros a; [reflexivity|]. cbn [map fold_left]. apply IH.
Qed.

Section Run.
Context {V S : Type} (step : V -> outcome V) (equal : V -> V -> bool) (body : V -> S -> S) (last : V).

Lemma run_count : forall k g fuel s,
  (forall i, i < k -> equal (g i) last = false /\ step (g i) = Ok (g (Datatypes.S i))) ->
  run step equal (k + fuel) body (g 0) last s = run step equal fuel body (g k) last (for_values k g body s).
Proof.
  induction k as [|k IH]; intros g fuel s H; [reflexivity|].
  destruct (H 0 ltac:(lia)) as [E N]. cbn [Nat.add run]. rewrite E. unfold next. rewrite N.
  rewrite for_values_S. rewrite (IH (fun i => g (Datatypes.S i))); [reflexivity|].
  intros i Hi. apply H. lia.
Qed.

Lemma run_more : forall fuel fuel' v s r, fuel <= fuel' -> run step equal fuel body v last s = Some r -> run step equal fuel' body v last s = Some r.
Proof.
  induction fuel as [|fuel IH]; intros fuel' v s r L E.
  - cbn [run] in E. destruct fuel' as [|f]; [assumption|]. cbn [run]. destruct (equal v last); [assumption|discriminate].
  - destruct fuel' as [|f]; [lia|]. cbn [run] in *. destruct (equal v last); [assumption|].
    destruct (next step v); try assumption. apply IH with (fuel' := f) in E; [assumption|lia].
Qed.
End Run.

Lemma iter_comm {V} k (f : V -> V) v : Nat.iter k f (f v) = Nat.iter (S k) f v.
Proof. induction k as [|k IH]; [reflexivity|]. cbn [Nat.iter nat_rect]. f_equal. exact IH. Qed.

Lemma upd_middle {A} (a : list A) e e' b : upd (a ++ e :: b) (length a) e' = a ++ e' :: b.
Proof. induction a as [|x a IH]; [reflexivity|]. cbn [app length upd]. now rewrite IH. Qed.

Lemma enumerate_steps {A S} (body : nat -> A -> S -> A * S) : forall b a st,
  exists held, enumerate_loop (length b) body (a ++ b) (length a) st =
    Ok (held, fold_left (fun st p => snd (body (fst p) (snd p) st)) (combine (seq (length a) (length b)) b) st).
Proof.
  induction b as [|e b IH]; intros a st; cbn [length enumerate_loop seq combine fold_left].
  - eexists. reflexivity.
  - rewrite nth_error_app2, Nat.sub_diag by lia. cbn [nth_error fst snd]. destruct (body (length a) e st) as [e' st'].
    rewrite upd_middle. replace (a ++ e' :: b) with ((a ++ [e']) ++ b) by (rewrite <- app_assoc; reflexivity).
    destruct (IH (a ++ [e']) st') as [held E]. rewrite app_length in E. cbn [length] in E. rewrite (Nat.add_comm (length a) 1) in E.
    exists held. exact E.
Qed.

Lemma reverse_steps {A S} (body : A -> S -> A * S) : forall a b s,
  reverse_loop (length a) body (a ++ b) s = Ok (rev (fst (visit body (rev a) s)) ++ b, snd (visit body (rev a) s)).
Proof.
  induction a as [|e a IH] using rev_ind; intros b s; [reflexivity|].
  rewrite app_length, Nat.add_comm. cbn [length Nat.add reverse_loop]. rewrite <- app_assoc. cbn [app].
  rewrite nth_error_app2, Nat.sub_diag by lia. cbn [nth_error].
  rewrite rev_app_distr. cbn [rev app visit]. destruct (body e s) as [e' s1]. rewrite upd_middle. rewrite IH.
  destruct (visit body (rev a) s1) as [l' s2]. cbn [fst snd rev]. now rewrite <- app_assoc.
Qed.

Lemma for_values_ext {V S} k (g g' : nat -> V) (body : V -> S -> S) : (forall i, g i = g' i) -> forall s, for_values k g body s = for_values k g' body s.
Proof.
  intros H. unfold for_values. generalize (seq 0 k). intros l. induction l as [|i l IH]; intros s; [reflexivity|].
  cbn [fold_left]. rewrite H. apply IH.
Qed.
