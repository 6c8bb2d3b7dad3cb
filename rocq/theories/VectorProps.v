(** C65: ceras::vector under any sequence of operations on any number of
    vectors (utils/vector.hpp). *)
From Coq Require Import List Arith Lia Bool PeanoNat.
From Verif Require Import ListBase TensorModel VectorModel VectorSpec VectorProofs.
Import ListNotations.

Section C65.
Context {A : Type}.

(** what a user reads from vector i: its size, and the words behind data() *)
Definition reads (w : world A) (i : nat) : option (list (option A)) :=
  match object w i with
  | None => None
  | Some v => match read_n (vdata v) (vsize v) w with Ok l => Some l | _ => if vsize v =? 0 then Some [] else None end
  end.

Lemma inv_reads (s : values) (w : world A) n i : inv s w n -> reads w i = value s i.
Proof.
  intros I. unfold reads. destruct (value s i) as [l|] eqn:El; [|now rewrite (inv_no_object _ _ _ _ I El)].
  destruct (inv_object _ _ _ _ _ I El) as (v & Ev & Es & Ed). rewrite Ev, Es. destruct l as [|x l].
  - destruct (vdata v) as [k|]; [now destruct Ed|]. reflexivity.
  - now rewrite (read_inv _ _ _ _ _ _ I Ev El).
Qed.

(** No sequence of operations touches memory it must not touch, and every
    vector reads as the list of values it should hold: copies are
    independent, a moved-from vector is empty, resize() to another size
    leaves no readable value, self-copy-assignment changes nothing. *)
Theorem C65_values (os : list (op A)) n :
  exists w, run os (start n) = Ok w /\ forall i, reads w i = value (vrun os (repeat None n)) i.
Proof. destruct (run_inv os _ _ _ (start_inv n)) as (w & E & I). exists w. split; [exact E|]. intros i. exact (inv_reads _ _ _ i I). Qed.

(** no two vectors ever use the same block *)
Theorem C65_no_sharing (os : list (op A)) n w i j u v k :
  run os (start n) = Ok w -> object w i = Some u -> object w j = Some v -> vdata u = Some k -> vdata v = Some k -> i = j.
Proof.
  intros E Ei Ej Ku Kv. destruct (run_inv os _ _ _ (start_inv n)) as (w' & E' & I). rewrite E in E'. injection E' as <-.
  destruct (Nat.eq_dec i j) as [H|H]; [exact H|]. exfalso. exact (i_own _ _ _ I i j u v k H Ei Ej Ku Kv).
Qed.

(** the allocator is used as it must be: only blocks that are out are given
    back, with the size they were asked for *)
Theorem C65_discipline (os : list (op A)) n w :
  run os (start n) = Ok w -> exists bs, account (calls w) = Some bs /\ out bs = with_elements (vrun os (repeat None n)) + lost os (repeat None n).
Proof.
  intros E. destruct (run_inv os _ _ _ (start_inv n)) as (w' & E' & I). rewrite E in E'. injection E' as <-.
  eexists. split; [exact (i_calls _ _ _ I)|]. exact (i_count _ _ _ I).
Qed.

Definition destroy_all (n : nat) : list (op A) := map Destroy (seq 0 n).

Lemma vrun_app (os os' : list (op A)) s : vrun (os ++ os') s = vrun os' (vrun os s).
Proof. unfold vrun. apply fold_left_app. Qed.
Lemma lost_app (os os' : list (op A)) : forall s, lost (os ++ os') s = lost os s + lost os' (vrun os s).
Proof. induction os as [|o os IH]; intros s; [reflexivity|]. cbn [app lost]. rewrite IH. unfold vrun. cbn [fold_left]. lia. Qed.
Lemma vstep_length (o : op A) s : length (vstep o s) = length s.
Proof.
  destruct o; cbn [vstep]; repeat match goal with |- context [match ?x with _ => _ end] => destruct x end; rewrite ?upd_length; reflexivity.
Qed.
Lemma vrun_length (os : list (op A)) : forall s, length (vrun os s) = length s.
Proof. induction os as [|o os IH]; intros s; [reflexivity|]. unfold vrun in *. cbn [fold_left]. rewrite IH. apply vstep_length. Qed.
Lemma lost_destroy is : forall s : values (A:=A), lost (map Destroy is) s = 0.
Proof. induction is as [|i is IH]; intros s; [reflexivity|]. cbn [map lost loses]. apply IH. Qed.
Lemma destroyed is : forall (s : values (A:=A)) i, value (vrun (map Destroy is) s) i = if existsb (Nat.eqb i) is then None else value s i.
Proof.
  induction is as [|k is IH]; intros s i; [reflexivity|]. unfold vrun in *. cbn [map fold_left existsb vstep]. rewrite IH. destruct (existsb (Nat.eqb i) is); [now rewrite orb_true_r|]. rewrite orb_false_r.
  destruct (value s k) as [l|] eqn:E.
  - destruct (Nat.eqb_spec i k) as [->|N]; [apply value_upd; exact (value_lt _ _ _ E)|]. unfold value. now apply nth_upd_other; auto.
  - destruct (Nat.eqb_spec i k) as [->|N]; [exact E|reflexivity].
Qed.
Lemma no_elements (s : values (A:=A)) : (forall i, value s i = None) -> with_elements s = 0.
Proof.
  unfold with_elements. induction s as [|c s IH]; intros H; [reflexivity|]. cbn [filter]. pose proof (H 0) as H0. cbn in H0. rewrite H0. apply IH. intros i. exact (H (S i)).
Qed.

(** After every vector is destroyed the blocks still out are those lost by
    move assignments onto a vector that had elements; there is one per such
    assignment. *)
Theorem C65_leaks (os : list (op A)) n :
  exists w bs, run (os ++ destroy_all n) (start n) = Ok w /\ (forall i, reads w i = None) /\ account (calls w) = Some bs /\ out bs = lost os (repeat None n).
Proof.
  destruct (run_inv (os ++ destroy_all n) _ _ _ (start_inv n)) as (w & E & I). exists w. eexists. split; [exact E|].
  assert (V : forall i, value (vrun (os ++ destroy_all n) (repeat None n)) i = None).
  { intros i. rewrite vrun_app. unfold destroy_all. rewrite destroyed. destruct (existsb (Nat.eqb i) (seq 0 n)) eqn:X; [reflexivity|].
    unfold value. apply nth_overflow. rewrite vrun_length, repeat_length. destruct (Nat.lt_ge_cases i n) as [H|H]; [|exact H].
    assert (Y : existsb (Nat.eqb i) (seq 0 n) = true) by (apply existsb_exists; exists i; split; [apply in_seq; lia|apply Nat.eqb_refl]). congruence. }
  split; [intros i; rewrite (inv_reads _ _ _ i I); apply V|]. split; [exact (i_calls _ _ _ I)|]. rewrite (i_count _ _ _ I), (no_elements _ V), lost_app. unfold destroy_all. rewrite lost_destroy. lia.
Qed.

(** programs without move assignment give everything back *)
Theorem C65_no_move_assign (os : list (op A)) n :
  (forall i j, ~ In (MoveAssign i j) os) ->
  exists w bs, run (os ++ destroy_all n) (start n) = Ok w /\ account (calls w) = Some bs /\ out bs = 0.
Proof.
  intros H. destruct (C65_leaks os n) as (w & bs & E & _ & B & O). exists w, bs. split; [exact E|]. split; [exact B|]. rewrite O.
  clear -H. generalize (repeat (None : option (list (option A))) n). induction os as [|o os IH]; intros s; [reflexivity|]. cbn [lost].
  rewrite IH by (intros i j K; apply (H i j); now right). destruct o; try reflexivity. exfalso. exact (H i j (or_introl eq_refl)).
Qed.

(** the promise "everything is given back" fails: a[i] = move( a[j] ) drops the block of a[i], and i = j drops the vector's own *)
Theorem C65_gives_back_refuted (x : A) : forall self : bool,
  exists os n w bs, os = (if self then [Make 0 2 x; MoveAssign 0 0] else [Make 0 2 x; Make 1 3 x; MoveAssign 0 1]) /\
    run (os ++ destroy_all n) (start n) = Ok w /\ account (calls w) = Some bs /\ out bs = 1.
Proof.
  intros self. set (os := if self then [Make 0 2 x; MoveAssign 0 0] else [Make 0 2 x; Make 1 3 x; MoveAssign 0 1]).
  destruct (C65_leaks os 2) as (w & bs & E & _ & B & O). exists os, 2, w, bs. split; [reflexivity|]. split; [exact E|]. split; [exact B|]. rewrite O. now destruct self.
Qed.
End C65.
Print Assumptions C65_values.
Print Assumptions C65_no_sharing.
Print Assumptions C65_discipline.
Print Assumptions C65_leaks.
Print Assumptions C65_no_move_assign.
Print Assumptions C65_gives_back_refuted.

Module Case.
  Definition os : list (op nat) := [Make 0 2 7; Copy 1 0; Write 1 0 9; Resize 2 4; MakeList 2 [1; 2; 3]; CopyAssign 0 2; Move 3 2; MoveAssign 1 3; Resize 0 5].
  Example values : vrun os (repeat None 4) = [Some [None; None; None; None; None]; Some [Some 1; Some 2; Some 3]; Some []; Some []]. Proof. reflexivity. Qed.
  Example leaked : lost os (repeat None 4) = 1. Proof. reflexivity. Qed.
  Example runs : match run os (start 4) with Ok w => map (reads w) (seq 0 4) | _ => [] end = vrun os (repeat None 4). Proof. reflexivity. Qed.
  Example history : match run os (start 4) with Ok w => calls w | _ => [] end = [Allocate 2; Allocate 2; Allocate 3; Deallocate 0 2; Allocate 3; Deallocate 3 3; Allocate 5].
  Proof. reflexivity. Qed.
End Case.
