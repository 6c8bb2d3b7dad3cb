(** Whole runs. *)
From Coq Require Import List Arith Lia Bool PeanoNat.
From Verif Require Import ListBase TensorModel TensorSpec TensorProofs TensorProofs2 GraphModel GraphSpec GraphProofs GraphProofs2 GraphProofs3.
Import ListNotations.

Section Run.
Context {A : Type} (zero one : A) (add mul : A -> A -> A).
Variable dbg : bool.
Notation sizes_ok := (sizes_ok zero one add mul).
Notation disciplined := (disciplined zero one add mul).
Notation eval := (eval zero one add mul).

Lemma start_inv e s who : separate e s who -> sizes_ok (env_of s) e ->
  GraphProofs2.inv zero one add mul e (env_of s) (set_ran (set_cache s (fun _ => None)) []) who.
Proof.
  intros S Z. constructor.
  - exact S.
  - reflexivity.
  - intros k p H. destruct (Z k _ H ltac:(discriminate)) as (w & Ew & _). cbn in Ew.
    cbn [set_ran set_cache holders hp]. destruct (holders s p) as [t|] eqn:E; [|discriminate]. exists t. split; [reflexivity|].
    cbn. now rewrite E.
  - reflexivity.
  - intros n t C. discriminate.
Qed.

Theorem run_ok e s who : (forall c, e <> EVal c) -> consistent e -> sizes_ok (env_of s) e -> disciplined (env_of s) e ->
  separate e s who ->
  exists t s' who', run zero one add mul dbg e s = Ok (t, s') /\ eval (env_of s) e = Some (val_of (hp s') t) /\
    NoDup (ran s') /\ (forall n, In n (ran s') <-> In n (ids e)) /\
    post zero one add mul e (env_of s) None e (set_ran (set_cache s (fun _ => None)) []) s' who who' t /\
    separate e s' who'.
Proof.
  intros V C Z D S. set (s0 := set_ran (set_cache s (fun _ => None)) []).
  assert (Ve : is_value e = false) by (destruct e; auto; exfalso; eapply V; reflexivity).
  assert (I : GraphProofs2.inv zero one add mul e (env_of s) s0 who) by now apply start_inv.
  destruct (forward_ok zero one add mul dbg e (env_of s) C Z D e None s0 who (At_root e) Ve I ltac:(discriminate)) as (t & s' & who' & F & P).
  exists t, s', who'.
  split; [unfold run; rewrite (gbind_ok (modify (fun s => set_ran (set_cache s (fun _ => None)) [])) _ s tt s0 eq_refl); exact F|].
  pose proof P as [P1 P2 P3 P4 P5 P6 P7].
  split.
  { destruct (operand_good zero one add mul e (env_of s) C Z D s' who' None e P1 (At_root e) Ve ltac:(discriminate) P5) as (t' & G1 & G2 & _).
    rewrite P3 in G1. injection G1 as <-. exact G2. }
  destruct (x_ran _ _ _ _ _ P2) as (l & R1 & R2 & R3). cbn [s0 set_ran ran] in R1. rewrite app_nil_r in R1. rewrite R1.
  split; [exact R2|]. split.
  { intros n. rewrite R3. split.
    - intros [_ Hn]. destruct (P4 n Hn) as [N|N]; [exfalso; now apply N|exact N].
    - intros Hn. split; [reflexivity|]. now apply P5. }
  split; [exact P|]. exact (i_sep _ _ _ _ _ _ _ _ P1).
Qed.

End Run.
