(** C90: the shapes of tensors, which live inside their allocators. *)
From Coq Require Import List Arith Lia Bool PeanoNat.
From Verif Require Import ListBase TensorModel DimsModel DimsSpec DimsProofs DimsProofs2 DimsProofs3.
Import ListNotations.

(** Whatever a program creates, copies, moves, assigns, reshapes, deep-copies and destroys: it runs, every tensor shows exactly the shape
    it was last given (or that of the tensor it was copied from, at that time), as if every tensor had a list of its own, and no block is
    left when no tensor is left.  With a system allocator that insists on the requested number of elements this holds if no shape has
    more than 16 dimensions. *)
Theorem C90_shapes : forall sized os n, (sized = true -> at_most 16 os) ->
  exists w, run sized os (begin n) = Ok w /\ shows w (changes os (repeat None n)) /\
    ((forall i, value (changes os (repeat None n)) i = None) -> Forall (fun b => live b = false) (heap w)).
Proof.
  intros sized os n T. destruct (run_ok sized os T _ _ (begin_ok sized n)) as (w & E & I). exists w. split; [exact E|]. split.
  - intros i. unfold seen. destruct (value (changes os (repeat None n)) i) as [d|] eqn:V.
    + destruct (inv_object _ _ _ _ _ I V) as (v & O). rewrite O. f_equal. eapply shape_ok; eauto.
    + now rewrite (inv_no_object _ _ _ _ I V).
  - intros A. apply Forall_forall. intros b B. destruct (In_nth_error _ _ B) as (k & Ek). destruct (live b) eqn:L; [|reflexivity].
    destruct (i_leak _ _ _ I k (words b)) as (i & f & F & _); [cbn; now rewrite Ek, L|].
    rewrite (inv_none _ _ _ _ I (A i)) in F. discriminate.
Qed.
Print Assumptions C90_shapes.

(** The bound is not 32, although 256 bytes hold 32 numbers, and beyond it the allocator breaks the system allocator's contract: it
    requests eight times as many elements as it gives back.  A tensor of 17 dimensions that is reshaped to 18 is enough. *)
Theorem C90_sized_refuted : ~ forall os n, at_most 18 os -> exists w, run true os (begin n) = Ok w.
Proof.
  intros H. destruct (H [Create 0 (repeat 1 17); Reshape 0 (repeat 1 18); Destroy 0] 1) as (w & E).
  - repeat constructor; cbn; lia.
  - vm_compute in E. discriminate.
Qed.
Print Assumptions C90_sized_refuted.

(** Without reshaping, too, 33 dimensions are too many. *)
Theorem C90_wide_refuted : ~ forall os n, Forall (fun o => match o with Reshape _ _ | DeepInto _ _ => False | _ => True end) os -> exists w, run true os (begin n) = Ok w.
Proof.
  intros H. destruct (H [Create 0 (repeat 1 33); Destroy 0] 1) as (w & E).
  - repeat constructor.
  - vm_compute in E. discriminate.
Qed.
Print Assumptions C90_wide_refuted.

(** ** A case: the source is reshaped and destroyed after having been copied; a vector moves from its buffer to the heap and is assigned to *)
Module Case.
Definition os : list op :=
  [Create 0 [2; 3]; Copy 1 0; Reshape 0 [6]; Create 2 (repeat 1 20); Reshape 2 (repeat 2 24); Assign 1 2; Reshape 2 [7; 7]; Deep 3 1; Assign 0 2; Destroy 2; DeepInto 1 0; Copy 4 3; Destroy 3].

Example C90_case : exists w, run false os (begin 5) = Ok w /\ shows w [Some [7; 7]; Some [7; 7]; None; None; Some (repeat 2 24)] /\ map live (heap w) = [false].
Proof.
  destruct (C90_shapes false os 5 ltac:(discriminate)) as (w & E & Sh & _). exists w. split; [exact E|]. split; [exact Sh|].
  vm_compute in E. injection E as <-. reflexivity.
Qed.

Example C90_case_sized : at_most 16 [Create 0 [2; 3]; Copy 1 0; Reshape 0 [6]; Assign 0 1; Destroy 1].
Proof. repeat constructor; cbn; lia. Qed.
End Case.
