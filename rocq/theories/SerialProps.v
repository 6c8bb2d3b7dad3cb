(** C66: dumping an expression as a C++ program. *)
From Coq Require Import String.
From Coq Require Import List Arith NArith ZArith Lia Bool PeanoNat.
From Verif Require Import ListBase TensorModel TextModel TextSpec TextProofs PrintModel SerialModel SerialSpec SerialProofs.
Import ListNotations.
Local Open Scope nat_scope.

Section C66.
Context {E : Type} (zero : E) (put : E -> list N) (take : list N -> option E) (lit : E -> list N) (unlit : list N -> option E).

(** If no object occurs twice in the expression and its numbers are literals, the program declares each object once, compiles (given the
    member load_tensor and the functions the operators are named after) and, run where the tensors were saved, leaves under the name
    that serialize returns an expression.  It is equal to the original (the same operators with the same printed arguments, the same
    numbers, weights, regularisers and flags, in the same places) if and only if every number in the program is read back exactly. *)
Theorem C66_rebuilds lib e fs :
  exact_text put take -> sound e -> unshared e -> are_literals lit unlit e -> load_member lib = true -> (forall id o n, In (id, KOp o n) (objects e) -> callable lib o n = true) ->
  exists s t, exec zero take unlit lib (save_files put e fs) (code lit e) [] = Some s /\ find (name_of e) s = Some (OEx t) /\ length s = length (objects e) /\
    (t = tree_of e <-> exact_literals lit unlit e).
Proof.
  intros X So U A L C. pose proof (unshared_names e U) as Nd.
  destruct (run_code zero put take lit unlit lib (save_files put e fs) X e [] So A) as (t & Et & Dt & Ft); [split; auto|now apply save_saves|exact Nd|intros n _ []|].
  rewrite app_nil_r in Et. exists t, (tree_read lit unlit e). split; [exact Et|]. split; [exact Ft|]. split; [|now apply tree_read_iff].
  transitivity (length (dom t)); [unfold dom; now rewrite map_length|]. rewrite Dt, rev_length. unfold names. apply map_length.
Qed.

(** Conversely the program compiles only if no object occurs twice: a variable, a place holder or a sub-expression that is used twice
    is declared twice; and only if its numbers are literals. *)
Theorem C66_compiles_iff lib e fs :
  exact_text put take -> sound e -> identified e ->
  ((exists s, exec zero take unlit lib (save_files put e fs) (code lit e) [] = Some s) <->
   unshared e /\ are_literals lit unlit e /\ (forall id o n, In (id, KOp o n) (objects e) -> callable lib o n = true) /\ (tensors e <> [] -> load_member lib = true)).
Proof.
  intros X So I. split.
  - intros (s & Es). destruct (run_back zero take lit unlit lib _ e [] s Es (NoDup_nil _)) as (D & N & A & B). split; [|split; [exact (run_literals zero take lit unlit lib _ e [] s Es)|auto]]. apply (names_unshared e I). rewrite app_nil_r in D. rewrite D in N.
    rewrite <- (rev_involutive (names e)). now apply NoDup_rev.
  - intros (U & Li & A & B). pose proof (proj1 (names_unshared e I) U) as Nd.
    destruct (run_code zero put take lit unlit lib (save_files put e fs) X e [] So Li) as (t & Et & _); [split; auto|now apply save_saves|exact Nd|intros n _ []|]. eauto.
Qed.

(** The promise "the program rebuilds the expression" fails for every expression in which an object occurs twice, whatever the library. *)
Theorem C66_shared_refuted lib e fs : identified e -> ~ unshared e -> exec zero take unlit lib fs (code lit e) [] = None.
Proof.
  intros I U. destruct (exec zero take unlit lib fs (code lit e) []) as [s|] eqn:Es; [|reflexivity]. exfalso. apply U. destruct (run_back zero take lit unlit lib _ e [] s Es (NoDup_nil _)) as (D & N & _).
  apply (names_unshared e I). rewrite app_nil_r in D. rewrite D in N. rewrite <- (rev_involutive (names e)). now apply NoDup_rev.
Qed.

(** As the library is: no tensor has a member load_tensor, and four operators are named after nothing; so no program of an
    expression with a variable, a constant or one of these operators compiles. *)
Theorem C66_as_shipped_refuted lib e fs : load_member lib = false -> (forall o n, In (oname o) misnamed -> callable lib o n = false) ->
  (tensors e <> [] \/ exists id o n, In (id, KOp o n) (objects e) /\ In (oname o) misnamed) -> exec zero take unlit lib fs (code lit e) [] = None.
Proof.
  intros L C H. destruct (exec zero take unlit lib fs (code lit e) []) as [s|] eqn:Es; [|reflexivity]. exfalso. destruct (run_back zero take lit unlit lib _ e [] s Es (NoDup_nil _)) as (_ & _ & A & B).
  destruct H as [H|(id & o & n & H1 & H2)]; [specialize (B H); congruence|]. specialize (A id o n H1). rewrite (C o n H2) in A. discriminate A.
Qed.

(** Serialising another expression afterwards in the same directory leaves the first program's weights alone if no tensor of the one has
    the identifier of a tensor of the other, which one process guarantees. *)
Theorem C66_second lib e e' fs :
  exact_text put take -> sound e -> unshared e -> exact_literals lit unlit e -> load_member lib = true -> (forall id o n, In (id, KOp o n) (objects e) -> callable lib o n = true) ->
  (forall tid, In tid (map fst (tensors e)) -> ~ In tid (map fst (tensors e'))) ->
  exists s, exec zero take unlit lib (save_files put e' (save_files put e fs)) (code lit e) [] = Some s /\ find (name_of e) s = Some (OEx (tree_of e)).
Proof.
  intros X So U Li L C D. pose proof (unshared_names e U) as Nd. assert (A : are_literals lit unlit e) by (intros x H; exists x; now apply Li).
  destruct (run_code zero put take lit unlit lib (save_files put e' (save_files put e fs)) X e [] So A) as (t & Et & _ & Ft); [split; auto| |exact Nd|intros n _ []|].
  - intros tid x H. assert (In tid (map fst (tensors e))) as Ht by (apply in_map_iff; exists (tid, x); auto). rewrite save_other; [now apply (save_saves put e fs U)|].
    intros t K Et. apply tensor_file_inj in Et. subst t. exact (D tid Ht K).
  - rewrite app_nil_r in Et. rewrite (proj2 (tree_read_iff lit unlit e A) Li) in Ft. eauto.
Qed.

(** Identifiers start again in every process: a model saved by another process with the same identifiers replaces the weights, and the
    first program silently rebuilds a variable with the other model's weights. *)
Theorem C66_second_refuted lib id tid (x y : list nat * list E) l1 l2 tr fs :
  exact_text put take -> unlit (lit l1) = Some l1 -> unlit (lit l2) = Some l2 -> full x -> full y -> x <> y -> id <> tid -> load_member lib = true ->
  let e := Var id tid x l1 l2 tr in let e' := Var id tid y l1 l2 tr in
  exists s, exec zero take unlit lib (save_files put e' (save_files put e fs)) (code lit e) [] = Some s /\ find (name_of e) s = Some (OEx (TVar y l1 l2 tr)) /\ tree_of e <> TVar y l1 l2 tr.
Proof.
  intros X L1 L2 Fx Fy Ne Ni L. cbn zeta. set (e' := Var id tid y l1 l2 tr). destruct (run_code zero put take lit unlit lib (save_files put e' (save_files put (Var id tid x l1 l2 tr) fs)) X e' []) as (t & Et & _ & Ft).
  - intros i z [[= <- <-]|[]]. exact Fy.
  - intros z [<-|[<-|[]]]; eauto.
  - split; [intros i o n [K|[K|[]]]; discriminate K|auto].
  - apply save_saves. cbn. constructor; [intros [K|[]]; auto|]. constructor; [intros []|constructor].
  - apply (names_unshared e'); [intros i k k' [K|[K|[]]] [K'|[K'|[]]]; congruence|]. cbn. constructor; [intros [K|[]]; auto|]. constructor; [intros []|constructor].
  - intros n _ [].
  - rewrite app_nil_r in Et. exists t. split; [exact Et|]. cbn [tree_read e'] in Ft. unfold reread in Ft. rewrite L1, L2 in Ft. split; [exact Ft|]. cbn [tree_of]. intros K. injection K as K. exact (Ne K).
Qed.
End C66.

(** The numbers are written with six digits: two values that are not the same number give the same program, so whatever the compiler
    does, one of them is not rebuilt. *)
Theorem C66_number_refuted : exists x y : flt, single x /\ single y /\ ~ same_value x y /\
  (forall id, code (put_flt 6) (Val id x) = code (put_flt 6) (Val id y)) /\
  (forall id tid (w : list nat * list flt) l tr, code (put_flt 6) (Var id tid w x l tr) = code (put_flt 6) (Var id tid w y l tr) /\
    code (put_flt 6) (Var id tid w l x tr) = code (put_flt 6) (Var id tid w l y tr)) /\
  forall unlit id, ~ (exact_literals (put_flt 6) unlit (Val id x) /\ exact_literals (put_flt 6) unlit (Val id y)).
Proof.
  set (x := Flt false 8388609%N (-23)%Z). set (y := Flt false 1%N 0%Z). exists x, y.
  assert (P : put_flt 6 x = put_flt 6 y) by (vm_compute; reflexivity).
  split; [vm_compute; repeat split; congruence|]. split; [vm_compute; repeat split; congruence|]. split.
  { unfold same_value. cbn [x y mantissa negative exponent]. intros [[K _]|[_ (k & j & K1 & K2)]]; [discriminate K|].
    assert (k = 23 + j)%N as -> by lia. rewrite N.pow_add_r in K2. pose proof (N.pow_nonzero 2 j). change (2 ^ 23)%N with 8388608%N in K2. nia. }
  split; [intros id; cbn [code]; now rewrite P|]. split; [intros id tid w l tr; cbn [code]; now rewrite P|].
  intros unlit id [A B]. specialize (A x (or_introl eq_refl)). specialize (B y (or_introl eq_refl)). rewrite P, B in A. discriminate A.
Qed.
Print Assumptions C66_rebuilds.
Print Assumptions C66_compiles_iff.
Print Assumptions C66_shared_refuted.
Print Assumptions C66_as_shipped_refuted.
Print Assumptions C66_second.
Print Assumptions C66_second_refuted.
Print Assumptions C66_number_refuted.

Module Case.
  Definition call n := Operator (str n) Plain [].
  Definition plus1 (n : nat) := Operator (str "arithmetic_plus") (Infix 43%N) [put_nat n].
  Definition lib := Library true (fun _ _ => true).
  (** relu( x * w ) + 3, elements are natural numbers *)
  Definition e : ex nat := Un 5 (plus1 3) (Un 4 (call "relu") (Bin 3 (call "multiply") (Hold 0) (Var 2 1 ([1; 2], [7; 8]) 0 0 true))).
  Definition fs := save_files put_nat e (fun _ => None).
  Example text_is_exact : exact_text put_nat take_nat. Proof. intros a. split; [apply put_nat_word|apply take_put_nat]. Qed.
  Example is_sound : sound e. Proof. intros tid x [[= <- <-]|[]]. reflexivity. Qed.
  Example is_unshared : unshared e. Proof. unfold unshared. cbn. repeat (constructor; [cbn; intuition discriminate|]). constructor. Qed.
  Example names : map fst match exec 0 take_nat take_nat lib fs (code put_nat e) [] with Some s => s | None => [] end =
    [str "unary_expression_arithmetic_plus_5"; str "unary_expression_relu_4"; str "binary_expression_multiply_3"; str "variable_2"; str "tensor_1"; str "place_holder_0"].
  Proof. reflexivity. Qed.
  Example rebuilt : match exec 0 take_nat take_nat lib fs (code put_nat e) [] with Some s => find (name_of e) s | None => None end = Some (OEx (tree_of e)).
  Proof. reflexivity. Qed.
  Example literals_are_exact : exact_literals put_nat take_nat e. Proof. intros x _. apply take_put_nat. Qed.
  (** x + x *)
  Definition twice : ex nat := Bin 1 (call "plus") (Hold 0) (Hold 0).
  Example twice_fails : exec 0 take_nat take_nat lib fs (code put_nat twice) [] = None. Proof. reflexivity. Qed.
End Case.
