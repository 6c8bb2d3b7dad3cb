(** C75: the drawing of an expression. *)
From Coq Require Import String.
From Coq Require Import List Arith NArith ZArith Lia Bool PeanoNat.
From Verif Require Import ListBase TextModel TextProofs PrintModel FmtModel FmtProofs DotModel DotSpec DotProofs.
Import ListNotations.
Local Open Scope nat_scope.

(** The text is a drawing in one way only: its statements are a node with the right look for every sub-expression and no other node, and
    an arrow from a to b exactly if a is an operand of b. *)
Theorem C75_statements e : well_named e -> exists ls, draws (computation_graph e) ls /\ (forall ms, draws (computation_graph e) ms -> ms = ls) /\
  (forall i st t, In (NodeL i st t) ls <-> exists s, In s (occurrences e) /\ id s = i /\ look s = (st, t)) /\
  (forall a b, In (ArrowL a b) ls <-> exists s o, In s (occurrences e) /\ In o (operands s) /\ id o = a /\ id s = b).
Proof.
  intros W. exists (lines e). split; [now apply draws_lines|]. split; [intros ms D; now apply (draws_inj _ _ _ D), draws_lines|]. split; [apply in_nodes|apply in_arrows].
Qed.

(** Every statement stands there once exactly if no object occurs twice in the expression. *)
Theorem C75_once_iff e ls : well_named e -> identified e -> draws (computation_graph e) ls -> (NoDup ls <-> NoDup (map id (occurrences e))).
Proof.
  intros W I D. rewrite (draws_inj _ _ _ D (draws_lines e W)). split; [now apply once_lines|apply lines_once].
Qed.

(** A shared operand is drawn again wherever it is used: k additions of an expression to itself, k + 1 objects, give more than 2^k
    statements. *)
Theorem C75_size_refuted k : well_named (doubled k) /\ identified (doubled k) /\ (forall s, In s (occurrences (doubled k)) -> id s <= k) /\
  forall ls, draws (computation_graph (doubled k)) ls -> 2 ^ k <= length ls /\ 2 ^ k <= length (computation_graph (doubled k)).
Proof.
  assert (O : forall k s, In s (occurrences (doubled k)) -> exists j, j <= k /\ s = doubled j).
  { clear. induction k as [|k IH]; intros s H.
    - destruct H as [<-|[]]. exists 0. auto.
    - cbn [doubled occurrences] in H. destruct H as [<-|H]; [exists (S k); auto|]. apply in_app_or in H. assert (In s (occurrences (doubled k))) as K by tauto. destruct (IH s K) as (j & L & E). exists j. split; [lia|exact E]. }
  assert (J : forall j, id (doubled j) = j) by (intros [|j]; reflexivity).
  assert (W : well_named (doubled k)).
  { intros s H. destruct (O k s H) as (j & _ & ->). destruct j as [|j]; cbn [doubled info_of name shape].
    - split; [discriminate|]. split; [|constructor]. constructor; [cbn; intuition discriminate|constructor].
    - split; [discriminate|]. split; [|constructor]. repeat (constructor; [cbn; intuition discriminate|]). constructor. }
  split; [exact W|]. split; [intros s t Hs Ht E; destruct (O k s Hs) as (a & _ & ->); destruct (O k t Ht) as (b & _ & ->); rewrite !J in E; now rewrite E|].
  split; [intros s H; destruct (O k s H) as (j & L & ->); now rewrite J|].
  intros ls D. assert (Ls : 2 ^ k <= length ls).
  { rewrite (draws_inj _ _ _ D (draws_lines _ W)). clear. induction k as [|k IH]; [cbn; lia|]. cbn [doubled lines operands map app length]. rewrite app_length. cbn [Nat.pow]. lia. }
  split; [exact Ls|]. destruct D as [_ ->]. rewrite !app_length. assert (length ls <= length (concat (map (fun l => line_text l ++ [10%N]) ls))); [|lia].
  clear. induction ls as [|l ls IH]; [cbn; lia|]. cbn [map concat length]. rewrite !app_length. cbn [length]. lia.
Qed.

(** The drawing tells the expression: identifiers, names, shapes (of at most eight lengths), operators, operands and their order, and which
    variables are trainable. *)
Theorem C75_tells e f : well_named e -> well_named f ->
  (forall s, In s (occurrences e) -> length (shape (info_of s)) <= 8) -> (forall s, In s (occurrences f) -> length (shape (info_of s)) <= 8) ->
  computation_graph e = computation_graph f -> e = f.
Proof.
  intros W X S T E. pose proof (draws_lines e W) as D. rewrite E in D. pose proof (draws_inj _ _ _ D (draws_lines f X)) as L.
  apply (lines_inj e f [] []); auto; [exact I|exact I|]. now rewrite !app_nil_r.
Qed.

(** From the ninth on, lengths do not appear (except in variables). *)
Theorem C75_shape_refuted i n s t u : length s = 8 -> t <> u -> length t <> 0 -> length u <> 0 ->
  Leaf (Info i n (s ++ t)) <> Leaf (Info i n (s ++ u)) /\ computation_graph (Leaf (Info i n (s ++ t))) = computation_graph (Leaf (Info i n (s ++ u))).
Proof.
  intros L N Lt Lu. split; [intros K; injection K as K; now apply app_inv_head in K|].
  unfold computation_graph. cbn [dot info_of node ident]. assert (Q : label (Info i n (s ++ t)) = label (Info i n (s ++ u))); [|now rewrite Q].
  unfold label. cbn [name shape ident]. assert (P : to_string (ASeq (map (fun z => AStream (put_Z z)) (signed_shape (s ++ t)))) = to_string (ASeq (map (fun z => AStream (put_Z z)) (signed_shape (s ++ u))))).
  { rewrite !signed_shape_map. cbn [to_string]. rewrite !sequence_long by (unfold max_shown; rewrite !map_length, app_length; lia). rewrite !map_map, !map_app.
    rewrite !firstn_app. assert (Z : max_shown - length (map (fun x => to_string (AStream (put_Z (long_long x)))) s) = 0) by (rewrite map_length, L; reflexivity). rewrite Z. reflexivity. }
  unfold format. destruct (find (str "{}") (str "{} <shape:{}> [id:{}]")); cbn [plain_format indexed_format]; now rewrite P.
Qed.
Print Assumptions C75_statements.
Print Assumptions C75_once_iff.
Print Assumptions C75_size_refuted.
Print Assumptions C75_tells.
Print Assumptions C75_shape_refuted.

Module Case.
  (** relu( x * w ) *)
  Definition x := Leaf (Info 0 (str "PlaceHolder") [2 ^ 64 - 1; 2]%N).
  Definition w := Var (Info 1 (str "Variable") [2; 3]%N) true.
  Definition e := Unary (Info 3 (str "relu") [2 ^ 64 - 1; 3]%N) (Binary (Info 2 (str "multiply") [2 ^ 64 - 1; 3]%N) x w).
  Definition nl := [10%N].
  Example drawing : computation_graph e = nl ++ nl ++ str "digraph g {" ++ nl ++
    str "n3 [label=""relu <shape:{ -1, 3, }> [id:3]""] ;" ++ nl ++
    str "n2 -> n3 ;" ++ nl ++
    str "n2 [label=""multiply <shape:{ -1, 3, }> [id:2]""] ;" ++ nl ++
    str "n0 -> n2 ;" ++ nl ++
    str "n1 -> n2 ;" ++ nl ++
    str "n0 [label=""PlaceHolder <shape:{ -1, 2, }> [id:0]""] ;" ++ nl ++
    str "n1 [peripheries=3,style=filled,color="".7 .3 1.0"",shape=box,label=""Variable <shape:{ 2, 3, }> [id:1][(2 3 ), trainable]""] ;" ++ nl ++
    str "}" ++ nl ++ nl.
  Proof. vm_compute. reflexivity. Qed.
  Example e_well_named : well_named e.
  Proof.
    intros s [<-|[<-|[<-|[<-|[]]]]]; (split; [discriminate|]); (split; [cbn [info_of name x w e]; repeat (constructor; [cbn; intuition discriminate|]); constructor|]); repeat (constructor; [reflexivity|]); constructor.
  Qed.
  Example e_identified : identified e.
  Proof. intros s t [<-|[<-|[<-|[<-|[]]]]] [<-|[<-|[<-|[<-|[]]]]] E; try reflexivity; discriminate E. Qed.
End Case.
