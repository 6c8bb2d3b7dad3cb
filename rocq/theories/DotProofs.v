(** Lemmas about the drawing of expressions. *)
From Coq Require Import String.
From Coq Require Import List Arith NArith ZArith Lia Bool PeanoNat.
From Coq Require DecimalN DecimalPos.
From Verif Require Import ListBase TextModel TextProofs PrintModel FmtModel FmtSpec FmtProofs FmtProps DotModel DotSpec.
Import ListNotations.
Local Open Scope nat_scope.

(** ** Numbers *)

Lemma digits_chars n c : In c (digits n) -> (48 <= c <= 57)%N.
Proof. intros H. exact (proj1 (Forall_forall _ _) (chars_of_uint_digits _) c H). Qed.
Lemma digits_nonempty n : digits n <> [].
Proof.
  unfold digits. assert (H : N.to_uint n <> Decimal.Nil) by (destruct n as [|p]; [discriminate|apply DecimalPos.Unsigned.to_uint_nonnil]). destruct (N.to_uint n); [easy| | | | | | | | | |]; discriminate.
Qed.
Lemma digits_inj n m : digits n = digits m -> n = m.
Proof.
  intros H. unfold digits in H. assert (Some (N.to_uint n) = Some (N.to_uint m)) as [= K] by (rewrite <- !uint_of_chars_of; now rewrite H).
  rewrite <- (DecimalN.Unsigned.of_to n), <- (DecimalN.Unsigned.of_to m). now rewrite K.
Qed.
Lemma number_simple d : simple (number d).
Proof.
  unfold number, simple. split.
  - destruct (d <? 2 ^ 63)%N; [apply digits_nonempty|discriminate].
  - apply Forall_forall. intros c H K. assert (c = 45 \/ 48 <= c <= 57)%N as [->|B].
    { destruct (d <? 2 ^ 63)%N; [right; now apply digits_chars in H|]. destruct H as [H|H]; [left; exact (eq_sym H)|right; now apply digits_chars in H]. }
    + cbn in K. intuition discriminate.
    + cbn in K. intuition lia.
Qed.
Lemma number_inj d e : (d < 2 ^ 64)%N -> (e < 2 ^ 64)%N -> number d = number e -> d = e.
Proof.
  intros D E H. unfold number in H. destruct (N.ltb_spec d (2 ^ 63)) as [A|A]; destruct (N.ltb_spec e (2 ^ 63)) as [B|B].
  - now apply digits_inj.
  - exfalso. assert (K : In 45%N (digits d)) by (rewrite H; now left). apply digits_chars in K. lia.
  - exfalso. assert (K : In 45%N (digits e)) by (rewrite <- H; now left). apply digits_chars in K. lia.
  - apply app_inv_head in H. apply digits_inj in H. lia.
Qed.
Lemma put_long_long d : (d < 2 ^ 64)%N -> put_Z (long_long d) = number d.
Proof.
  intros D. unfold long_long, number. destruct (N.ltb_spec d (2 ^ 63)) as [A|A].
  - destruct d; reflexivity.
  - assert (exists p, (2 ^ 64 - d)%N = Npos p /\ (Z.of_N d - 2 ^ 64)%Z = Zneg p) as (p & -> & ->); [|reflexivity].
    exists (N.succ_pos (2 ^ 64 - d - 1)). rewrite N.succ_pos_spec. split; [lia|]. rewrite <- Pos2Z.opp_pos, <- (N2Z.inj_pos (N.succ_pos _)), N.succ_pos_spec. lia.
Qed.
Lemma signed_shape_map s : signed_shape s = map long_long s.
Proof. unfold signed_shape. destruct s as [|d s]; [reflexivity|]. cbn [map]. destruct (N.eqb_spec d (2 ^ 64 - 1)) as [->|]; reflexivity. Qed.
Lemma put_shape s : Forall (fun d => (d < 2 ^ 64)%N) s -> map to_string (map (fun z => AStream (put_Z z)) (signed_shape s)) = map number s.
Proof. intros F. rewrite signed_shape_map, !map_map. apply map_ext_in. intros d H. cbn [to_string]. apply put_long_long. exact (proj1 (Forall_forall _ _) F d H). Qed.
Lemma sequence_shape s : sequence (map number s) = shape_text s.
Proof.
  unfold shape_text. destruct (le_lt_dec (length s) 8) as [H|H].
  - rewrite sequence_short by (rewrite map_length; exact H). rewrite firstn_all2 by exact H. rewrite map_map. assert ((8 <? length s) = false) as -> by (apply Nat.ltb_ge; exact H). reflexivity.
  - rewrite sequence_long by (rewrite map_length; exact H). assert ((8 <? length s) = true) as -> by (apply Nat.ltb_lt; exact H). change max_shown with 8. rewrite firstn_map, map_map. reflexivity.
Qed.

(** ** Labels *)

Lemma no_place (t : list N) : ~ In 123%N t -> ~ occurs (str "{}") t.
Proof. intros N (a & b & ->). apply N. apply in_or_app. right. now left. Qed.
Lemma shape_tail s : exists z, shape_text s = 123%N :: 32%N :: z /\ ~ In 123%N z.
Proof.
  eexists. split; [reflexivity|]. intros H. apply in_app_or in H. destruct H as [H|H].
  - apply in_concat in H. destruct H as (x & Hx & H). apply in_map_iff in Hx. destruct Hx as (d & <- & _). apply in_app_or in H. destruct H as [H|H].
    + unfold number in H. destruct (d <? 2 ^ 63)%N; [apply digits_chars in H; lia|]. destruct H as [H|H]; [discriminate H|apply digits_chars in H; lia].
    + cbn in H. intuition discriminate.
  - destruct (8 <? length s); cbn in H; intuition discriminate.
Qed.
Lemma label_text i : name i <> [] -> Forall (fun c => ~ In c [123; 125; 10; 60]%N) (name i) -> Forall (fun d => (d < 2 ^ 64)%N) (shape i) ->
  label i = name i ++ str " <shape:" ++ shape_text (shape i) ++ str "> [id:" ++ put_nat (ident i) ++ str "]".
Proof.
  intros Ne Nm Sh. unfold label.
  pose proof (C74_plain [] (str " <shape:") [str "> [id:"; str "]"] [AStr (name i); ASeq (map (fun z => AStream (put_Z z)) (signed_shape (shape i))); AStr (put_nat (ident i))]) as P.
  cbn zeta in P. change (with_places [[]; str " <shape:"; str "> [id:"; str "]"]) with (str "{} <shape:{}> [id:{}]") in P. rewrite P; clear P.
  - cbn [map to_string filled]. rewrite put_shape, sequence_shape by exact Sh. cbn [app]. reflexivity.
  - repeat constructor; apply no_place; cbn; intuition discriminate.
  - cbn [map to_string length]. change (Nat.min (3 - 1) (S 2)) with 2. cbn [firstn filled]. rewrite put_shape, sequence_shape by exact Sh. cbn [app].
    intros O. destruct (shape_tail (shape i)) as (z & Ez & Nz). rewrite Ez in O. apply occurs_split in O. destruct O as [O|[O|[_ (y & O)]]].
    + revert O. apply no_place. intros H. rewrite Forall_forall in Nm. specialize (Nm _ H). apply Nm. now left.
    + apply occurs_split in O. destruct O as [O|[O|[_ (y & O)]]]; [revert O; apply no_place; cbn; intuition discriminate| |discriminate O].
      change (123%N :: 32%N :: z) with ([123; 32]%N ++ z) in O. rewrite <- app_assoc in O. apply occurs_split in O. destruct O as [O|[O|[(y & O) _]]].
      * apply find_occurs in O. now apply O.
      * revert O. apply no_place. intros H. apply in_app_or in H. destruct H as [H|H]; [now apply Nz|]. cbn in H. intuition discriminate.
      * change [123; 32]%N with ([123%N] ++ [32%N]) in O. apply app_inj_tail in O. destruct O as [_ O]. discriminate O.
    + discriminate O.
Qed.

(** ** Statements *)

Definition node_line (e : ex) : line := NodeL (id e) (fst (look e)) (snd (look e)).
Fixpoint lines (e : ex) : list line :=
  node_line e :: map (fun o => ArrowL (id o) (id e)) (operands e) ++ match e with Unary _ o => lines o | Binary _ l r => lines l ++ lines r | _ => [] end.

Lemma well_named_self e : well_named e -> name (info_of e) <> [] /\ Forall (fun c => ~ In c [123; 125; 10; 60]%N) (name (info_of e)) /\ Forall (fun d => (d < 2 ^ 64)%N) (shape (info_of e)).
Proof. intros W. apply W. destruct e; now left. Qed.
Lemma well_named_unary i o : well_named (Unary i o) -> well_named o. Proof. intros W s H. apply W. now right. Qed.
Lemma well_named_left i l r : well_named (Binary i l r) -> well_named l. Proof. intros W s H. apply W. right. apply in_or_app. now left. Qed.
Lemma well_named_right i l r : well_named (Binary i l r) -> well_named r. Proof. intros W s H. apply W. right. apply in_or_app. now right. Qed.

Notation printed ls := (concat (map (fun l => line_text l ++ [10%N]) ls)).
Lemma printed_app a b : printed (a ++ b) = printed a ++ printed b. Proof. now rewrite map_app, concat_app. Qed.
Lemma dot_lines : forall e, well_named e -> dot e = printed (lines e).
Proof.
  induction e as [i|i tr|i o IH|i l IHl r IHr]; intros W; destruct (well_named_self _ W) as (Ne & Nm & Sh); cbn [info_of] in *.
  - cbn [dot lines operands map app concat info_of]. rewrite label_text by assumption. unfold node_line, node. cbn [line_text look fst snd style_text id info_of]. unfold id. cbn [info_of]. rewrite app_nil_r. rewrite <- !app_assoc. reflexivity.
  - cbn [dot lines operands map app concat info_of]. rewrite label_text by assumption. unfold node_line, node. destruct tr; cbn [line_text look fst snd style_text]; unfold id; cbn [info_of]; rewrite app_nil_r; rewrite <- !app_assoc; reflexivity.
  - cbn [dot lines operands]. rewrite IH by (now apply well_named_unary in W). cbn [map app concat info_of]. rewrite label_text by assumption. unfold node_line, node. cbn [line_text look fst snd style_text]; unfold id; cbn [info_of]. rewrite <- !app_assoc. reflexivity.
  - cbn [dot lines operands]. rewrite IHl by (now apply well_named_left in W). rewrite IHr by (now apply well_named_right in W). cbn [map app concat info_of]. rewrite printed_app. rewrite label_text by assumption.
    unfold node_line, node. cbn [line_text look fst snd style_text]; unfold id; cbn [info_of]. rewrite <- !app_assoc. reflexivity.
Qed.

Lemma no_newline_digits n : ~ In 10%N (digits n). Proof. intros H. apply digits_chars in H. lia. Qed.
Lemma no_newline_nat n : ~ In 10%N (put_nat n). Proof. intros H. apply put_nat_digit in H. lia. Qed.
Lemma no_newline_number d : ~ In 10%N (number d).
Proof. intros H. unfold number in H. destruct (d <? 2 ^ 63)%N; [now apply no_newline_digits in H|]. destruct H as [H|H]; [discriminate H|now apply no_newline_digits in H]. Qed.
Lemma not_in_app {A} (x : A) a b : ~ In x a -> ~ In x b -> ~ In x (a ++ b). Proof. intros H K L. apply in_app_or in L. tauto. Qed.
Lemma not_in_concat {A B} (x : A) (f : B -> list A) l : (forall b, ~ In x (f b)) -> ~ In x (concat (map f l)).
Proof. intros H K. apply in_concat in K. destruct K as (y & Hy & K). apply in_map_iff in Hy. destruct Hy as (b & <- & _). exact (H b K). Qed.
Ltac newline := repeat apply not_in_app; try apply no_newline_nat; try apply no_newline_digits; try apply no_newline_number; try (cbn; intuition discriminate).
Lemma no_newline_shape s : ~ In 10%N (shape_text s).
Proof. unfold shape_text. newline; [apply not_in_concat; intros b; newline|]. destruct (8 <? length s); newline. Qed.
Lemma lines_one_line : forall e, well_named e -> Forall one_line (lines e).
Proof.
  assert (Ar : forall a b, one_line (ArrowL a b)) by (intros a b; unfold one_line; cbn [line_text]; newline).
  assert (No : forall e, well_named e -> one_line (node_line e)).
  { intros e W. destruct (well_named_self _ W) as (_ & Nm & _). unfold one_line, node_line. cbn [line_text].
    assert (H : ~ In 10%N (name (info_of e))) by (intros H; rewrite Forall_forall in Nm; apply (Nm _ H); cbn; auto).
    newline.
    - destruct (fst (look e)); cbn [style_text]; newline.
    - unfold look. destruct e as [i|i tr|i o|i l r]; cbn [info_of snd] in *; newline; try exact H; try apply no_newline_shape; try (apply not_in_concat; intros b; newline);
        match goal with |- ~ In _ (if ?b then _ else _) => destruct b; newline end. }
  induction e as [i|i tr|i o IH|i l IHl r IHr]; intros W; cbn [lines operands map app].
  - constructor; [now apply No|constructor].
  - constructor; [now apply No|constructor].
  - constructor; [now apply No|]. constructor; [apply Ar|]. apply IH. now apply well_named_unary in W.
  - constructor; [now apply No|]. constructor; [apply Ar|]. constructor; [apply Ar|]. apply Forall_app. split; [apply IHl; now apply well_named_left in W|apply IHr; now apply well_named_right in W].
Qed.

(** ** The statements can be read from the text *)

Lemma cut_end (x : N) (a b r s : list N) : ~ In x a -> ~ In x b -> a ++ x :: r = b ++ x :: s -> a = b /\ r = s.
Proof.
  revert b. induction a as [|y a IH]; intros [|z b] A B E; cbn [app] in E.
  - injection E as ->. auto.
  - injection E as <- _. destruct B. now left.
  - injection E as -> _. destruct A. now left.
  - injection E as -> E. destruct (IH b) as [-> ->]; auto; intros H; [apply A|apply B]; now right.
Qed.
Lemma no_space_nat n : ~ In 32%N (put_nat n). Proof. intros H. apply put_nat_digit in H. lia. Qed.
Lemma line_text_inj l m : line_text l = line_text m -> l = m.
Proof.
  assert (Sp : forall a b u v, str "n" ++ put_nat a ++ str " " ++ u = str "n" ++ put_nat b ++ str " " ++ v -> a = b /\ u = v).
  { intros a b u v E. apply app_inv_head in E. change (str " ") with [32%N] in E. cbn [app] in E. apply cut_end in E; [|apply no_space_nat|apply no_space_nat]. destruct E as [E ->]. split; [now apply put_nat_inj|reflexivity]. }
  destruct l as [i s t|a b]; destruct m as [j s' t'|c d]; cbn [line_text]; intros E.
  - change (str " [") with (str " " ++ str "[") in E. rewrite <- !app_assoc in E. apply Sp in E. destruct E as [-> E]. apply app_inv_head in E.
    assert (s = s') as -> by (destruct s, s'; cbn in E; try reflexivity; discriminate E). apply app_inv_head, app_inv_head, app_inv_tail in E. now rewrite E.
  - exfalso. change (str " [") with (str " " ++ str "[") in E. change (str " -> n") with (str " " ++ str "-> n") in E. rewrite <- !app_assoc in E. apply Sp in E. destruct E as [_ E]. discriminate E.
  - exfalso. change (str " [") with (str " " ++ str "[") in E. change (str " -> n") with (str " " ++ str "-> n") in E. rewrite <- !app_assoc in E. apply Sp in E. destruct E as [_ E]. discriminate E.
  - change (str " -> n") with (str " " ++ str "-> n") in E. rewrite <- !app_assoc in E. apply Sp in E. destruct E as [-> E]. apply app_inv_head, app_inv_tail in E. apply put_nat_inj in E. now rewrite E.
Qed.
Lemma line_starts l : exists u, line_text l = 110%N :: u. Proof. destruct l; eexists; reflexivity. Qed.
Lemma printed_inj : forall ls ms r s, Forall one_line ls -> Forall one_line ms -> printed ls ++ 125%N :: r = printed ms ++ 125%N :: s -> ls = ms.
Proof.
  induction ls as [|l ls IH]; intros [|m ms] r s L M E.
  - reflexivity.
  - exfalso. cbn [map concat] in E. destruct (line_starts m) as (u & Eu). rewrite Eu in E. discriminate E.
  - exfalso. cbn [map concat] in E. destruct (line_starts l) as (u & Eu). rewrite Eu in E. discriminate E.
  - cbn [map concat] in E. rewrite <- !app_assoc in E. cbn [app] in E. apply cut_end in E; [|exact (Forall_inv L)|exact (Forall_inv M)]. destruct E as [E1 E2]. apply line_text_inj in E1. subst m. f_equal.
    exact (IH ms r s (Forall_inv_tail L) (Forall_inv_tail M) E2).
Qed.
Lemma draws_inj t ls ms : draws t ls -> draws t ms -> ls = ms.
Proof. intros [L E] [M F]. rewrite E in F. do 3 apply app_inv_head in F. exact (printed_inj ls ms _ _ L M F). Qed.
Lemma draws_lines e : well_named e -> draws (computation_graph e) (lines e).
Proof. intros W. split; [now apply lines_one_line|]. unfold computation_graph. now rewrite dot_lines. Qed.

(** ** Nodes and arrows *)

Lemma in_nodes : forall e i st t, In (NodeL i st t) (lines e) <-> exists s, In s (occurrences e) /\ id s = i /\ look s = (st, t).
Proof.
  assert (Nd : forall e i st t, node_line e = NodeL i st t <-> id e = i /\ look e = (st, t)).
  { intros e i st t. unfold node_line. split; [intros K; injection K as <- <- <-; split; [reflexivity|now destruct (look e)]|intros [<- ->]; reflexivity]. }
  induction e as [j|j tr|j o IH|j l IHl r IHr]; intros i st t; cbn [lines operands map app occurrences In]; rewrite Nd.
  - split; [intros [H|[]]; exists (Leaf j); auto|intros (s & [<-|[]] & H); auto].
  - split; [intros [H|[]]; exists (Var j tr); auto|intros (s & [<-|[]] & H); auto].
  - rewrite IH. split.
    + intros [H|[K|(s & A & B)]]; [exists (Unary j o); auto|discriminate K|exists s; auto].
    + intros (s & [<-|A] & B); [auto|right; right; exists s; auto].
  - rewrite in_app_iff, IHl, IHr. split.
    + intros [H|[K|[K|[(s & A & B)|(s & A & B)]]]]; [exists (Binary j l r); auto|discriminate K|discriminate K|exists s; split; [right; apply in_or_app; auto|exact B]|exists s; split; [right; apply in_or_app; auto|exact B]].
    + intros (s & [<-|A] & B); [auto|]. apply in_app_or in A. right. right. right. destruct A as [A|A]; [left|right]; exists s; auto.
Qed.
Lemma in_arrows : forall e a b, In (ArrowL a b) (lines e) <-> exists s o, In s (occurrences e) /\ In o (operands s) /\ id o = a /\ id s = b.
Proof.
  induction e as [j|j tr|j o IH|j l IHl r IHr]; intros a b; cbn [lines operands map app occurrences In].
  - split; [intros [K|[]]; discriminate K|intros (s & o & [<-|[]] & [] & _)].
  - split; [intros [K|[]]; discriminate K|intros (s & o & [<-|[]] & [] & _)].
  - rewrite IH. split.
    + intros [K|[K|(s & p & A & B)]]; [discriminate K|injection K as <- <-; exists (Unary j o), o; cbn; auto|exists s, p; auto].
    + intros (s & p & [<-|A] & B & <- & <-); [right; left; destruct B as [<-|[]]; reflexivity|right; right; exists s, p; auto].
  - rewrite in_app_iff, IHl, IHr. split.
    + intros [K|[K|[K|[(s & p & A & B)|(s & p & A & B)]]]]; [discriminate K|injection K as <- <-; exists (Binary j l r), l; cbn; auto|injection K as <- <-; exists (Binary j l r), r; cbn; auto|exists s, p; split; [right; apply in_or_app; auto|exact B]|exists s, p; split; [right; apply in_or_app; auto|exact B]].
    + intros (s & p & [<-|A] & B & <- & <-); [destruct B as [<-|[<-|[]]]; auto|]. apply in_app_or in A. right. right. right. destruct A as [A|A]; [left|right]; exists s, p; auto.
Qed.

(** ** Each once *)

Definition target (l : line) : nat := match l with NodeL i _ _ => i | ArrowL _ b => b end.
Lemma target_in : forall e l, In l (lines e) -> In (target l) (map id (occurrences e)).
Proof.
  intros e [i st t|a b] H; cbn [target].
  - apply in_nodes in H. destruct H as (s & A & <- & _). apply in_map_iff. eauto.
  - apply in_arrows in H. destruct H as (s & o & A & _ & _ & <-). apply in_map_iff. eauto.
Qed.
Lemma nodup_app {A} (a b : list A) : NoDup a -> NoDup b -> (forall x, In x a -> ~ In x b) -> NoDup (a ++ b).
Proof. induction a as [|x a IH]; intros Na Nb D; [exact Nb|]. inversion Na as [|? ? N1 N2]. subst. constructor; [apply not_in_app; [exact N1|apply D; now left]|]. apply IH; auto. intros y H. apply D. now right. Qed.
Lemma nodup_app_inv {A} (a b : list A) : NoDup (a ++ b) -> NoDup a /\ NoDup b /\ (forall x, In x a -> ~ In x b).
Proof.
  induction a as [|x a IH]; intros N; [split; [constructor|]; split; [exact N|intros x []]|]. inversion N as [|? ? N1 N2]. subst. destruct (IH N2) as (A1 & A2 & A3). split; [constructor; [intros H; apply N1; apply in_or_app; now left|exact A1]|]. split; [exact A2|].
  intros y [<-|H]; [intros K; apply N1; apply in_or_app; now right|now apply A3].
Qed.
Lemma own_id e : In (id e) (map id (occurrences e)). Proof. destruct e; now left. Qed.
Lemma lines_once : forall e, NoDup (map id (occurrences e)) -> NoDup (lines e).
Proof.
  induction e as [j|j tr|j o IH|j l IHl r IHr]; intros N; cbn [lines operands map app occurrences] in *.
  - constructor; [intros []|constructor].
  - constructor; [intros []|constructor].
  - inversion N as [|? ? N1 N2]. subst. assert (T : forall x, In x (lines o) -> target x <> id (Unary j o)) by (intros x H K; apply target_in in H; rewrite K in H; exact (N1 H)).
    constructor; [intros [K|K]; [discriminate K|now apply (T _ K)]|]. constructor; [intros K; now apply (T _ K)|now apply IH].
  - rewrite map_app in N. inversion N as [|? ? N1 N2]. subst. apply nodup_app_inv in N2. destruct N2 as (Nl & Nr & D).
    assert (T : forall x, In x (lines l ++ lines r) -> target x <> id (Binary j l r)) by (intros x H K; apply in_app_or in H; apply N1; rewrite <- K; apply in_or_app; destruct H as [H|H]; apply target_in in H; auto).
    constructor; [intros [K|[K|K]]; [discriminate K|discriminate K|now apply (T _ K)]|].
    constructor; [intros [K|K]; [injection K as K; apply (D (id l)); [apply own_id|rewrite <- K; apply own_id]|now apply (T _ K)]|].
    constructor; [intros K; now apply (T _ K)|]. apply nodup_app; [now apply IHl|now apply IHr|]. intros x H K. apply target_in in H. apply target_in in K. exact (D _ H K).
Qed.
Definition is_node (l : line) : bool := match l with NodeL _ _ _ => true | ArrowL _ _ => false end.
Lemma nodes_lines : forall e, filter is_node (lines e) = map node_line (occurrences e).
Proof.
  assert (F : forall {A} (f : A -> bool) a b, filter f (a ++ b) = filter f a ++ filter f b) by (intros A f a b; induction a as [|x a IH]; [reflexivity|]; cbn [app filter]; destruct (f x); rewrite IH; reflexivity).
  induction e as [j|j tr|j o IH|j l IHl r IHr]; cbn [lines operands map app occurrences filter is_node node_line]; [reflexivity|reflexivity|now rewrite IH|]. now rewrite F, IHl, IHr, map_app.
Qed.
Lemma once_lines e : identified e -> NoDup (lines e) -> NoDup (map id (occurrences e)).
Proof.
  intros I N. apply (NoDup_filter is_node) in N. rewrite nodes_lines in N. apply NoDup_map_inv in N.
  unfold identified in I. revert I N. generalize (occurrences e). induction l as [|s l IH]; intros I N; [constructor|]. inversion N as [|? ? N1 N2]. subst. cbn [map]. constructor.
  - intros K. apply in_map_iff in K. destruct K as (t & E & K). apply N1. rewrite <- (I t s); [exact K|now right|now left|exact E].
  - apply IH; [|exact N2]. intros a b A B. apply I; now right.
Qed.

(** ** The drawing tells the expression *)

Lemma shape_text_inj s t : length s <= 8 -> length t <= 8 -> Forall (fun d => (d < 2 ^ 64)%N) s -> Forall (fun d => (d < 2 ^ 64)%N) t -> shape_text s = shape_text t -> s = t.
Proof.
  intros Ls Lt S T E. rewrite <- !sequence_shape in E. apply sequence_injective in E.
  - destruct E as [E|(K & _)]; [|rewrite map_length in K; unfold max_shown in K; lia]. clear Ls Lt. revert t T E. induction s as [|d s IH]; intros [|d' t] T E; try discriminate E; [reflexivity|].
    cbn [map] in E. inversion S as [|? ? S1 S2]. inversion T as [|? ? T1 T2]. subst. injection E as E1 E2. rewrite (number_inj d d' S1 T1 E1). f_equal. now apply IH.
  - apply Forall_forall. intros x Hx. apply in_map_iff in Hx. destruct Hx as (d & <- & _). apply number_simple.
  - apply Forall_forall. intros x Hx. apply in_map_iff in Hx. destruct Hx as (d & <- & _). apply number_simple.
Qed.
Lemma shape_text_no s : ~ In 62%N (shape_text s).
Proof.
  assert (Nu : forall d, ~ In 62%N (number d)).
  { intros d H. unfold number in H. destruct (d <? 2 ^ 63)%N; [apply digits_chars in H; lia|]. destruct H as [H|H]; [discriminate H|apply digits_chars in H; lia]. }
  unfold shape_text. apply not_in_app; [cbn; intuition discriminate|]. apply not_in_app.
  - apply not_in_concat. intros d. apply not_in_app; [apply Nu|cbn; intuition discriminate].
  - destruct (8 <? length s); cbn; intuition discriminate.
Qed.
Lemma label_inj i j u v : ident i = ident j -> Forall (fun c => ~ In c [123; 125; 10; 60]%N) (name i) -> Forall (fun c => ~ In c [123; 125; 10; 60]%N) (name j) ->
  Forall (fun d => (d < 2 ^ 64)%N) (shape i) -> Forall (fun d => (d < 2 ^ 64)%N) (shape j) -> length (shape i) <= 8 -> length (shape j) <= 8 ->
  (name i ++ str " <shape:" ++ shape_text (shape i) ++ str "> [id:" ++ u) = (name j ++ str " <shape:" ++ shape_text (shape j) ++ str "> [id:" ++ v) -> i = j.
Proof.
  intros E Ni Nj Si Sj Li Lj H. assert (A : forall n, Forall (fun c => ~ In c [123; 125; 10; 60]%N) n -> ~ In 60%N (n ++ [32%N])).
  { intros n F. apply not_in_app; [|cbn; intuition discriminate]. intros K. rewrite Forall_forall in F. apply (F _ K). cbn. auto. }
  change (str " <shape:") with ([32%N] ++ 60%N :: str "shape:") in H. rewrite <- !app_assoc in H. rewrite !(app_assoc _ [32%N]) in H. cbn [app] in H. apply cut_end in H; [|now apply A|now apply A].
  destruct H as [H1 H2]. apply app_inj_tail in H1. destruct H1 as [H1 _]. change (str "shape:" ++ shape_text (shape i) ++ str "> [id:" ++ u) with (str "shape:" ++ (shape_text (shape i) ++ str "> [id:" ++ u)) in H2.
  apply app_inv_head in H2. change (str "> [id:") with (62%N :: str " [id:") in H2. cbn [app] in H2. apply cut_end in H2; [|apply shape_text_no|apply shape_text_no]. destruct H2 as [H2 _]. apply shape_text_inj in H2; auto.
  destruct i as [a b c], j as [a' b' c']. cbn [ident name shape] in *. now subst.
Qed.
Definition small (e : ex) : Prop := forall s, In s (occurrences e) -> length (shape (info_of s)) <= 8.
Lemma node_info e f : well_named e -> well_named f -> small e -> small f -> node_line e = node_line f -> info_of e = info_of f /\ fst (look e) = fst (look f).
Proof.
  intros W X S T E. unfold node_line in E. injection E as E1 E2 E3. split; [|exact E2]. destruct (well_named_self _ W) as (_ & Nm & Sh). destruct (well_named_self _ X) as (_ & Nm' & Sh').
  assert (Ss : length (shape (info_of e)) <= 8) by (apply S; destruct e; now left). assert (St : length (shape (info_of f)) <= 8) by (apply T; destruct f; now left).
  assert (P : forall e, exists u, snd (look e) = name (info_of e) ++ str " <shape:" ++ shape_text (shape (info_of e)) ++ str "> [id:" ++ u).
  { clear. intros [i|i tr|i o|i l r]; cbn [look snd info_of]; eexists; rewrite <- ?app_assoc; reflexivity. }
  destruct (P e) as (u & Eu). destruct (P f) as (v & Ev). rewrite Eu, Ev in E3. exact (label_inj _ _ u v E1 Nm Nm' Sh Sh' Ss St E3).
Qed.
Definition no_arrow (ls : list line) : Prop := match ls with ArrowL _ _ :: _ => False | _ => True end.
Lemma lines_start e r : no_arrow (lines e ++ r). Proof. destruct e; exact I. Qed.
Lemma lines_inj : forall e f r s, well_named e -> well_named f -> small e -> small f -> no_arrow r -> no_arrow s -> lines e ++ r = lines f ++ s -> e = f /\ r = s.
Proof.
  induction e as [i|i tr|i o IH|i l IHl q IHq]; intros f r s W X S T R Q E; destruct f as [j|j tr'|j o'|j l' q']; cbn [lines operands map app] in E; pose proof (f_equal (hd (ArrowL 0 0)) E) as En; apply (f_equal (@tl line)) in E; cbn [hd tl] in En, E;
    destruct (node_info _ _ W X S T En) as [Ei El]; clear En; cbn [info_of look fst] in Ei, El; subst j; try (destruct tr; discriminate El); try (destruct tr'; discriminate El).
  - auto.
  - exfalso. subst r. exact R.
  - exfalso. subst r. exact R.
  - split; [|exact E]. destruct tr, tr'; congruence.
  - exfalso. subst s. exact Q.
  - apply (f_equal (@tl line)) in E; cbn [tl] in E. destruct (IH o' r s) as [-> ->]; auto; [now apply well_named_unary in W|now apply well_named_unary in X|intros x H; apply S; now right|intros x H; apply T; now right].
  - exfalso. pose proof (lines_start o r) as K. apply (f_equal (@tl line)) in E; cbn [tl] in E. rewrite E in K. exact K.
  - exfalso. subst s. exact Q.
  - exfalso. pose proof (lines_start o' s) as K. apply (f_equal (@tl line)) in E; cbn [tl] in E. rewrite <- E in K. exact K.
  - do 2 (apply (f_equal (@tl line)) in E; cbn [tl] in E). rewrite <- !app_assoc in E.
    destruct (IHl l' (lines q ++ r) (lines q' ++ s)) as [-> E2]; auto using lines_start; [now apply well_named_left in W|now apply well_named_left in X|intros x H; apply S; right; apply in_or_app; auto|intros x H; apply T; right; apply in_or_app; auto|].
    destruct (IHq q' r s) as [-> ->]; auto; [now apply well_named_right in W|now apply well_named_right in X|intros x H; apply S; right; apply in_or_app; auto|intros x H; apply T; right; apply in_or_app; auto].
Qed.
