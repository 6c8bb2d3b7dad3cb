(** C74: fmt::format. *)
From Coq Require Import String.
From Coq Require Import List Arith NArith Lia Bool PeanoNat.
From Verif Require Import ListBase TextModel TextProofs PrintModel FmtModel FmtSpec FmtProofs.
Import ListNotations.
Local Open Scope nat_scope.

(** Every format string consists of pieces without a place and of places between them. *)
Theorem C74_pieces s : exists p ps, Forall (fun p => ~ occurs (str "{}") p) (p :: ps) /\ s = with_places (p :: ps).
Proof. apply pieces_exist. Qed.

(** With at least one place, the arguments go into the places from left to right, places without argument stay and arguments without a
    place are ignored, provided that what is written when the last argument's turn comes contains no place of its own. *)
Theorem C74_plain p q ps args :
  let pieces := p :: q :: ps in let m := Nat.min (length args - 1) (S (length ps)) in
  Forall (fun p => ~ occurs (str "{}") p) pieces -> ~ occurs (str "{}") (filled (firstn (S m) pieces) (firstn m (map to_string args))) ->
  format (with_places pieces) args = filled pieces (map to_string args).
Proof.
  intros pieces m P N. unfold format. destruct (find (str "{}") (with_places pieces)) as [x|] eqn:E.
  - unfold pieces. apply plain_filled. intros k Hk Hl O. apply N. apply (written_before k); [subst m; cbn [length] in Hl; lia|unfold pieces; subst m; cbn [length]; lia|rewrite map_length; subst m; lia|exact O].
  - exfalso. assert (O : occurs (str "{}") (with_places pieces)) by (exists p, (with_places (q :: ps)); reflexivity). apply find_occurs in O. now rewrite E in O.
Qed.

(** That is so whenever the arguments' texts are not empty and contain no braces. *)
Theorem C74_plain_braceless p q ps args :
  Forall (fun p => ~ occurs (str "{}") p) (p :: q :: ps) -> Forall (fun a => to_string a <> [] /\ ~ In 123%N (to_string a) /\ ~ In 125%N (to_string a)) args ->
  format (with_places (p :: q :: ps)) args = filled (p :: q :: ps) (map to_string args).
Proof.
  intros P A. apply C74_plain; [exact P|]. apply braceless_calm; [exact P| |cbn [length]; lia|rewrite map_length; lia].
  apply Forall_forall. intros t H. apply in_map_iff in H. destruct H as (a & <- & H). exact (proj1 (Forall_forall _ _) A a H).
Qed.

(** It is not so in general: a place in an argument's text takes the next argument, and the place in the format string stays. *)
Theorem C74_plain_refuted x y b : ~ occurs (str "{}") x -> b <> [] -> ~ In 123%N b ->
  let args := [AStr (x ++ str "{}" ++ y); AStr b] in
  format (str "{} {}") args = x ++ b ++ y ++ str " {}" /\ format (str "{} {}") args <> filled [[]; str " "; []] (map to_string args).
Proof.
  intros Nx Nb B args. assert (E : format (str "{} {}") args = x ++ b ++ y ++ str " {}").
  { unfold format. change (find (str "{}") (str "{} {}")) with (Some (@nil N, str " {}")). cbn [args plain_format to_string].
    change (str "{} {}") with ([] ++ str "{}" ++ str " {}"). rewrite replace_place by (intros (u & v & K); destruct u; discriminate K). cbn [app]. rewrite <- !app_assoc. now rewrite replace_place. }
  split; [exact E|]. rewrite E. cbn [args map to_string filled]. cbn [app]. rewrite <- !app_assoc. intros K. apply app_inv_head in K. destruct b as [|c b]; [easy|]. cbn [app] in K. injection K as K _. apply B. now left.
Qed.

(** A format string that names its arguments: every "{i}" is replaced by the text of argument i, if there is one, provided that neither
    the rest of the string nor the texts contain an opening brace. *)
Theorem C74_indexed l args :
  (forall t, In (Lit t) l -> no_open_brace t) -> Forall (fun a => no_open_brace (to_string a)) args ->
  format (concat (map item_text l)) args = concat (map (item_filled (map to_string args)) l).
Proof.
  intros L A. unfold format. rewrite find_none by now apply (no_place_in_items l). change (concat (map item_text l)) with (text_of l).
  rewrite indexed_items; [|exact L|].
  - f_equal. apply map_ext. intros [t|j]; cbn [item_from item_filled]; [reflexivity|]. cbn [Nat.ltb Nat.leb]. now rewrite Nat.sub_0_r.
  - apply Forall_forall. intros t H. apply in_map_iff in H. destruct H as (a & <- & H). exact (proj1 (Forall_forall _ _) A a H).
Qed.

(** Otherwise the text of an argument is replaced in turn, if it names a later argument (not if it names an earlier one). *)
Theorem C74_indexed_refuted t : no_open_brace t ->
  format (str "{0},{1}") [AStr (str "{1}"); AStr t] = t ++ str "," ++ t /\ t ++ str "," ++ t <> str "{1}" ++ str "," ++ t /\
  format (str "{0},{1}") [AStr t; AStr (str "{0}")] = t ++ str "," ++ str "{0}".
Proof.
  intros N. split; [|split].
  - unfold format. rewrite find_none by (apply (no_place_in_items [Ref 0; Lit (str ","); Ref 1]); intros u [K|[K|[K|[]]]]; try discriminate K; injection K as <-; intros [K|[]]; discriminate K).
    cbn [indexed_format to_string]. change (replace_all (str "{0},{1}") (str "{" ++ put_nat 0 ++ str "}") (str "{1}")) with (text_of [Ref 1; Lit (str ","); Ref 1]). rewrite replace_all_items.
    + cbn. now rewrite app_nil_r.
    + intros u [K|[K|[K|[]]]]; try discriminate K. injection K as <-. intros [K|[]]; discriminate K.
  - intros K. destruct t as [|c t]; [discriminate K|]. injection K as K _. apply N. now left.
  - change (str "{0},{1}") with (text_of [Ref 0; Lit (str ","); Ref 1]).
    unfold format. rewrite find_none by (apply (no_place_in_items [Ref 0; Lit (str ","); Ref 1]); intros u [K|[K|[K|[]]]]; try discriminate K; injection K as <-; intros [K|[]]; discriminate K).
    cbn [indexed_format to_string]. rewrite replace_all_items by (intros u [K|[K|[K|[]]]]; try discriminate K; injection K as <-; intros [K|[]]; discriminate K).
    cbn [map subst_item Nat.eqb]. rewrite replace_all_items; [reflexivity|]. intros u [K|[K|[K|[]]]]; try discriminate K; injection K as <-; [exact N|intros [K|[]]; discriminate K].
Qed.

(** The text of a container tells the container up to its eighth element: two containers have the same text exactly if they are equal or
    both have more than eight elements and the first eight are equal. *)
Theorem C74_sequence l m : Forall (fun a => simple (to_string a)) l -> Forall (fun a => simple (to_string a)) m ->
  (to_string (ASeq l) = to_string (ASeq m) <->
   map to_string l = map to_string m \/ 8 < length l /\ 8 < length m /\ map to_string (firstn 8 l) = map to_string (firstn 8 m)).
Proof.
  intros L M. cbn [to_string]. rewrite sequence_injective.
  - rewrite !map_length, <- !firstn_map. reflexivity.
  - apply Forall_forall. intros t H. apply in_map_iff in H. destruct H as (a & <- & H). exact (proj1 (Forall_forall _ _) L a H).
  - apply Forall_forall. intros t H. apply in_map_iff in H. destruct H as (a & <- & H). exact (proj1 (Forall_forall _ _) M a H).
Qed.

(** A tuple's text: its members, separated by commas, in brackets.  Without members: no opening bracket. *)
Theorem C74_tuple l : (l <> [] -> to_string (ATuple l) = str "( " ++ separated (str ", ") (map to_string l) ++ str " )") /\ to_string (ATuple []) = str " )".
Proof. split; [intros N; cbn [to_string]; apply tuple_separated; now destruct l|reflexivity]. Qed.

(** The text of a character is not the character: there is always a character of code 1 in front. *)
Theorem C74_char_refuted c s : to_string (AChar c) = 1%N :: to_string (AStr [c]) /\ format (s ++ str "{}") [AChar c] <> format (s ++ str "{}") [AStr [c]].
Proof.
  split; [reflexivity|]. unfold format. destruct (find (str "{}") (s ++ str "{}")) as [[b r]|] eqn:E.
  - cbn [plain_format]. unfold replace_once. rewrite E. cbn [to_string]. intros K. apply (f_equal (@length N)) in K. rewrite !app_length in K. cbn [length] in K. lia.
  - exfalso. assert (O : occurs (str "{}") (s ++ str "{}")) by (exists s, []; now rewrite app_nil_r). apply find_occurs in O. now rewrite E in O.
Qed.
Print Assumptions C74_pieces.
Print Assumptions C74_plain.
Print Assumptions C74_plain_braceless.
Print Assumptions C74_plain_refuted.
Print Assumptions C74_indexed.
Print Assumptions C74_indexed_refuted.
Print Assumptions C74_sequence.
Print Assumptions C74_tuple.
Print Assumptions C74_char_refuted.

Module Case.
  Definition n (k : nat) := AStream (put_nat k).
  (** the label of a drawing: name, shape, identifier *)
  Example label : format (str "{} <shape:{}> [id:{}]") [AStr (str "relu"); ASeq [AStream (str "-1"); n 3]; n 7] = str "relu <shape:{ -1, 3, }> [id:7]".
  Proof. vm_compute. reflexivity. Qed.
  (** its pieces contain no place, and neither does what is written before the last argument, although a shape has braces *)
  Example label_pieces : str "{} <shape:{}> [id:{}]" = with_places [[]; str " <shape:"; str "> [id:"; str "]"]. Proof. reflexivity. Qed.
  Example label_calm : ~ occurs (str "{}") (filled [[]; str " <shape:"; str "> [id:"] (map to_string [AStr (str "relu"); ASeq [AStream (str "-1"); n 3]])).
  Proof. intros O. apply find_occurs in O. apply O. vm_compute. reflexivity. Qed.
  (** more places than arguments, more arguments than places *)
  Example places_left : format (str "{}-{}-{}") [n 1] = str "1-{}-{}". Proof. vm_compute. reflexivity. Qed.
  Example arguments_left : format (str "{}-") [n 1; n 2] = str "1-". Proof. vm_compute. reflexivity. Qed.
  Example indexed : format (str "{1}, {0}! {2}") [AStr (str "world"); AStr (str "Hello")] = str "Hello, world! {2}". Proof. vm_compute. reflexivity. Qed.
  Example nine : to_string (ASeq (map n (seq 0 9))) = str "{ 0, 1, 2, 3, 4, 5, 6, 7,  ... }". Proof. vm_compute. reflexivity. Qed.
  Example pair : to_string (ATuple [ABool true; n 4]) = str "( true, 4 )". Proof. vm_compute. reflexivity. Qed.
End Case.
