(** Lemmas about fmt::format. *)
From Coq Require Import String.
From Coq Require Import List Arith NArith Lia Bool PeanoNat.
From Verif Require Import ListBase TextModel TextProofs PrintModel FmtModel FmtSpec.
Import ListNotations.
Local Open Scope nat_scope.

(** ** Searching *)

Lemma starts_some what : forall s r, starts what s = Some r <-> s = what ++ r.
Proof.
  induction what as [|a w IH]; intros s r; cbn [starts app]; [split; congruence|]. destruct s as [|b s]; [split; [discriminate|intros K; discriminate K]|].
  destruct (N.eqb_spec a b) as [->|n].
  - rewrite IH. split; [intros ->; reflexivity|intros K; injection K; auto].
  - split; [discriminate|]. intros K. injection K as K _. congruence.
Qed.
Lemma starts_app what r : starts what (what ++ r) = Some r. Proof. now apply starts_some. Qed.

Lemma find_some what : forall s b r, find what s = Some (b, r) -> s = b ++ what ++ r.
Proof.
  induction s as [|c s IH]; intros b r; cbn [find].
  - destruct (starts what []) as [x|] eqn:E; [|discriminate]. intros K. injection K as <- <-. apply starts_some in E. exact E.
  - destruct (starts what (c :: s)) as [x|] eqn:E; [intros K; injection K as <- <-; apply starts_some in E; exact E|].
    destruct (find what s) as [[b' r']|]; [|discriminate]. intros K. injection K as <- <-. cbn [app]. f_equal. now apply IH.
Qed.
Lemma find_here what r : find what (what ++ r) = Some ([], r).
Proof. destruct (what ++ r) eqn:E; cbn [find]; rewrite <- E, starts_app; reflexivity. Qed.
Lemma find_occurs what s : occurs what s <-> find what s <> None.
Proof.
  split.
  - intros (a & b & ->). induction a as [|c a IH]; cbn [app find].
    + destruct (what ++ b) eqn:E; cbn [find]; rewrite <- E, starts_app; discriminate.
    + destruct (starts what (c :: a ++ what ++ b)); [discriminate|]. destruct (find what (a ++ what ++ b)) as [[x y]|]; [discriminate|easy].
  - destruct (find what s) as [[b r]|] eqn:E; [|easy]. intros _. exists b, r. now apply find_some.
Qed.
Lemma find_none what s : ~ occurs what s -> find what s = None.
Proof. intros H. destruct (find what s) as [p|] eqn:E; [|reflexivity]. exfalso. apply H. apply find_occurs. congruence. Qed.

(** the first occurrence is the one before which there is no other *)
Lemma find_first what b r : (forall x c y, b = x ++ c :: y -> starts what (c :: y ++ what ++ r) = None) -> find what (b ++ what ++ r) = Some (b, r).
Proof.
  induction b as [|c b IH]; intros H; cbn [app].
  - destruct (what ++ r) eqn:E; cbn [find]; rewrite <- E, starts_app; reflexivity.
  - cbn [find]. rewrite (H [] c b eq_refl). rewrite IH; [reflexivity|]. intros x d y ->. apply (H (c :: x) d y eq_refl).
Qed.

Lemma occurs_app what a b : occurs what a -> occurs what (a ++ b).
Proof. intros (x & y & ->). exists x, (y ++ b). now rewrite <- !app_assoc. Qed.
Lemma occurs_app_r what a b : occurs what b -> occurs what (a ++ b).
Proof. intros (x & y & ->). exists (a ++ x), y. now rewrite <- !app_assoc. Qed.

(** ** Places *)

Notation place := (str "{}").
Lemma find_place p r : ~ occurs place p -> find place (p ++ place ++ r) = Some (p, r).
Proof.
  intros N. apply find_first. intros x c y ->. destruct (starts place (c :: y ++ place ++ r)) as [t|] eqn:E; [|reflexivity]. exfalso. apply starts_some in E. apply N.
  cbn [str list_ascii_of_string map app] in E. injection E as Ec Ey. destruct y as [|d y].
  - cbn in Ey. discriminate Ey.
  - cbn [app] in Ey. injection Ey as Ed _. exists x, y. cbn [app]. f_equal. cbn. now rewrite Ec, Ed.
Qed.
Lemma replace_place p r t : ~ occurs place p -> replace_once (p ++ place ++ r) place t = p ++ t ++ r.
Proof. intros N. unfold replace_once. now rewrite find_place. Qed.
Lemma plain_none s args : ~ occurs place s -> plain_format s args = s.
Proof. revert s. induction args as [|a args IH]; intros s N; cbn [plain_format]; [reflexivity|]. unfold replace_once. rewrite find_none by exact N. now apply IH. Qed.

(** every text is pieces with places between them *)
Lemma pieces_exist s : exists p ps, Forall (fun p => ~ occurs place p) (p :: ps) /\ s = with_places (p :: ps).
Proof.
  remember (length s) as n eqn:Hn. revert s Hn. induction n as [n IH] using lt_wf_ind. intros s ->.
  destruct (find place s) as [[b r]|] eqn:E.
  - pose proof (find_some _ _ _ _ E) as Es. destruct (IH (length r)) with (s := r) as (p & ps & F & Er); [rewrite Es, !app_length; cbn; lia|reflexivity|].
    exists b, (p :: ps). split.
    + constructor; [|exact F]. intros O. apply find_occurs in O. destruct (find place b) as [[x y]|] eqn:Eb; [|easy]. pose proof (find_some _ _ _ _ Eb) as Eb'.
      assert (N : exists u v, find place s = Some (u, v) /\ length u <= length x).
      { rewrite Es, Eb'. clear. rewrite <- !app_assoc. set (z := y ++ place ++ r). clearbody z. induction x as [|c x IH]; cbn [app].
        - exists [], z. split; [|cbn; lia]. apply find_here.
        - cbn [find]. destruct (starts place (c :: x ++ place ++ z)) as [t|]; [exists [], t; split; [reflexivity|cbn; lia]|]. destruct IH as (u & v & -> & L). exists (c :: u), v. split; [reflexivity|cbn; lia]. }
      destruct N as (u & v & N & L). rewrite E in N. injection N as <- <-. rewrite Eb', !app_length in L. cbn in L. lia.
    + rewrite Es, Er. destruct ps; reflexivity.
  - exists s, []. split; [|reflexivity]. constructor; [|constructor]. intros O. apply find_occurs in O. now rewrite E in O.
Qed.

Lemma with_cons p q ps : with_places (p :: q :: ps) = p ++ place ++ with_places (q :: ps). Proof. reflexivity. Qed.
Lemma filled_cons p q ps t ts : filled (p :: q :: ps) (t :: ts) = p ++ t ++ filled (q :: ps) ts. Proof. reflexivity. Qed.
Lemma filled_nil ps : filled ps [] = with_places ps. Proof. destruct ps as [|p [|q ps]]; reflexivity. Qed.

(** filling the first places, given that the text in front has none *)
Lemma plain_filled : forall args p ps, (forall k, k < length args -> k <= length ps -> ~ occurs place (filled (firstn (S k) (p :: ps)) (firstn k (map to_string args)))) ->
  plain_format (with_places (p :: ps)) args = filled (p :: ps) (map to_string args).
Proof.
  intros args. induction args as [|a args IH]; intros p ps N; [now rewrite filled_nil|]. destruct ps as [|q ps].
  - rewrite plain_none; [reflexivity|]. specialize (N 0 ltac:(cbn; lia) ltac:(lia)). exact N.
  - cbn [plain_format]. rewrite with_cons, replace_place; [|specialize (N 0 ltac:(cbn; lia) ltac:(lia)); exact N].
    assert (Em : forall l, p ++ to_string a ++ with_places (q :: l) = with_places ((p ++ to_string a ++ q) :: l)) by (intros [|x l]; [reflexivity|]; rewrite !with_cons, <- !app_assoc; reflexivity).
    assert (Ef : forall l ts, filled ((p ++ to_string a ++ q) :: l) ts = filled (p :: q :: l) (to_string a :: ts)).
    { intros [|x l] ts; [reflexivity|]. destruct ts as [|t ts]; cbn [filled]; rewrite <- !app_assoc; reflexivity. }
    rewrite Em, IH; [now rewrite Ef|]. intros k Hk Hl O. apply (N (S k)); [cbn [length]; lia|cbn [length]; lia|]. cbn [map firstn] in *. rewrite <- Ef. exact O.
Qed.

(** the text written so far *)
Lemma written_grows : forall k ps ts, S k < length ps -> k < length ts -> exists z, filled (firstn (S (S k)) ps) (firstn (S k) ts) = filled (firstn (S k) ps) (firstn k ts) ++ z.
Proof.
  induction k as [|k IH]; intros ps ts Hp Ht.
  - destruct ps as [|p [|q ps]]; cbn [length] in Hp; try lia. destruct ts as [|t ts]; cbn [length] in Ht; try lia. exists (t ++ q). reflexivity.
  - destruct ps as [|p [|q ps]]; cbn [length] in Hp; try lia. destruct ts as [|t ts]; cbn [length] in Ht; try lia.
    destruct (IH (q :: ps) ts) as (z & E); [cbn [length]; lia|lia|]. exists z. rewrite !firstn_cons. rewrite (firstn_cons (S k)), (firstn_cons k) in E. 
    destruct (firstn (S k) ps) eqn:E1; [destruct ps; [cbn [length] in Hp; lia|discriminate E1]|]. rewrite !filled_cons.
    rewrite E, <- !app_assoc. reflexivity.
Qed.
Lemma written_before k m ps ts : k <= m -> m < length ps -> m <= length ts -> occurs place (filled (firstn (S k) ps) (firstn k ts)) -> occurs place (filled (firstn (S m) ps) (firstn m ts)).
Proof. intros L. induction L as [|m L IH]; intros Hp Ht O; [exact O|]. destruct (written_grows m ps ts) as (z & ->); try lia. apply occurs_app. apply IH; [lia|lia|exact O]. Qed.

(** ** Arguments without braces *)
Lemma occurs_split a b : occurs place (a ++ b) -> occurs place a \/ occurs place b \/ (exists x, a = x ++ [123%N]) /\ (exists y, b = 125%N :: y).
Proof.
  intros (x & y & E). change place with [123; 125]%N in *. revert x E. induction a as [|c a IH]; intros x E; [right; left; exists x, y; exact E|]. destruct x as [|d x].
  - cbn [app] in E. injection E as -> E. destruct a as [|e a].
    + cbn [app] in E. right. right. split; [now exists []|]. exists y. exact E.
    + cbn [app] in E. injection E as -> _. left. now exists [], a.
  - cbn [app] in E. injection E as -> E. destruct (IH x E) as [(u & v & ->)|[H|[(u & ->) H]]].
    + left. now exists (d :: u), v.
    + auto.
    + right. right. split; [now exists (d :: u)|exact H].
Qed.
Definition braceless (t : list N) : Prop := t <> [] /\ ~ In 123%N t /\ ~ In 125%N t.
Lemma braceless_calm : forall k ps ts, Forall (fun p => ~ occurs place p) ps -> Forall braceless ts -> k < length ps -> k <= length ts -> ~ occurs place (filled (firstn (S k) ps) (firstn k ts)).
Proof.
  induction k as [|k IH]; intros ps ts P B Hp Ht O.
  - destruct ps as [|p ps]; cbn [length] in Hp; [lia|]. inversion P as [|? ? P1 _]. subst. cbn [firstn filled] in O. destruct (firstn 0 ts); now apply P1.
  - destruct ps as [|p [|q ps]]; cbn [length] in Hp; try lia. destruct ts as [|t ts]; cbn [length] in Ht; try lia. inversion P as [|? ? P1 P2]. inversion B as [|? ? (B0 & B1 & B2) B3]. subst.
    rewrite !firstn_cons, filled_cons in O. specialize (IH (q :: ps) ts P2 B3). rewrite firstn_cons in IH. apply occurs_split in O. destruct O as [O|[O|[_ (y & O)]]].
    + now apply P1.
    + apply occurs_split in O. destruct O as [(u & v & ->)|[O|[(u & ->) _]]].
      * apply B1. apply in_or_app. right. now left.
      * apply IH; [cbn [length]; lia|lia|exact O].
      * apply B1. apply in_or_app. right. now left.
    + destruct t as [|c t]; [easy|]. cbn [app] in O. injection O as -> _. apply B2. now left.
Qed.

(** ** Indexed places *)

Notation ref i := (str "{" ++ put_nat i ++ str "}").
Lemma put_nat_nonempty n : put_nat n <> [].
Proof. apply put_nat_word. Qed.
Lemma put_nat_digit n c : In c (put_nat n) -> (48 <= c <= 57)%N.
Proof. intros H. exact (proj1 (Forall_forall _ _) (chars_of_uint_digits _) c H). Qed.
Lemma put_nat_inj n m : put_nat n = put_nat m -> n = m.
Proof. intros H. assert (Some n = Some m) as [= K] by (rewrite <- !take_put_nat; now rewrite H). exact K. Qed.
Lemma digits_end (a b r s : list N) : (forall c, In c a -> (48 <= c <= 57)%N) -> (forall c, In c b -> (48 <= c <= 57)%N) -> a ++ 125%N :: r = b ++ 125%N :: s -> a = b /\ r = s.
Proof.
  revert b. induction a as [|x a IH]; intros [|y b] A B E; cbn [app] in E.
  - injection E as ->. auto.
  - injection E as <- _. specialize (B 125%N (or_introl eq_refl)). lia.
  - injection E as -> _. specialize (A 125%N (or_introl eq_refl)). lia.
  - injection E as -> E. destruct (IH b) as [-> ->]; auto; intros c H; [apply A|apply B]; now right.
Qed.
Lemma starts_ref_other i j r : i <> j -> starts (ref i) (ref j ++ r) = None.
Proof.
  intros N. destruct (starts (ref i) (ref j ++ r)) as [t|] eqn:E; [|reflexivity]. apply starts_some in E. exfalso. apply N. apply put_nat_inj.
  rewrite <- !app_assoc in E. change (str "{") with [123%N] in E. change (str "}") with [125%N] in E. cbn [app] in E. injection E as E.
  symmetry. exact (proj1 (digits_end _ _ _ _ (put_nat_digit j) (put_nat_digit i) E)).
Qed.
(** text without an opening brace is passed *)
Lemma find_skip i a s : ~ In 123%N a -> find (ref i) (a ++ s) = match find (ref i) s with Some (b, r) => Some (a ++ b, r) | None => None end.
Proof.
  induction a as [|c a IH]; intros N; cbn [app]; [destruct (find (ref i) s) as [[b r]|]; reflexivity|]. cbn [find].
  assert (starts (ref i) (c :: a ++ s) = None) as ->.
  { change (str "{") with [123%N]. cbn [app starts]. destruct (N.eqb_spec 123 c) as [<-|]; [exfalso; apply N; now left|reflexivity]. }
  rewrite IH by (intros H; apply N; now right). now destruct (find (ref i) s) as [[b r]|].
Qed.
Lemma find_ref_here i r : find (ref i) (ref i ++ r) = Some ([], r).
Proof. destruct (ref i ++ r) eqn:E; cbn [find]; rewrite <- E, starts_app; reflexivity. Qed.
Lemma find_ref_other i j s : i <> j -> find (ref i) (ref j ++ s) = match find (ref i) s with Some (b, r) => Some (ref j ++ b, r) | None => None end.
Proof.
  intros N. pose proof (starts_ref_other i j s N) as E. assert (R : forall z, ref j ++ z = 123%N :: (put_nat j ++ [125%N]) ++ z) by (intros z; now rewrite <- !app_assoc).
  rewrite R in *. cbn [find]. rewrite E, find_skip.
  - destruct (find (ref i) s) as [[b r]|]; [|reflexivity]. now rewrite R.
  - intros H. apply in_app_or in H. destruct H as [H|[H|[]]]; [apply put_nat_digit in H; lia|discriminate H].
Qed.

Definition text_of (l : list item) : list N := concat (map item_text l).
Definition subst_item (i : nat) (t : list N) (x : item) : item := match x with Ref j => if j =? i then Lit t else Ref j | Lit u => Lit u end.
Definition lits_ok (l : list item) : Prop := forall t, In (Lit t) l -> no_open_brace t.

(** the number of places of argument i *)
Fixpoint places (i : nat) (l : list item) : nat := match l with [] => 0 | Ref j :: l => (if j =? i then 1 else 0) + places i l | Lit _ :: l => places i l end.

Lemma find_items i : forall l, lits_ok l ->
  match find (ref i) (text_of l) with
  | None => places i l = 0 /\ map (subst_item i []) l = l
  | Some (b, r) => exists u v, l = u ++ Ref i :: v /\ places i u = 0 /\ (forall t, map (subst_item i t) u = u) /\ b = text_of u /\ r = text_of v
  end.
Proof.
  induction l as [|x l IH]; intros L.
  - cbn [text_of map concat]. destruct (find (ref i) []) as [[b r]|] eqn:E; [|split; reflexivity]. apply find_some in E. exfalso. symmetry in E. apply app_eq_nil in E. destruct E as [_ E]. discriminate E.
  - assert (L' : lits_ok l) by (intros t H; apply L; now right). specialize (IH L'). unfold text_of in *. cbn [map concat]. destruct x as [t|j].
    + cbn [item_text]. rewrite find_skip by (apply (L t); now left). destruct (find (ref i) (concat (map item_text l))) as [[b r]|].
      * destruct IH as (u & v & -> & P & M & -> & ->). exists (Lit t :: u), v. cbn [app places map subst_item concat item_text]. split; [reflexivity|]. split; [exact P|]. split; [intros w; now rewrite M|]. auto.
      * destruct IH as [P M]. cbn [places map subst_item]. rewrite M. auto.
    + cbn [item_text]. destruct (Nat.eq_dec i j) as [<-|N].
      * rewrite find_ref_here. exists [], l. cbn. auto.
      * rewrite find_ref_other by exact N. destruct (find (ref i) (concat (map item_text l))) as [[b r]|].
        -- destruct IH as (u & v & -> & P & M & -> & ->). exists (Ref j :: u), v. cbn [app places map subst_item concat item_text]. destruct (Nat.eqb_spec j i) as [e|_]; [congruence|]. split; [reflexivity|]. split; [exact P|]. split; [intros w; now rewrite M|]. auto.
        -- destruct IH as [P M]. cbn [places map subst_item]. destruct (Nat.eqb_spec j i) as [e|_]; [congruence|]. rewrite M. auto.
Qed.
Lemma subst_none i t : forall l, places i l = 0 -> map (subst_item i t) l = l.
Proof. induction l as [|[u|j] l IH]; cbn [places map subst_item]; intros H; [reflexivity|now rewrite IH|]. destruct (j =? i) eqn:E; [lia|]. now rewrite IH. Qed.
Lemma replace_from_items i t : forall fuel l, lits_ok l -> places i l < fuel -> replace_from fuel (ref i) t (text_of l) = text_of (map (subst_item i t) l).
Proof.
  induction fuel as [|fuel IH]; intros l L F; [lia|]. pose proof (find_items i l L) as H. cbn [replace_from]. destruct (find (ref i) (text_of l)) as [[b r]|].
  - destruct H as (u & v & -> & P & M & -> & ->). assert (Pl : forall a b, places i (a ++ b) = places i a + places i b).
    { clear. induction a as [|[w|j] a IHa]; intros b; cbn [app places]; [reflexivity|apply IHa|]. rewrite IHa. lia. }
    rewrite Pl in F. cbn [places] in F. rewrite Nat.eqb_refl in F. rewrite IH; [|intros w Hw; apply L; apply in_or_app; right; now right|lia].
    rewrite map_app, M. cbn [map subst_item]. rewrite Nat.eqb_refl. unfold text_of. rewrite map_app, concat_app. reflexivity.
  - destruct H as [P _]. now rewrite subst_none.
Qed.
Lemma places_length i : forall l, places i l <= length (text_of l).
Proof.
  induction l as [|[w|j] l IH]; [cbn; lia| |]; unfold text_of in *; cbn [places map concat item_text]; rewrite !app_length; [lia|]. change (length (str "{")) with 1. destruct (j =? i); lia.
Qed.
Lemma replace_all_items i t l : lits_ok l -> replace_all (text_of l) (ref i) t = text_of (map (subst_item i t) l).
Proof. intros L. apply replace_from_items; [exact L|]. pose proof (places_length i l). lia. Qed.

(** the texts of the arguments before the n-th are in place *)
Definition item_from (n : nat) (texts : list (list N)) (x : item) : list N :=
  match x with Lit t => t | Ref j => if j <? n then item_text x else match nth_error texts (j - n) with Some t => t | None => item_text x end end.
Lemma indexed_items : forall args n l, lits_ok l -> Forall no_open_brace (map to_string args) ->
  indexed_format n (text_of l) args = concat (map (item_from n (map to_string args)) l).
Proof.
  induction args as [|a args IH]; intros n l L A.
  - cbn [indexed_format map]. unfold text_of. f_equal. apply map_ext. intros [t|j]; cbn [item_from]; [reflexivity|]. destruct (j <? n); [reflexivity|]. now destruct (j - n).
  - cbn [indexed_format map] in *. inversion A as [|? ? A1 A2]. subst. rewrite replace_all_items by exact L. rewrite IH; [|intros t H; apply in_map_iff in H; destruct H as ([u|j] & E & H); cbn [subst_item] in E|exact A2].
    + rewrite map_map. f_equal. apply map_ext. intros [u|j]; cbn [subst_item item_from]; [reflexivity|]. destruct (Nat.eqb_spec j n) as [->|N]; cbn [item_from].
      * rewrite Nat.ltb_irrefl, Nat.sub_diag. reflexivity.
      * destruct (Nat.ltb_spec j n) as [H|H]; destruct (Nat.ltb_spec j (S n)) as [K|K]; try lia; [reflexivity|]. replace (j - n) with (S (j - S n)) by lia. reflexivity.
    + injection E as <-. now apply L.
    + destruct (j =? n); [injection E as <-; exact A1|discriminate E].
Qed.
Lemma no_place_in_items : forall l, lits_ok l -> ~ occurs place (text_of l).
Proof.
  induction l as [|x l IH]; intros L O.
  - destruct O as (a & b & O). symmetry in O. apply app_eq_nil in O. destruct O as [_ O]. discriminate O.
  - unfold text_of in *. cbn [map concat] in O. apply occurs_split in O. destruct O as [O|[O|[(y & O1) (z & O2)]]].
    + destruct x as [t|j]; cbn [item_text] in O.
      * destruct O as (a & b & ->). apply (L _ (or_introl eq_refl)). apply in_or_app. right. now left.
      * destruct O as (a & b & O). change (str "{") with [123%N] in O. change place with [123; 125]%N in O. change (str "}") with [125%N] in O. destruct a as [|c a]; cbn [app] in O.
        -- injection O as O. pose proof (put_nat_nonempty j) as Ne. pose proof (put_nat_digit j) as D. destruct (put_nat j) as [|d ds]; [easy|]. cbn [app] in O. injection O as -> _. specialize (D _ (or_introl eq_refl)). lia.
        -- injection O as _ O. assert (H : In 123%N (put_nat j ++ [125%N])) by (rewrite O; apply in_or_app; right; now left). apply in_app_or in H. destruct H as [H|[H|[]]]; [apply put_nat_digit in H; lia|discriminate H].
    + apply IH; [intros t H; apply L; now right|exact O].
    + destruct x as [t|j]; cbn [item_text] in O1.
      * subst t. apply (L _ (or_introl eq_refl)). apply in_or_app. right. now left.
      * change (str "}") with [125%N] in O1. rewrite app_assoc in O1. apply app_inj_tail in O1. destruct O1 as [_ O1]. discriminate O1.
Qed.

(** ** Sequences and tuples *)

Notation listed l := (concat (map (fun e => e ++ str ", ") l)).
Lemma overwrite_end s a t : length a <= length t -> overwrite (length a) (s ++ a) t = s ++ t.
Proof.
  intros L. unfold overwrite. rewrite app_length. replace (length s + length a - length a) with (length s) by lia. rewrite firstn_app, Nat.sub_diag, firstn_all. cbn [firstn]. rewrite app_nil_r.
  rewrite skipn_all2 by (rewrite app_length; lia). now rewrite app_nil_r.
Qed.
Lemma listed_end l : l <> [] -> exists s, listed l = s ++ str ", ".
Proof.
  intros N. destruct (exists_last N) as (u & e & ->). rewrite map_app, concat_app. cbn [map concat]. rewrite app_nil_r, app_assoc. eauto.
Qed.
Lemma sequence_short l : length l <= max_shown -> sequence l = str "{ " ++ listed l ++ str "}".
Proof.
  intros H. unfold sequence. apply Nat.leb_le in H. rewrite H. destruct l as [|e l]; [reflexivity|]. destruct (listed_end (e :: l)) as (s & Es); [discriminate|]. rewrite Es.
  change (str ", ") with ([44%N] ++ [32%N]). rewrite (app_assoc s), (app_assoc (str "{ ")). change 1 with (length [32%N]) at 1. rewrite overwrite_end by (cbn; lia).
  change (str " }") with ([32%N] ++ str "}"). now rewrite <- !app_assoc.
Qed.
Lemma sequence_long l : max_shown < length l -> sequence l = str "{ " ++ listed (firstn max_shown l) ++ str " ... }".
Proof. intros H. unfold sequence. apply Nat.leb_gt in H. rewrite H. reflexivity. Qed.
Lemma tuple_separated l : l <> [] -> tuple l = str "( " ++ separated (str ", ") l ++ str " )".
Proof.
  intros N. unfold tuple. assert (listed l = separated (str ", ") l ++ str ", ") as ->.
  { induction l as [|e l IH]; [easy|]. cbn [map concat]. destruct l as [|f l]; [cbn [map concat separated]; now rewrite app_nil_r|]. rewrite IH by discriminate. change (separated (str ", ") (e :: f :: l)) with (e ++ str ", " ++ separated (str ", ") (f :: l)). now rewrite <- !app_assoc. }
  rewrite app_assoc. change 2 with (length (str ", ")) at 1. rewrite overwrite_end by (cbn; lia). now rewrite <- app_assoc.
Qed.

Lemma comma_end (a b r s : list N) : ~ In 44%N a -> ~ In 44%N b -> a ++ 44%N :: r = b ++ 44%N :: s -> a = b /\ r = s.
Proof.
  revert b. induction a as [|x a IH]; intros [|y b] A B E; cbn [app] in E.
  - injection E as ->. auto.
  - injection E as <- _. destruct B. now left.
  - injection E as -> _. destruct A. now left.
  - injection E as -> E. destruct (IH b) as [-> ->]; auto; intros H; [apply A|apply B]; now right.
Qed.
Lemma simple_parts t : simple t -> exists c u, t = c :: u /\ c <> 32%N /\ c <> 125%N /\ ~ In 44%N t.
Proof.
  intros [N F]. destruct t as [|c u]; [easy|]. exists c, u. pose proof (Forall_inv F) as K. cbn [In] in K. split; [reflexivity|]. split; [intros ->; apply K; auto|]. split; [intros ->; apply K; auto|].
  intros H. rewrite Forall_forall in F. specialize (F _ H). apply F. now left.
Qed.
(** what follows the elements starts with a space or a closing brace *)
Lemma listed_inj : forall l m (x y : N) r s, Forall simple l -> Forall simple m -> In x [32; 125]%N -> In y [32; 125]%N -> listed l ++ x :: r = listed m ++ y :: s -> l = m /\ x :: r = y :: s.
Proof.
  induction l as [|e l IH]; intros [|f m] x y r s L M X Y E; cbn [map concat app] in E.
  - auto.
  - exfalso. destruct (simple_parts f (Forall_inv M)) as (c & u & -> & C1 & C2 & _). rewrite <- !app_assoc in E. cbn [app] in E. injection E as -> _. destruct X as [X|[X|[]]]; congruence.
  - exfalso. destruct (simple_parts e (Forall_inv L)) as (c & u & -> & C1 & C2 & _). rewrite <- !app_assoc in E. cbn [app] in E. injection E as <- _. destruct Y as [Y|[Y|[]]]; congruence.
  - destruct (simple_parts e (Forall_inv L)) as (_ & _ & _ & _ & _ & C). destruct (simple_parts f (Forall_inv M)) as (_ & _ & _ & _ & _ & D).
    change (str ", ") with [44; 32]%N in E. rewrite <- !app_assoc in E. cbn [app] in E. apply comma_end in E; [|exact C|exact D]. destruct E as [-> E]. injection E as E.
    destruct (IH m x y r s) as [-> E']; auto; [now apply Forall_inv_tail in L|now apply Forall_inv_tail in M].
Qed.
Lemma sequence_injective l m : Forall simple l -> Forall simple m ->
  (sequence l = sequence m <-> l = m \/ max_shown < length l /\ max_shown < length m /\ firstn max_shown l = firstn max_shown m).
Proof.
  intros L M. assert (Fl : Forall simple (firstn max_shown l)) by (rewrite <- (firstn_skipn max_shown l), Forall_app in L; apply L).
  assert (Fm : Forall simple (firstn max_shown m)) by (rewrite <- (firstn_skipn max_shown m), Forall_app in M; apply M).
  split.
  - intros E. destruct (le_lt_dec (length l) max_shown) as [Hl|Hl]; destruct (le_lt_dec (length m) max_shown) as [Hm|Hm];
      rewrite ?(sequence_short l Hl), ?(sequence_short m Hm), ?(sequence_long l Hl), ?(sequence_long m Hm) in E; apply app_inv_head in E.
    + left. apply (listed_inj l m 125%N 125%N [] []) in E; [tauto|exact L|exact M|cbn; auto|cbn; auto].
    + change (str "}") with (125%N :: []) in E. change (str " ... }") with (32%N :: str "... }") in E. apply listed_inj in E; [|exact L|exact Fm|cbn; auto|cbn; auto]. destruct E as [_ E]. discriminate E.
    + change (str "}") with (125%N :: []) in E. change (str " ... }") with (32%N :: str "... }") in E. apply listed_inj in E; [|exact Fl|exact M|cbn; auto|cbn; auto]. destruct E as [_ E]. discriminate E.
    + right. split; [exact Hl|]. split; [exact Hm|]. change (str " ... }") with (32%N :: str "... }") in E. apply listed_inj in E; [tauto|exact Fl|exact Fm|cbn; auto|cbn; auto].
  - intros [->|(Hl & Hm & E)]; [reflexivity|]. rewrite (sequence_long l Hl), (sequence_long m Hm). now rewrite E.
Qed.
