(** Lemmas about saving and loading. *)
From Coq Require Import List Arith NArith Bool PeanoNat Lia.
From Coq Require DecimalNat DecimalFacts.
From Verif Require Import ListBase TensorModel LzwModel LzwProps TextModel TextSpec.
Import ListNotations.
Local Open Scope nat_scope.

(** ** Characters *)

Lemma is_space_false : forall c, ~ In c [32; 9; 10; 11; 12; 13]%N -> is_space c = false.
Proof.
  intros c H. unfold is_space. apply orb_false_iff. split.
  - apply N.eqb_neq. intros ->. apply H. left. reflexivity.
  - destruct ((9 <=? c) && (c <=? 13))%N eqn:E; [|reflexivity]. apply andb_prop in E as [E1 E2].
    apply N.leb_le in E1, E2. exfalso. apply H.
    assert (c = 9 \/ c = 10 \/ c = 11 \/ c = 12 \/ c = 13)%N as Hc by lia. cbn [In]. intuition congruence.
Qed.

Lemma not_newline : forall c, ~ In c [32; 9; 10; 11; 12; 13]%N -> (c =? newline)%N = false.
Proof. intros c H. apply N.eqb_neq. intros ->. apply H. right. right. left. reflexivity. Qed.

Lemma uint_of_chars_of : forall u, uint_of_chars (chars_of_uint u) = Some u.
Proof. induction u; cbn [chars_of_uint uint_of_chars]; rewrite ?IHu; reflexivity. Qed.

Lemma chars_of_uint_digits : forall u, Forall (fun c => (48 <= c <= 57)%N) (chars_of_uint u).
Proof. induction u; cbn [chars_of_uint]; constructor; auto; lia. Qed.

Lemma put_nat_word : forall n, word (put_nat n).
Proof.
  intros n. split.
  - unfold put_nat. pose proof (DecimalNat.Unsigned.to_of (Nat.to_uint n)) as H. rewrite DecimalNat.Unsigned.of_to in H.
    rewrite H. unfold Decimal.unorm. destruct (Decimal.nzhead (Nat.to_uint n)); discriminate.
  - eapply Forall_impl; [|exact (chars_of_uint_digits _)]. intros c Hc Hin. cbn [In] in Hin. intuition lia.
Qed.

Lemma take_put_nat : forall n, take_nat (put_nat n) = Some n.
Proof.
  intros n. pose proof (put_nat_word n) as [Hne _]. unfold take_nat. unfold put_nat in *.
  destruct (chars_of_uint (Nat.to_uint n)) eqn:E; [exfalso; exact (Hne eq_refl)|]. rewrite <- E, uint_of_chars_of.
  f_equal. apply DecimalNat.Unsigned.of_to.
Qed.

Lemma put_nat_bytes : forall n, bytes (put_nat n).
Proof. intros n. eapply Forall_impl; [|exact (chars_of_uint_digits _)]. cbn beta. intros; lia. Qed.

(** ** Lines and words *)

Lemma cut_app : forall a b, Forall (fun c => (c =? newline)%N = false) a -> cut (a ++ newline :: b) = (a, Some b).
Proof.
  induction a as [|c a IH]; intros b H; cbn [app cut].
  - rewrite N.eqb_refl. reflexivity.
  - inversion H as [|? ? Hc Ha]; subst. rewrite Hc, (IH b Ha). reflexivity.
Qed.

Lemma getline_app : forall a b, Forall (fun c => (c =? newline)%N = false) a ->
  getline (opened (a ++ newline :: b)) = (a, opened b).
Proof. intros a b H. unfold getline, opened. cbn [good left]. rewrite (cut_app a b H). reflexivity. Qed.

Lemma spaced_line : forall {T} (put : T -> list char) l, Forall (fun x => word (put x)) l ->
  Forall (fun c => (c =? newline)%N = false) (spaced put l).
Proof.
  induction l as [|x l IH]; intros H; cbn [spaced]; [constructor|]. inversion H as [|? ? Hx Hl]; subst.
  apply Forall_app. split; [|constructor; [reflexivity|exact (IH Hl)]].
  destruct Hx as [_ Hx]. eapply Forall_impl; [|exact Hx]. exact not_newline.
Qed.

Lemma words_from_word : forall w acc l, Forall (fun c => is_space c = false) w ->
  words_from acc (w ++ l) = words_from (rev w ++ acc) l.
Proof.
  induction w as [|c w IH]; intros acc l H; [reflexivity|]. inversion H as [|? ? Hc Hw]; subst.
  cbn [app words_from]. rewrite Hc, (IH (c :: acc) l Hw). cbn [rev]. rewrite <- app_assoc. reflexivity.
Qed.

Lemma words_spaced : forall {T} (put : T -> list char) l, Forall (fun x => word (put x)) l -> words (spaced put l) = map put l.
Proof.
  unfold words. induction l as [|x l IH]; intros H; [reflexivity|]. inversion H as [|? ? [Hne Hx] Hl]; subst.
  cbn [spaced map]. rewrite words_from_word by (eapply Forall_impl; [|exact Hx]; exact is_space_false).
  rewrite app_nil_r. cbn [words_from]. change (is_space space) with true. cbn match.
  destruct (rev (put x)) eqn:E.
  - apply (f_equal (@rev char)) in E. rewrite rev_involutive in E. exfalso. exact (Hne E).
  - rewrite <- E, rev_involutive, (IH Hl). reflexivity.
Qed.

Lemma numbers_all : forall {T} (put : T -> list char) (take : list char -> option T) l l',
  Forall2 (fun a b => take (put a) = Some b) l l' -> numbers take (map put l) = l'.
Proof. intros T put take l l' H. induction H as [|a b l l' Hab _ IH]; [reflexivity|]. cbn [map numbers]. rewrite Hab, IH. reflexivity. Qed.

Lemma numbers_stop : forall {T} (put : T -> list char) (take : list char -> option T) l l' x r,
  Forall2 (fun a b => take (put a) = Some b) l l' -> take (put x) = None -> numbers take (map put (l ++ x :: r)) = l'.
Proof.
  intros T put take l l' x r H Hx. induction H as [|a b l l' Hab _ IH]; cbn [app map numbers].
  - rewrite Hx. reflexivity.
  - rewrite Hab, IH. reflexivity.
Qed.

Lemma same_nat : forall s, Forall2 (fun a b => take_nat (put_nat a) = Some b) s s.
Proof. induction s as [|n s IH]; constructor; [apply take_put_nat|exact IH]. Qed.

Lemma nat_words : forall s, Forall (fun x => word (put_nat x)) s.
Proof. intros s. apply Forall_forall. intros x _. apply put_nat_word. Qed.

Lemma numbers_nat : forall s, numbers take_nat (words (spaced put_nat s)) = s.
Proof. intros s. rewrite words_spaced by apply nat_words. exact (numbers_all put_nat take_nat s s (same_nat s)). Qed.

Lemma same_length : forall {A B} {R : A -> B -> Prop} {l l'}, Forall2 R l l' -> length l = length l'.
Proof. intros A B R l l' H. induction H; cbn [length]; congruence. Qed.

Lemma value_in : forall {A} (m : list (nat * A)) id, In id (map fst m) <-> value_of m id <> None.
Proof.
  induction m as [|[i x] m IH]; intros id; cbn [map fst In value_of]; [split; [easy|congruence]|].
  destruct (Nat.eqb_spec i id) as [->|Hi]; [split; [discriminate|now left]|].
  rewrite <- IH. split; [intros [->|H]; [congruence|exact H]|now right].
Qed.

Section Text.
Context {E : Type} (zero : E) (put : E -> list char) (take : list char -> option E).

(** what remains in the tensor of the part that is not read *)
Definition stale (s : list nat) (cur : list nat * list E) : list E :=
  if length (snd cur) =? prod s then snd cur else repeat zero (prod s).

Lemma stale_length : forall s cur, length (stale s cur) = prod s.
Proof. intros s cur. unfold stale. destruct (Nat.eqb_spec (length (snd cur)) (prod s)); [assumption|apply repeat_length]. Qed.

Lemma read_step : forall dbg x rest cur, wordy put x ->
  read_tensor zero take dbg (opened (write_tensor put x ++ rest)) cur =
  let buff := numbers take (map put (snd x)) in
  if dbg && negb (prod (fst x) =? length buff) then Abort
  else if length buff <=? prod (fst x) then Ok ((fst x, buff ++ skipn (length buff) (stale (fst x) cur)), opened rest) else UB.
Proof.
  intros dbg x rest cur Hw. unfold read_tensor, write_tensor.
  replace (good (opened _)) with true by reflexivity. cbn [negb]. rewrite andb_false_r.
  rewrite <- app_assoc. cbn [app]. rewrite getline_app by (apply spaced_line, nat_words).
  rewrite <- app_assoc. cbn [app]. rewrite getline_app by (apply spaced_line; exact Hw).
  rewrite numbers_nat. rewrite words_spaced by exact Hw. fold (stale (fst x) cur). rewrite stale_length. reflexivity.
Qed.

Lemma read_full : forall dbg x y rest cur, full x -> wordy put x -> reread put take x y ->
  read_tensor zero take dbg (opened (write_tensor put x ++ rest)) cur = Ok (y, opened rest).
Proof.
  intros dbg x y rest cur Hf Hw [Hs He]. rewrite read_step by exact Hw. cbn zeta. rewrite (numbers_all put take _ _ He).
  assert (length (snd y) = prod (fst x)) as Hl. { rewrite <- Hf. symmetry. exact (same_length He). }
  rewrite Hl, Nat.eqb_refl, Nat.leb_refl. cbn [negb]. rewrite andb_false_r.
  rewrite skipn_all2 by (rewrite stale_length; lia). rewrite app_nil_r, Hs. destruct y; reflexivity.
Qed.

Lemma read_unreadable : forall dbg s a a' e b rest cur, full (s, a ++ e :: b) -> wordy put (s, a ++ e :: b) ->
  Forall2 (fun a b => take (put a) = Some b) a a' -> take (put e) = None ->
  read_tensor zero take dbg (opened (write_tensor put (s, a ++ e :: b) ++ rest)) cur =
  if dbg then Abort else Ok ((s, a' ++ skipn (length a') (stale s cur)), opened rest).
Proof.
  intros dbg s a a' e b rest cur Hf Hw Ha He. rewrite read_step by exact Hw. cbn zeta. cbn [fst snd].
  rewrite (numbers_stop put take a a' e b Ha He).
  assert (length a' < prod s) as Hl.
  { unfold full in Hf. cbn [fst snd] in Hf. unfold prod. rewrite <- Hf, app_length. cbn [length]. pose proof (same_length Ha). lia. }
  destruct (Nat.eqb_spec (prod s) (length a')) as [|_]; [lia|]. destruct (Nat.leb_spec (length a') (prod s)) as [_|]; [|lia].
  destruct dbg; reflexivity.
Qed.

(** the first element that cannot be read *)
Lemma readable_split : forall l, (exists l', Forall2 (fun a b => take (put a) = Some b) l l') \/
  (exists a a' e b, l = a ++ e :: b /\ Forall2 (fun a b => take (put a) = Some b) a a' /\ take (put e) = None).
Proof.
  induction l as [|x l IH]; [left; exists []; constructor|].
  destruct (take (put x)) as [y|] eqn:Hx.
  - destruct IH as [[l' H]|(a & a' & e & b & -> & Ha & He)].
    + left. exists (y :: l'). constructor; assumption.
    + right. exists (x :: a), (y :: a'), e, b. split; [reflexivity|]. split; [constructor|]; assumption.
  - right. exists [], [], x, l. split; [reflexivity|]. split; [constructor|exact Hx].
Qed.

(** ** Sessions *)

Lemma lookup_value : forall (vs : @vars E) id, lookup vs id = value_of vs id.
Proof. induction vs as [|[i x] vs IH]; intros id; [reflexivity|]. cbn [lookup value_of]. now rewrite IH. Qed.

Lemma lookup_assign : forall (vs : @vars E) id x id', lookup (assign vs id x) id' =
  if id =? id' then match lookup vs id with Some _ => Some x | None => None end else lookup vs id'.
Proof.
  induction vs as [|[i y] vs IH]; intros id x id'; cbn [assign lookup].
  - destruct (id =? id'); reflexivity.
  - destruct (Nat.eqb_spec i id) as [->|Hi]; cbn [lookup].
    + destruct (Nat.eqb_spec id id'); reflexivity.
    + rewrite IH. destruct (Nat.eqb_spec i id') as [->|Hi']; [|reflexivity].
      destruct (Nat.eqb_spec id id'); [congruence|reflexivity].
Qed.

Lemma assign_ids : forall (vs : @vars E) id x, map fst (assign vs id x) = map fst vs.
Proof.
  induction vs as [|[i y] vs IH]; intros id x; [reflexivity|]. cbn [assign].
  destruct (i =? id); cbn [map fst]; [reflexivity|]. now rewrite IH.
Qed.

Lemma lookup_in : forall (vs : @vars E) id, In id (map fst vs) <-> lookup vs id <> None.
Proof.
  induction vs as [|[i x] vs IH]; intros id; cbn [map fst In lookup]; [split; [easy|congruence]|].
  destruct (Nat.eqb_spec i id) as [->|Hi]; [split; [discriminate|now left]|].
  rewrite <- IH. split; [intros [->|H]; [congruence|exact H]|now right].
Qed.

Definition tensors (vs : @vars E) : list char := flat_map (fun v => write_tensor put (snd v)) vs.

Definition well_saved (vs ws : @vars E) : Prop :=
  Forall2 (fun v w => fst v = fst w /\ full (snd v) /\ wordy put (snd v) /\ reread put take (snd v) (snd w)) vs ws.

(** reading the tensors one after the other *)
Lemma restore_each_ok : forall dbg vs ws, well_saved vs ws -> forall more rest cur, NoDup (map fst vs) ->
  incl (map fst vs) (map fst cur) ->
  exists cur', restore_each zero take dbg (map fst vs ++ more) (opened (tensors vs ++ rest)) cur =
               restore_each zero take dbg more (opened rest) cur' /\
    map fst cur' = map fst cur /\
    (forall id, lookup cur' id = match lookup ws id with Some x => Some x | None => lookup cur id end).
Proof.
  intros dbg vs ws H. induction H as [|[i x] [j y] vs ws [Hi (Hf & Hw & Hr)] Hvs IH]; intros more rest cur Hn Hin.
  - exists cur. cbn [map app tensors flat_map lookup]. split; [reflexivity|]. split; [reflexivity|]. intros; reflexivity.
  - cbn [fst snd] in *. subst j. cbn [map fst] in *. inversion Hn as [|? ? Hni Hn']; subst.
    assert (In i (map fst cur)) as Hc by (apply Hin; left; reflexivity).
    apply lookup_in in Hc. destruct (lookup cur i) as [c|] eqn:Ec; [|congruence].
    cbn [app restore_each tensors flat_map snd]. rewrite Ec. rewrite <- app_assoc.
    rewrite (read_full dbg x y _ c Hf Hw Hr).
    destruct (IH more rest (assign cur i y) Hn') as (cur' & E' & Hids & Hl).
    { rewrite assign_ids. intros id Hid. apply Hin. right. exact Hid. }
    exists cur'. split; [exact E'|]. rewrite assign_ids in Hids. split; [exact Hids|].
    intros id. rewrite Hl, lookup_assign, Ec. cbn [lookup].
    destruct (Nat.eqb_spec i id) as [->|Hne]; [|reflexivity].
    assert (lookup ws id = None) as ->; [|reflexivity].
    destruct (lookup ws id) eqn:El; [|reflexivity]. exfalso. apply Hni.
    assert (map fst ws = map fst vs) as Hm.
    { clear -Hvs. induction Hvs as [|v w vs ws [Hvw _] _ IH]; [reflexivity|]. cbn [map]. now rewrite Hvw, IH. }
    assert (In id (map fst ws)) as Hw' by (apply lookup_in; congruence).
    exact (eq_rect _ (fun l => In id l) Hw' _ Hm).
Qed.

(** the first unknown identifier stops the restoration *)
Lemma restore_each_unknown : forall dbg vs ws, well_saved vs ws -> forall rest cur,
  ~ incl (map fst vs) (map fst cur) ->
  restore_each zero take dbg (map fst vs) (opened (tensors vs ++ rest)) cur = if dbg then Abort else UB.
Proof.
  intros dbg vs ws H. induction H as [|[i x] [j y] vs ws [Hi (Hf & Hw & Hr)] Hvs IH]; intros rest cur Hin.
  - exfalso. apply Hin. intros id [].
  - cbn [fst snd] in *. subst j. cbn [map fst restore_each tensors flat_map snd] in *.
    destruct (lookup cur i) as [c|] eqn:Ec; [|reflexivity].
    rewrite <- app_assoc, (read_full dbg x y _ c Hf Hw Hr). apply IH. rewrite assign_ids.
    intros Hi. apply Hin. intros id [<-|Hid]; [apply lookup_in; congruence|exact (Hi id Hid)].
Qed.

(** nothing left to read: every remaining variable becomes a single number without a shape *)
Lemma restore_each_cut : forall ids s cur, (s = opened [] \/ good s = false) -> incl ids (map fst cur) ->
  exists cur', restore_each zero take false ids s cur = Ok cur' /\ map fst cur' = map fst cur /\
    (forall id, ~ In id ids -> lookup cur' id = lookup cur id) /\
    (forall id, In id ids -> exists e, lookup cur' id = Some ([], [e])).
Proof.
  induction ids as [|i ids IH]; intros s cur Hs Hin.
  - exists cur. cbn [restore_each]. split; [reflexivity|]. split; [reflexivity|]. split; [reflexivity|intros id []].
  - assert (In i (map fst cur)) as Hc by (apply Hin; left; reflexivity).
    apply lookup_in in Hc. destruct (lookup cur i) as [c|] eqn:Ec; [|congruence].
    cbn [restore_each]. rewrite Ec.
    assert (exists e s', read_tensor zero take false s c = Ok (([], [e]), s') /\ good s' = false) as (e & s' & Er & Hg).
    { assert (exists s', getline s = ([], s') /\ good s' = false) as (s' & G1 & G2).
      { destruct Hs as [->|Hs]; [eexists; split; reflexivity|]. unfold getline. rewrite Hs. eexists; split; [reflexivity|exact Hs]. }
      assert (getline s' = ([], s')) as G3 by (unfold getline; rewrite G2; reflexivity).
      assert (length (stale [] c) = 1) as Hl by (rewrite stale_length; reflexivity).
      destruct (stale [] c) as [|e [|]] eqn:Es; try discriminate Hl.
      exists e, s'. split; [|exact G2]. unfold read_tensor. cbn [andb]. rewrite G1, G3.
      change (numbers take_nat (words [])) with (@nil nat). change (numbers take (words [])) with (@nil E).
      fold (stale [] c). rewrite Es. reflexivity. }
    rewrite Er. destruct (IH s' (assign cur i ([], [e]))) as (cur' & E' & Hids & Hout & Hcut).
    { right. exact Hg. } { rewrite assign_ids. intros id Hid. apply Hin. right. exact Hid. }
    exists cur'. split; [exact E'|]. rewrite assign_ids in Hids. split; [exact Hids|].
    split.
    + intros id Hid. rewrite Hout by (intros Hd; apply Hid; right; exact Hd). rewrite lookup_assign.
      destruct (Nat.eqb_spec i id) as [->|]; [exfalso; apply Hid; left|]; reflexivity.
    + intros id [<-|Hid]; [|exact (Hcut id Hid)].
      destruct (in_dec Nat.eq_dec i ids) as [Hd|Hd]; [exact (Hcut i Hd)|].
      exists e. rewrite Hout by exact Hd. rewrite lookup_assign, Nat.eqb_refl, Ec. reflexivity.
Qed.

Lemma restore_ids : forall dbg ids text (cur : @vars E),
  restore_original zero take dbg (spaced put_nat ids ++ newline :: text) cur = restore_each zero take dbg ids (opened text) cur.
Proof.
  intros dbg ids text cur. unfold restore_original. rewrite getline_app by (apply spaced_line, nat_words).
  rewrite numbers_nat. reflexivity.
Qed.

(** ** Bytes *)

Lemma bytes_app : forall a b, bytes a -> bytes b -> bytes (a ++ b).
Proof. intros a b Ha Hb. apply Forall_app. split; assumption. Qed.

Lemma spaced_bytes : forall {T} (f : T -> list char) l, (forall x, bytes (f x)) -> bytes (spaced f l).
Proof.
  intros T f l H. induction l as [|x l IH]; [constructor|]. cbn [spaced]. apply bytes_app; [apply H|].
  constructor; [reflexivity|exact IH].
Qed.

Lemma text_bytes : forall vs : @vars E, (forall e, bytes (put e)) -> bytes (save_original put vs).
Proof.
  intros vs H. unfold save_original. apply bytes_app; [apply spaced_bytes; exact put_nat_bytes|].
  constructor; [reflexivity|]. induction vs as [|v vs IH]; [constructor|]. cbn [flat_map]. apply bytes_app; [|exact IH].
  unfold write_tensor. apply bytes_app; [apply spaced_bytes; exact put_nat_bytes|]. constructor; [reflexivity|].
  apply bytes_app; [apply spaced_bytes; exact H|]. constructor; [reflexivity|constructor].
Qed.

End Text.

(** ** Files *)

Lemma path_eqb_refl : forall p, path_eqb p p = true.
Proof. intros p. unfold path_eqb. destruct (list_eq_dec N.eq_dec p p); congruence. Qed.

Lemma path_eqb_ne : forall p q, p <> q -> path_eqb p q = false.
Proof. intros p q H. unfold path_eqb. destruct (list_eq_dec N.eq_dec p q); congruence. Qed.

Lemma tmp_ne : forall p, tmp p <> p.
Proof. intros p H. apply (f_equal (@length char)) in H. unfold tmp in H. rewrite app_length in H. cbn [length] in H. lia. Qed.

Lemma put_here : forall f p c, put_file f p c p = c.
Proof. intros. unfold put_file. now rewrite path_eqb_refl. Qed.

Lemma put_there : forall f p c q, p <> q -> put_file f p c q = f q.
Proof. intros. unfold put_file. now rewrite path_eqb_ne. Qed.

Lemma acts_app : forall a b f, acts f (a ++ b) = acts (acts f a) b.
Proof. intros. unfold acts. apply fold_left_app. Qed.

Lemma acts_cons : forall e l f, acts f (e :: l) = acts (act f e) l.
Proof. reflexivity. Qed.

Lemma acts_append : forall p ls f c, f p = Some c -> acts f (map (Append p) ls) p = Some (c ++ concat ls).
Proof.
  induction ls as [|l ls IH]; intros f c H; cbn [map concat].
  - rewrite app_nil_r. exact H.
  - change (acts f (Append p l :: map (Append p) ls)) with (acts (act f (Append p l)) (map (Append p) ls)).
    rewrite (IH _ (c ++ l)); [now rewrite app_assoc|]. cbn [act]. rewrite put_here, H. reflexivity.
Qed.

Lemma acts_append_other : forall p ls f q, p <> q -> acts f (map (Append p) ls) q = f q.
Proof.
  induction ls as [|l ls IH]; intros f q H; [reflexivity|]. cbn [map].
  change (acts f (Append p l :: map (Append p) ls)) with (acts (act f (Append p l)) (map (Append p) ls)).
  rewrite IH by exact H. cbn [act]. apply put_there. exact H.
Qed.

Lemma concat_firstn : forall {T} (ls : list (list T)) k, exists n, concat (firstn k ls) = firstn n (concat ls).
Proof.
  induction ls as [|l ls IH]; intros k.
  - exists 0. rewrite firstn_nil. reflexivity.
  - destruct k as [|k]; [exists 0; reflexivity|]. destruct (IH k) as [n Hn]. exists (length l + n).
    cbn [firstn concat]. rewrite Hn. rewrite firstn_app_2. reflexivity.
Qed.
