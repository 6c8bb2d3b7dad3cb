(** C22, C23, C24: saving and loading. *)
From Coq Require Import String Ascii List Arith NArith ZArith Bool PeanoNat Lia.
From Verif Require Import ListBase TensorModel LzwModel LzwProps TextModel TextSpec TextProofs PrintModel.
Import ListNotations.
Local Open Scope nat_scope.

(** C22.  Writing a tensor and reading it back, whatever the tensor read into held before and whatever follows in the
    file: the shape returns, each element becomes what reading its own text gives, and the stream stands behind the tensor. *)
Theorem C22_read_write : forall (E : Type) (zero : E) (put : E -> list char) (take : list char -> option E) dbg x y rest cur,
  full x -> wordy put x -> reread put take x y ->
  read_tensor zero take dbg (opened (write_tensor put x ++ rest)) cur = Ok (y, opened rest).
Proof. intros. apply read_full; assumption. Qed.
Print Assumptions C22_read_write.

(** C22.  The loaded tensor is the saved one exactly when every element survives being written and read. *)
Theorem C22_roundtrip_iff : forall (E : Type) (zero : E) (put : E -> list char) (take : list char -> option E) dbg x,
  full x -> wordy put x -> take (put zero) = Some zero ->
  (load_tensor zero take dbg (save_tensor put x) = Ok x <-> Forall (fun e => take (put e) = Some e) (snd x)).
Proof.
  intros E zero put take dbg [s l] Hf Hw Hz. cbn [snd]. unfold load_tensor, save_tensor.
  rewrite <- (app_nil_r (write_tensor put (s, l))). split.
  - intros H. destruct (readable_split put take l) as [[l' Hl]|(a & a' & e & b & -> & Ha & He)].
    + rewrite (read_full zero put take dbg (s, l) (s, l') [] ([], []) Hf Hw (conj eq_refl Hl)) in H.
      injection H as H. apply Forall_forall.
      assert (forall m m', Forall2 (fun a b => take (put a) = Some b) m m' -> m' = m -> forall x, In x m -> take (put x) = Some x) as G.
      { induction 1 as [|c d m m' Hcd _ IH]; intros Hm x Hx; [destruct Hx|]. injection Hm as -> Hm.
        destruct Hx as [->|Hx]; [exact Hcd|exact (IH Hm x Hx)]. }
      exact (G l l' Hl H).
    + rewrite (read_unreadable zero put take dbg s a a' e b [] ([], []) Hf Hw Ha He) in H.
      destruct dbg; [discriminate H|]. injection H as H. exfalso.
      pose proof (same_length Ha) as Hl. unfold full in Hf. cbn [fst snd] in Hf. fold (prod s) in Hf.
      rewrite app_length in Hf. cbn [length] in Hf.
      unfold stale in H. cbn [snd length] in H. destruct (Nat.eqb_spec 0 (prod s)) as [|_]; [lia|].
      apply (f_equal (fun l => nth (length a) l e)) in H.
      rewrite (app_nth2 a) in H by lia. rewrite Nat.sub_diag in H. cbn [nth] in H.
      rewrite app_nth2 in H by lia. rewrite Hl, Nat.sub_diag in H.
      replace (prod s) with (length a' + S (length b)) in H by lia.
      rewrite repeat_app, skipn_app, repeat_length, Nat.sub_diag, skipn_all2 in H by (rewrite repeat_length; lia).
      cbn in H. subst e. congruence.
  - intros H. rewrite (read_full zero put take dbg (s, l) (s, l) [] ([], []) Hf Hw); [reflexivity|].
    split; [reflexivity|]. cbn [snd]. clear -H. induction H; constructor; auto.
Qed.
Print Assumptions C22_roundtrip_iff.

(** C22.  An element that cannot be read (inf and nan are written as words that operator >> does not take for numbers): a debug
    build aborts; a release build keeps the elements before it and leaves the rest as they were in the tensor read into,
    or zero when that had another size. *)
Theorem C22_unreadable : forall (E : Type) (zero : E) (put : E -> list char) (take : list char -> option E) dbg s a a' e b rest cur,
  full (s, a ++ e :: b) -> wordy put (s, a ++ e :: b) ->
  Forall2 (fun u v => take (put u) = Some v) a a' -> take (put e) = None ->
  read_tensor zero take dbg (opened (write_tensor put (s, a ++ e :: b) ++ rest)) cur =
  if dbg then Abort
  else Ok ((s, a' ++ skipn (length a') (if length (snd cur) =? fold_right Nat.mul 1 s then snd cur
                                        else repeat zero (fold_right Nat.mul 1 s))), opened rest).
Proof. intros. exact (read_unreadable zero put take dbg s a a' e b rest cur H H0 H1 H2). Qed.
Print Assumptions C22_unreadable.

(** C22.  A default-constructed tensor, which has no elements although the product of its extents is one, does not return: a debug build
    aborts while reading it, a release build reads a tensor with one element. *)
Theorem C22_empty_refuted : forall (E : Type) (zero : E) (put : E -> list char) (take : list char -> option E) dbg,
  load_tensor zero take dbg (save_tensor put ([], [])) = if dbg then Abort else Ok ([], [zero]).
Proof. intros. destruct dbg; reflexivity. Qed.
Print Assumptions C22_empty_refuted.

(** C22.  The precisions in use are too small: session files (six digits), save_tensor of float (eight) and of double (fifteen) write
    different numbers as the same text, so that whatever reads it, two different tensors load as the same. *)
Theorem C22_precision_refuted : forall p, p = 6%N \/ p = 8%N \/ p = 15%N ->
  exists x y, (if (p =? 15)%N then double x /\ double y else single x /\ single y) /\ ~ same_value x y /\
    forall (zero : flt) (take : list char -> option flt) dbg, load_tensor zero take dbg (save_tensor (put_flt p) ([1], [x])) =
                          load_tensor zero take dbg (save_tensor (put_flt p) ([1], [y])).
Proof.
  assert (forall p x y, put_flt p x = put_flt p y -> forall (zero : flt) (take : list char -> option flt) dbg,
          load_tensor zero take dbg (save_tensor (put_flt p) ([1], [x])) = load_tensor zero take dbg (save_tensor (put_flt p) ([1], [y]))) as G by
    (intros p x y H zero take dbg; unfold save_tensor, write_tensor; cbn [fst snd spaced]; rewrite H; reflexivity).
  assert (forall m n e, (m <> n)%N -> ~ same_value (Flt false m e) (Flt false n e)) as D.
  { intros m n e Hmn [[Hm Hn]|[_ (k & j & Hkj & H)]]; cbn [mantissa exponent] in *; [congruence|].
    assert (k = j) as -> by lia. apply Hmn. apply N.mul_cancel_r in H; [exact H|]. apply N.pow_nonzero. discriminate. }
  intros p [->|[->| ->]].
  - exists (Flt false 8388608 (-23)), (Flt false 8388609 (-23)). split; [|split].
    + split; (split; [reflexivity|cbn [exponent]; lia]).
    + apply D. discriminate.
    + apply G. vm_compute. reflexivity.
  - exists (Flt false 16384001 (-14)), (Flt false 16384002 (-14)). split; [|split].
    + split; (split; [reflexivity|cbn [exponent]; lia]).
    + apply D. discriminate.
    + apply G. vm_compute. reflexivity.
  - exists (Flt false 4503599627370496 (-52)), (Flt false 4503599627370497 (-52)). split; [|split].
    + split; (split; [reflexivity|cbn [exponent]; lia]).
    + apply D. discriminate.
    + apply G. vm_compute. reflexivity.
Qed.
Print Assumptions C22_precision_refuted.

(** C23.  Restoring what was saved: every variable that was saved holds what its own text reads as, under its own identifier, whatever it
    held and whatever shape it had; every other variable is as it was.  The order in which the two sessions walk their
    variables does not matter. *)
Theorem C23_restore : forall (E : Type) (zero : E) (put : E -> list char) (take : list char -> option E) dbg vs ws cur,
  NoDup (map fst vs) -> incl (map fst vs) (map fst cur) ->
  Forall2 (fun v w => fst v = fst w /\ full (snd v) /\ wordy put (snd v) /\ reread put take (snd v) (snd w)) vs ws ->
  exists cur', restore_original zero take dbg (save_original put vs) cur = Ok cur' /\ map fst cur' = map fst cur /\
    forall id, value_of cur' id = match value_of ws id with Some x => Some x | None => value_of cur id end.
Proof.
  intros E zero put take dbg vs ws cur Hn Hin H. unfold save_original. rewrite restore_ids.
  destruct (restore_each_ok zero put take dbg vs ws H [] [] cur Hn Hin) as (cur' & Er & Hids & Hl).
  rewrite !app_nil_r in Er. exists cur'. split; [exact Er|]. split; [exact Hids|].
  intros id. pose proof (Hl id) as Hi. rewrite !lookup_value in Hi. exact Hi.
Qed.
Print Assumptions C23_restore.

(** C23.  If every element survives its formatting and both sessions have the same variables, the session is as it was when saved. *)
Theorem C23_session : forall (E : Type) (zero : E) (put : E -> list char) (take : list char -> option E) dbg vs cur,
  NoDup (map fst vs) -> (forall id, In id (map fst vs) <-> In id (map fst cur)) ->
  Forall (fun v => full (snd v) /\ wordy put (snd v) /\ Forall (fun e => take (put e) = Some e) (snd (snd v))) vs ->
  exists cur', restore_original zero take dbg (save_original put vs) cur = Ok cur' /\
    forall id, value_of cur' id = value_of vs id.
Proof.
  intros E zero put take dbg vs cur Hn Hin H.
  destruct (C23_restore E zero put take dbg vs vs cur Hn) as (cur' & Er & _ & Hv).
  - intros id. apply Hin.
  - clear -H. induction H as [|v vs (Hf & Hw & Hs) _ IH]; constructor; [|exact IH].
    split; [reflexivity|]. split; [exact Hf|]. split; [exact Hw|]. split; [reflexivity|].
    clear -Hs. induction Hs; constructor; assumption.
  - exists cur'. split; [exact Er|]. intros id. rewrite Hv. destruct (value_of vs id) eqn:Ev; [reflexivity|].
    destruct (value_of cur id) eqn:Ec; [|reflexivity]. exfalso.
    assert (In id (map fst cur)) as Hid by (apply value_in; rewrite Ec; discriminate).
    apply Hin, value_in in Hid. exact (Hid Ev).
Qed.
Print Assumptions C23_session.

(** C23.  A file naming a variable that the session does not have: a debug build aborts, a release build dereferences the end of the map. *)
Theorem C23_unknown : forall (E : Type) (zero : E) (put : E -> list char) (take : list char -> option E) dbg vs ws cur,
  ~ incl (map fst vs) (map fst cur) ->
  Forall2 (fun v w => fst v = fst w /\ full (snd v) /\ wordy put (snd v) /\ reread put take (snd v) (snd w)) vs ws ->
  restore_original zero take dbg (save_original put vs) cur = if dbg then Abort else UB.
Proof.
  intros E zero put take dbg vs ws cur Hin H. unfold save_original. rewrite restore_ids.
  pose proof (restore_each_unknown zero put take dbg vs ws H [] cur Hin) as Hr. rewrite app_nil_r in Hr. exact Hr.
Qed.
Print Assumptions C23_unknown.

(** C23.  The same through the compressed file: after save(path) the file at path is the only one that changed (path.tmp is
    gone), and restore(path) puts the variables back. *)
Theorem C23_save_restore : forall (E : Type) (zero : E) (put : E -> list char) (take : list char -> option E) dbg flushed f p vs ws cur pieces zpieces z,
  (forall e, bytes (put e)) -> NoDup (map fst vs) -> incl (map fst vs) (map fst cur) ->
  Forall2 (fun v w => fst v = fst w /\ full (snd v) /\ wordy put (snd v) /\ reread put take (snd v) (snd w)) vs ws ->
  concat pieces = save_original put vs -> compress shipped_dms (save_original put vs) = Some z -> concat zpieces = z ->
  let g := acts f (save_events p pieces zpieces) in
  (forall q, q <> p -> q <> tmp p -> g q = f q) /\ g (tmp p) = None /\
  exists g' cur', restore zero take dbg flushed g p cur = (g', Ok cur') /\ (forall q, g' q = g q) /\
    map fst cur' = map fst cur /\
    forall id, value_of cur' id = match value_of ws id with Some x => Some x | None => value_of cur id end.
Proof.
  intros E zero put take dbg flushed f p vs ws cur pieces zpieces z Hb Hn Hin H Hp Hz Hzp g.
  pose proof (tmp_ne p) as Htp. assert (p <> tmp p) as Hpt by congruence.
  assert (g p = Some z) as Gp.
  { subst g. unfold save_events. rewrite acts_cons, acts_app, acts_cons, acts_app, acts_cons. unfold acts at 1.
    cbn [fold_left act]. rewrite put_there by exact Htp. erewrite acts_append by apply put_here. cbn [app]. congruence. }
  assert (g (tmp p) = None) as Gt.
  { subst g. unfold save_events. rewrite acts_cons, acts_app, acts_cons, acts_app, acts_cons. unfold acts at 1.
    cbn [fold_left act]. apply put_here. }
  assert (forall q, q <> p -> q <> tmp p -> g q = f q) as Go.
  { intros q Hq Hqt. subst g. unfold save_events. rewrite acts_cons, acts_app, acts_cons, acts_app, acts_cons. unfold acts at 1.
    cbn [fold_left act]. rewrite put_there by congruence. rewrite acts_append_other by congruence. rewrite put_there by congruence.
    rewrite acts_append_other by congruence. apply put_there. congruence. }
  split; [exact Go|]. split; [exact Gt|].
  destruct (C01_lzw_roundtrip (save_original put vs) (text_bytes put vs Hb)) as (z' & Ez & _ & Ed).
  rewrite Hz in Ez. injection Ez as <-.
  destruct (C23_restore E zero put take dbg vs ws cur Hn Hin H) as (cur' & Er & Hids & Hv).
  exists (put_file g (tmp p) None), cur'. split.
  { unfold restore. rewrite Gp, Ed, Er. reflexivity. }
  split; [|split; [exact Hids|exact Hv]].
  intros q. destruct (list_eq_dec N.eq_dec q (tmp p)) as [->|Hq]; [rewrite put_here; congruence|apply put_there; congruence].
Qed.
Print Assumptions C23_save_restore.

(** C24.  Whenever the process dies during save(path) - after any number of the effects on the files, however the output is
    split into pieces - one of three things is so, and no file besides path and path.tmp has changed:
    path still has its previous content; or path has a beginning of the new content and path.tmp the whole uncompressed
    session; or path has the new content. *)
Theorem C24_crash : forall f p text z pieces zpieces k, concat pieces = text -> concat zpieces = z ->
  let g := acts f (firstn k (save_events p pieces zpieces)) in
  (forall q, q <> p -> q <> tmp p -> g q = f q) /\
  ( g p = f p /\ (g (tmp p) = f (tmp p) \/ exists n, g (tmp p) = Some (firstn n text)) \/
    (exists n, g p = Some (firstn n z)) /\ g (tmp p) = Some text \/
    g p = Some z /\ g (tmp p) = None ).
Proof.
  intros f p text z pieces zpieces k Hp Hz g. pose proof (tmp_ne p) as Htp. assert (p <> tmp p) as Hpt by congruence.
  subst g. unfold save_events. destruct k as [|k].
  { cbn [firstn acts fold_left]. split; [reflexivity|]. left. split; [reflexivity|left; reflexivity]. }
  cbn [firstn]. change (acts f (Open (tmp p) :: ?l)) with (acts (put_file f (tmp p) (Some [])) l).
  set (f0 := put_file f (tmp p) (Some [])).
  change (acts f (Open (tmp p) :: firstn k (map (Append (tmp p)) pieces ++ Open p :: map (Append p) zpieces ++ [Remove (tmp p)])))
    with (acts f0 (firstn k (map (Append (tmp p)) pieces ++ Open p :: map (Append p) zpieces ++ [Remove (tmp p)]))).
  rewrite firstn_app, acts_app, map_length.
  set (f1 := acts f0 (firstn k (map (Append (tmp p)) pieces))).
  assert (f1 = acts f0 (map (Append (tmp p)) (firstn k pieces))) as F1 by (subst f1; now rewrite firstn_map).
  assert (forall q, q <> tmp p -> f1 q = f q) as F1o.
  { intros q Hq. rewrite F1, acts_append_other by congruence. subst f0. apply put_there. congruence. }
  assert (f1 (tmp p) = Some (concat (firstn k pieces))) as F1t.
  { rewrite F1. erewrite acts_append by (subst f0; apply put_here). reflexivity. }
  destruct (k - length pieces) as [|k'] eqn:Ek.
  { cbn [firstn acts fold_left]. split; [intros q Hq Hqt; exact (F1o q Hqt)|]. left. split; [exact (F1o p Hpt)|]. right.
    destruct (concat_firstn pieces k) as [n Hn]. exists n. rewrite F1t, Hn, Hp. reflexivity. }
  cbn [firstn]. rewrite firstn_all2 in F1t by lia. rewrite Hp in F1t.
  set (f2 := put_file f1 p (Some [])).
  change (acts f1 (Open p :: firstn k' (map (Append p) zpieces ++ [Remove (tmp p)])))
    with (acts f2 (firstn k' (map (Append p) zpieces ++ [Remove (tmp p)]))).
  rewrite firstn_app, acts_app, map_length.
  set (f3 := acts f2 (firstn k' (map (Append p) zpieces))).
  assert (f3 = acts f2 (map (Append p) (firstn k' zpieces))) as F3 by (subst f3; now rewrite firstn_map).
  assert (forall q, q <> p -> f3 q = f1 q) as F3o.
  { intros q Hq. rewrite F3, acts_append_other by congruence. subst f2. apply put_there. congruence. }
  assert (f3 p = Some (concat (firstn k' zpieces))) as F3p.
  { rewrite F3. erewrite acts_append by (subst f2; apply put_here). reflexivity. }
  destruct (k' - length zpieces) as [|k''] eqn:Ek'.
  { cbn [firstn acts fold_left]. split.
    - intros q Hq Hqt. rewrite F3o by exact Hq. exact (F1o q Hqt).
    - right. left. split; [|rewrite F3o by exact Htp; exact F1t].
      destruct (concat_firstn zpieces k') as [n Hn]. exists n. rewrite F3p, Hn, Hz. reflexivity. }
  rewrite firstn_all2 in F3p by lia. cbn [firstn]. rewrite firstn_nil. cbn [acts fold_left act]. split.
  - intros q Hq Hqt. rewrite put_there by congruence. rewrite F3o by exact Hq. exact (F1o q Hqt).
  - right. right. split; [rewrite put_there by exact Htp; rewrite F3p; congruence|apply put_here].
Qed.
Print Assumptions C24_crash.

(** C24.  Every one of these states is reached: for every length n there is a moment at which path holds just the first n bytes of the new
    content. *)
Theorem C24_cut_anywhere : forall f p text z n, exists pieces zpieces k, concat pieces = text /\ concat zpieces = z /\
  let g := acts f (firstn k (save_events p pieces zpieces)) in g p = Some (firstn n z) /\ g (tmp p) = Some text.
Proof.
  intros f p text z n. exists [text], [firstn n z; skipn n z], 4.
  split; [apply app_nil_r|]. split; [cbn [concat]; rewrite app_nil_r; apply firstn_skipn|].
  pose proof (tmp_ne p) as Htp. assert (p <> tmp p) as Hpt by congruence.
  cbn [save_events map app firstn acts fold_left act].
  split.
  - rewrite put_here, put_here. reflexivity.
  - rewrite put_there by exact Hpt. rewrite put_there by exact Hpt. rewrite !put_here. reflexivity.
Qed.
Print Assumptions C24_cut_anywhere.

(** C24, refuted.  For every session and every previous content there is a moment of save(path) such that, if the process dies then, the
    file at path is neither the old nor the new one, and restore(path) in a release build reports nothing, changes no
    variable and removes path.tmp, which held the session: both the old and the new session are lost. *)
Theorem C24_atomic_refuted : forall (E : Type) (zero : E) (put : E -> list char) (take : list char -> option E) flushed f p old vs cur,
  f p = Some old -> old <> [] -> (forall e, bytes (put e)) ->
  exists z pieces zpieces k, compress shipped_dms (save_original put vs) = Some z /\
    concat pieces = save_original put vs /\ concat zpieces = z /\
    let g := acts f (firstn k (save_events p pieces zpieces)) in
    g p <> f p /\ g p <> Some z /\ g (tmp p) = Some (save_original put vs) /\
    exists g', restore zero take false flushed g p cur = (g', Ok cur) /\ g' p = Some [] /\ g' (tmp p) = None.
Proof.
  intros E zero put take flushed f p old vs cur Hf Ho Hb.
  destruct (C01_lzw_roundtrip (save_original put vs) (text_bytes put vs Hb)) as (z & Ez & _ & Ed).
  exists z, [save_original put vs], [z], 3. split; [exact Ez|]. split; [apply app_nil_r|]. split; [apply app_nil_r|].
  pose proof (tmp_ne p) as Htp. assert (p <> tmp p) as Hpt by congruence.
  intros g. cbn [save_events map app firstn acts fold_left act] in g.
  assert (g p = Some []) as Gp by (subst g; apply put_here).
  assert (decompress shipped_dms [] = DCorrupted []) as D0 by (vm_compute; reflexivity).
  split; [rewrite Gp, Hf; congruence|].
  split. { rewrite Gp. intros Hz. injection Hz as Hz. rewrite <- Hz, D0 in Ed. discriminate Ed. }
  split. { subst g. rewrite put_there by exact Hpt. rewrite !put_here. reflexivity. }
  exists (put_file g (tmp p) None). split; [|split].
  - unfold restore. rewrite Gp, D0. reflexivity.
  - rewrite put_there by exact Htp. exact Gp.
  - apply put_here.
Qed.
Print Assumptions C24_atomic_refuted.

(** C24.  What a release build makes of a session file that ends between two variables: the variables before the end are restored, and
    each of the others becomes a single number without a shape; the truncation is not reported. *)
Theorem C24_cut_restore : forall (E : Type) (zero : E) (put : E -> list char) (take : list char -> option E) vs1 vs2 ws1 cur,
  NoDup (map fst (vs1 ++ vs2)) -> incl (map fst (vs1 ++ vs2)) (map fst cur) ->
  Forall2 (fun v w => fst v = fst w /\ full (snd v) /\ wordy put (snd v) /\ reread put take (snd v) (snd w)) vs1 ws1 ->
  exists n cur', restore_original zero take false (firstn n (save_original put (vs1 ++ vs2))) cur = Ok cur' /\
    map fst cur' = map fst cur /\
    (forall id, In id (map fst vs1) -> value_of cur' id = value_of ws1 id) /\
    (forall id, In id (map fst vs2) -> exists e, value_of cur' id = Some ([], [e])) /\
    (forall id, ~ In id (map fst (vs1 ++ vs2)) -> value_of cur' id = value_of cur id).
Proof.
  intros E zero put take vs1 vs2 ws1 cur Hn Hin H. rewrite map_app in Hn, Hin.
  assert (map fst ws1 = map fst vs1) as Hm.
  { clear -H. induction H as [|v w vs ws [Hvw _] _ IH]; [reflexivity|]. cbn [map]. now rewrite Hvw, IH. }
  exists (length (spaced put_nat (map fst (vs1 ++ vs2)) ++ newline :: tensors put vs1)).
  replace (firstn _ (save_original put (vs1 ++ vs2))) with (spaced put_nat (map fst (vs1 ++ vs2)) ++ newline :: tensors put vs1).
  2:{ unfold save_original. fold (tensors put (vs1 ++ vs2)). unfold tensors at 3. rewrite flat_map_app.
      fold (tensors put vs1). fold (tensors put vs2). rewrite app_comm_cons, app_assoc.
      rewrite firstn_app, Nat.sub_diag, firstn_all. cbn [firstn]. rewrite app_nil_r. reflexivity. }
  rewrite restore_ids, map_app.
  assert (NoDup (map fst vs1)) as Hn1.
  { clear -Hn. induction (map fst vs1) as [|i l IH]; [constructor|]. cbn [app] in Hn. inversion Hn as [|? ? Hi Hn']; subst.
    constructor; [|exact (IH Hn')]. intros Hl. apply Hi, in_or_app. left. exact Hl. }
  destruct (restore_each_ok zero put take false vs1 ws1 H (map fst vs2) [] cur Hn1) as (c1 & Er & Hids & Hl).
  { intros id Hid. apply Hin. apply in_or_app. left. exact Hid. }
  rewrite app_nil_r in Er.
  destruct (restore_each_cut zero take (map fst vs2) (opened []) c1) as (c2 & Er2 & Hids2 & Hout & Hcut).
  { left. reflexivity. } { rewrite Hids. intros id Hid. apply Hin. apply in_or_app. right. exact Hid. }
  exists c2. split; [exact (eq_trans Er Er2)|]. split; [exact (eq_trans Hids2 Hids)|].
  assert (forall id, In id (map fst vs1) -> ~ In id (map fst vs2)) as Hd.
  { intros id H1 H2. clear -Hn H1 H2. induction (map fst vs1) as [|i l IH]; [destruct H1|].
    cbn [app] in Hn. inversion Hn as [|? ? Hi Hn']; subst. destruct H1 as [->|H1]; [|exact (IH Hn' H1)].
    apply Hi. apply in_or_app. right. exact H2. }
  split; [|split].
  - intros id Hid. pose proof (Hout id (Hd id Hid)) as Ho. rewrite (Hl id), !lookup_value in Ho. rewrite Ho.
    assert (In id (map fst ws1)) as Hw by (rewrite Hm; exact Hid). apply value_in in Hw.
    destruct (value_of ws1 id); [reflexivity|congruence].
  - intros id Hid. rewrite <- lookup_value. exact (Hcut id Hid).
  - intros id Hid. rewrite in_app_iff in Hid. pose proof (Hout id ltac:(tauto)) as Ho. rewrite (Hl id), !lookup_value in Ho. rewrite Ho.
    destruct (value_of ws1 id) eqn:Ew; [|reflexivity]. exfalso. apply Hid. left. rewrite <- Hm. apply value_in. rewrite Ew. discriminate.
Qed.
Print Assumptions C24_cut_restore.

(** Cases meeting the hypotheses, and what the functions compute on them: elements are natural numbers. *)
Module Case.
Definition x : list nat * list nat := ([2; 3], [5; 0; 12; 7; 307; 1]).
Definition y : list nat * list nat := ([1], [42]).
Example wordy_x : full x /\ wordy put_nat x /\ reread put_nat take_nat x x.
Proof.
  split; [reflexivity|]. split; [apply nat_words|]. split; [reflexivity|apply same_nat].
Qed.
Example text : write_tensor put_nat x = str ("2 3 " ++ String (ascii_of_nat 10) ("5 0 12 7 307 1 " ++ String (ascii_of_nat 10) ""))%string.
Proof. reflexivity. Qed.
Example read : read_tensor 0 take_nat true (opened (write_tensor put_nat x ++ [1; 2]%N)) ([4], [9; 9; 9; 9]) = Ok (x, opened [1; 2]%N).
Proof. reflexivity. Qed.

Definition saved : @vars nat := [(11, x); (3, y)].
Definition present : @vars nat := [(3, ([2], [6; 6])); (4, y); (11, ([6], [8; 8; 8; 8; 8; 8]))].
Example present_case : NoDup (map fst saved) /\ incl (map fst saved) (map fst present).
Proof. split; [repeat constructor; cbn; intuition congruence|]. intros i. cbn. intuition. Qed.
Example restored : restore_original 0 take_nat true (save_original put_nat saved) present = Ok [(3, y); (4, y); (11, x)].
Proof. reflexivity. Qed.
Example missing : ~ incl (map fst saved) (map fst [(3, y)]).
Proof. intros H. specialize (H 11 (or_introl eq_refl)). cbn in H. intuition congruence. Qed.
(** the file ends after the first variable: the second is lost *)
Example cut_file : restore_original 0 take_nat false (firstn 27 (save_original put_nat saved)) present = Ok [(3, ([], [0])); (4, y); (11, x)].
Proof. vm_compute. reflexivity. Qed.
(** an unreadable element: words that are not numbers *)
Definition put_opt (o : option nat) : list char := match o with Some n => put_nat n | None => [110; 97; 110]%N end.
Definition take_opt (l : list char) : option (option nat) := match take_nat l with Some n => Some (Some n) | None => None end.
Example nan : read_tensor (Some 0) take_opt false (opened (write_tensor put_opt ([4], [Some 1; None; Some 3; Some 4]))) ([4], [Some 7; Some 8; Some 9; None]) =
  Ok (([4], [Some 1; Some 8; Some 9; None]), opened []).
Proof. reflexivity. Qed.
End Case.
