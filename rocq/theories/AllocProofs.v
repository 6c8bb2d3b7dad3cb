(** Lemmas about AllocModel. *)
From Coq Require Import List NArith ZArith Bool Arith Lia Permutation.
From Verif Require Import AllocModel AllocSpec.
Import ListNotations.
Local Open Scope N_scope.

Lemma block_eqb_spec a b : reflect (a = b) (block_eqb a b).
Proof.
  destruct a as [a1 a2], b as [b1 b2]. unfold block_eqb. cbn [b_addr b_size].
  destruct (N.eqb_spec a1 b1), (N.eqb_spec a2 b2); cbn [andb]; constructor; congruence.
Qed.

Lemma existsb_block b l : existsb (block_eqb b) l = true <-> In b l.
Proof.
  rewrite existsb_exists. split.
  - intros (x & Hx & E). destruct (block_eqb_spec b x); [now subst|discriminate].
  - intros H. exists b. split; [assumption|]. destruct (block_eqb_spec b b); congruence.
Qed.

Lemma remove1_perm b l : In b l -> Permutation l (b :: remove1 b l).
Proof.
  induction l as [|x l IH]; [easy|]. intros H. cbn [remove1]. destruct (block_eqb_spec b x) as [->|NE]; [reflexivity|].
  destruct H as [H|H]; [congruence|]. rewrite (IH H) at 1. apply perm_swap.
Qed.

Lemma os_dealloc_all_length bs : forall live l, os_dealloc_all live bs = Some l -> length live = (length l + length bs)%nat.
Proof.
  induction bs as [|b bs IH]; intros live l H; cbn [os_dealloc_all] in H.
  - injection H as <-. cbn [length]. lia.
  - unfold os_dealloc in H. destruct (existsb (block_eqb b) live) eqn:E; [|discriminate]. apply existsb_block in E.
    apply IH in H. pose proof (Permutation_length (remove1_perm b live E)) as P. cbn [length] in *. lia.
Qed.

Lemma os_dealloc_all_perm bs : forall live rest, Permutation live (bs ++ rest) ->
  exists l, os_dealloc_all live bs = Some l /\ Permutation l rest.
Proof.
  induction bs as [|b bs IH]; intros live rest P; cbn [os_dealloc_all].
  - exists live. auto.
  - cbn [app] in P. assert (Hin : In b live). { eapply Permutation_in; [symmetry; exact P|]. now left. }
    unfold os_dealloc. pose proof Hin as E. apply existsb_block in E. rewrite E.
    apply IH. apply Permutation_cons_inv with (a := b). rewrite <- P. symmetry. now apply remove1_perm.
Qed.

(* ------------------------------------------------------------------ disjointness *)

Lemma disj_sym a b : disj a b -> disj b a.
Proof. unfold disj. tauto. Qed.

Lemma disjoint_b_spec a b : disjoint_b a b = true <-> disj a b.
Proof. unfold disjoint_b, disj. rewrite orb_true_iff, !N.leb_le. tauto. Qed.

Lemma disj_irrefl b : 0 < b_size b -> ~ disj b b.
Proof. unfold disj. lia. Qed.

(** pairwise disjoint *)
Definition pw (l : list block) : Prop := ForallOrdPairs disj l.

Lemma pw_cons a l : pw (a :: l) <-> Forall (disj a) l /\ pw l.
Proof. split; [intros H; inversion H; auto|intros [? ?]; now constructor]. Qed.

Lemma pw_perm l l' : Permutation l l' -> pw l -> pw l'.
Proof.
  induction 1 as [|x l l' P IH|x y l|l l' l'' P1 IH1 P2 IH2]; intros H.
  - assumption.
  - apply pw_cons in H. destruct H as (H1 & H2). apply pw_cons. split; [|auto].
    rewrite Forall_forall in *. intros z Hz. apply H1. now apply (Permutation_in _ (Permutation_sym P)).
  - apply pw_cons in H. destruct H as (H1 & H2). apply pw_cons in H2. destruct H2 as (H2 & H3).
    inversion H1 as [|? ? D1 D2]; subst. apply pw_cons. split; [constructor; [now apply disj_sym|assumption]|].
    apply pw_cons. auto.
  - auto.
Qed.

Lemma pw_app l1 l2 : pw (l1 ++ l2) -> pw l1 /\ pw l2 /\ forall a b, In a l1 -> In b l2 -> disj a b.
Proof.
  induction l1 as [|x l1 IH]; cbn [app]; intros H.
  - split; [constructor|]. split; [assumption|easy].
  - apply pw_cons in H. destruct H as (H1 & H2). destruct (IH H2) as (A & B & C). rewrite Forall_app in H1. destruct H1 as (H1 & H1').
    split; [now apply pw_cons|]. split; [assumption|]. intros a b [<-|Ha] Hb; [rewrite Forall_forall in H1'; auto|auto].
Qed.

(* ------------------------------------------------------------------ handles *)

Lemma live_blocks_app a b : live_blocks (a ++ b) = live_blocks a ++ live_blocks b.
Proof. unfold live_blocks. apply flat_map_app. Qed.

Lemma live_blocks_set_none hs k b : nth_error hs k = Some (Some b) ->
  Permutation (live_blocks hs) (b :: live_blocks (set_nth hs k None)).
Proof.
  revert k; induction hs as [|h hs IH]; intros [|k] H; cbn [nth_error] in H; try discriminate.
  - injection H as ->. reflexivity.
  - cbn [set_nth]. unfold live_blocks in *. cbn [flat_map]. rewrite (IH k H) at 1.
    destruct h; cbn [app]; [apply perm_swap|reflexivity].
Qed.

Lemma in_live hs k b : nth_error hs k = Some (Some b) -> In b (live_blocks hs).
Proof.
  intros H. eapply Permutation_in; [symmetry; apply (live_blocks_set_none hs k b H)|now left].
Qed.

Lemma set_nth_length {A} (l : list A) k a : length (set_nth l k a) = length l.
Proof. revert k; induction l as [|x l IH]; intros [|k]; cbn [set_nth length]; auto. Qed.

Lemma set_nth_same {A} (l : list A) k a : (k < length l)%nat -> nth_error (set_nth l k a) k = Some a.
Proof. revert k; induction l as [|x l IH]; intros [|k] H; cbn [set_nth length nth_error] in *; try lia; auto. apply IH. lia. Qed.

Lemma set_nth_other {A} (l : list A) k j a : k <> j -> nth_error (set_nth l k a) j = nth_error l j.
Proof.
  revert k j; induction l as [|x l IH]; intros [|k] [|j] H; cbn [set_nth nth_error]; try congruence; auto.
Qed.

(* ------------------------------------------------------------------ abstract store *)

Definition good (w : world) (s : store) : Prop :=
  Permutation (allocated (mc w) ++ reserved (mc w)) (os_live w) /\
  Permutation (live_blocks (handles w)) (allocated (mc w)) /\
  pw (os_live w) /\ Forall (fun b => 0 < b_size b) (os_live w) /\
  overlap w = false /\
  length (handles w) = length s /\
  (forall k h c, nth_error (handles w) k = Some h -> nth_error s k = Some c -> agrees (mem w) h c).

Definition bad (w : world) : Prop :=
  overlap w = true \/
  ((length (os_live w) < length (allocated (mc w)) + length (reserved (mc w)))%nat /\
   Permutation (live_blocks (handles w)) (allocated (mc w))).

Definition inv (w : world) (s : store) : Prop := if gc_true w then bad w else good w s.

Lemma inv_init : inv init [].
Proof.
  unfold inv, init, good; cbn. do 2 (split; [constructor|]). split; [constructor|]. split; [constructor|].
  split; [reflexivity|]. split; [reflexivity|]. intros [|k] h c; discriminate.
Qed.

Lemma candidates_in size rs b : In b (candidates size rs) -> In b rs /\ b_size b = size.
Proof. unfold candidates. rewrite filter_In. intros (H & E). split; [assumption|now apply N.eqb_eq]. Qed.

Lemma accessible_in live b : In b live -> accessible live b = true.
Proof.
  intros H. unfold accessible. apply existsb_exists. exists b. split; [assumption|].
  rewrite !N.leb_refl. reflexivity.
Qed.

Lemma agrees_memset m b h c : agrees m h c -> (forall b', h = Some b' -> disj b b') -> agrees (memset0 m b) h c.
Proof.
  destruct h as [b'|], c as [bytes|]; cbn [agrees]; try tauto.
  intros (L & H) D. specialize (D b' eq_refl). split; [assumption|]. intros off Ho. rewrite (H off Ho). f_equal.
  unfold memset0. destruct (N.leb_spec (b_addr b) (b_addr b' + off)), (N.ltb_spec (b_addr b' + off) (b_addr b + b_size b));
    cbn [andb]; try reflexivity. unfold disj in D. lia.
Qed.

Lemma repeat_zero_nth n k : (k < n)%nat -> nth_error (repeat 0 n) k = Some 0.
Proof. revert k; induction n as [|n IH]; intros [|k] H; cbn; try lia; auto. apply IH. lia. Qed.

(** adding a block that is disjoint from every live block *)
Lemma good_add live res al hs s m b size :
  b_size b = size -> 0 < size ->
  Permutation (live_blocks hs) al -> Permutation (b :: al ++ res) live -> pw live -> Forall (fun b => 0 < b_size b) live ->
  length hs = length s ->
  (forall k h c, nth_error hs k = Some h -> nth_error s k = Some c -> agrees m h c) ->
  forallb (disjoint_b b) (live_blocks hs) = true /\
  set_emplace b al = b :: al /\
  good (mkW live (memset0 m b) (mkC (b :: al) res) (hs ++ [Some b]) false false)
       (s ++ [Some (repeat 0 (N.to_nat size))]).
Proof.
  intros Hsz Hpos P1 P2 PW SZ HL HA.
  assert (PW2 : pw (b :: al ++ res)) by (eapply pw_perm; [symmetry; exact P2|exact PW]).
  apply pw_cons in PW2. destruct PW2 as (D & PW2).
  assert (Dl : forall b', In b' (live_blocks hs) -> disj b b').
  { intros b' Hb'. rewrite Forall_forall in D. apply D. apply in_app_iff. left. now apply (Permutation_in _ P1). }
  split; [|split].
  - apply forallb_forall. intros b' Hb'. apply disjoint_b_spec. auto.
  - unfold set_emplace. destruct (existsb (block_eqb b) al) eqn:E; [|reflexivity].
    apply existsb_block in E. exfalso. rewrite Forall_forall in D. apply (disj_irrefl b); [lia|]. apply D. apply in_app_iff. now left.
  - unfold good. cbn [mc allocated reserved os_live handles overlap mem].
    split; [exact P2|]. split.
    { rewrite live_blocks_app. cbn [live_blocks flat_map app]. rewrite <- P1. symmetry. apply Permutation_cons_append. }
    split; [assumption|]. split; [assumption|]. split; [reflexivity|]. split; [now rewrite !app_length, HL|].
    intros k h c Hh Hc. destruct (Nat.lt_ge_cases k (length hs)) as [L|L].
    + rewrite nth_error_app1 in Hh by assumption. rewrite nth_error_app1 in Hc by lia.
      apply agrees_memset; [eapply HA; eassumption|]. intros b' ->. apply Dl. eapply in_live; exact Hh.
    + assert (k = length hs).
      { assert (k < length (hs ++ [Some b]))%nat by (apply nth_error_Some; congruence). rewrite app_length in *. cbn [length] in *. lia. }
      subst k. rewrite nth_error_app2, Nat.sub_diag in Hh by lia. rewrite HL, nth_error_app2, Nat.sub_diag in Hc by lia.
      injection Hh as <-. injection Hc as <-. cbn [agrees]. rewrite repeat_length. split; [lia|].
      intros off Ho. rewrite repeat_zero_nth by lia. unfold memset0.
      destruct (N.leb_spec (b_addr b) (b_addr b + off)); [|lia]. destruct (N.ltb_spec (b_addr b + off) (b_addr b + b_size b)); [reflexivity|lia].
Qed.

Lemma step_good debug w s o : good w s -> gc_true w = false ->
  match step debug w o with
  | Ok w' => if gc_true w' then bad w' else good w' (spec_step s o)
  | Ub => exists size pick r2, debug = false /\ o = OAlloc size pick None r2
  | Abort => exists size pick r2, debug = true /\ o = OAlloc size pick None r2
  | Throw => exists size pick, o = OAlloc size pick None None
  | BadEnv => True
  end.
Proof.
  intros HG Hgc. pose proof HG as (P1 & P2 & PW & SZ & HO & HL & HA).
  destruct w as [live m [al res] hs g ov]. cbn [os_live mem mc allocated reserved handles gc_true overlap] in *. subst g ov.
  destruct o as [size pick r1 r2|k|k off v|]; cbn [step spec_step].
  - destruct (N.ltb_spec 0 size) as [Hsz|]; [|exact I]. unfold allocate, raw_allocate. cbn [mc reserved os_live mem allocated handles gc_true overlap].
    destruct (candidates size res) as [|c cs] eqn:EC.
    + assert (TAKE : forall a, fresh_reply live (mkB a size) = true -> good (mkW (mkB a size :: live) (memset0 m (mkB a size)) (mkC (set_emplace (mkB a size) al) res) (hs ++ [Some (mkB a size)]) false (false || negb (forallb (disjoint_b (mkB a size)) (live_blocks hs)))) (s ++ [Some (repeat 0 (N.to_nat size))])).
      { intros a EF. unfold fresh_reply in EF. apply andb_true_iff in EF. destruct EF as (_ & EF).
        destruct (good_add (mkB a size :: live) res al hs s m (mkB a size) size) as (E1 & E2 & E3); try assumption; try reflexivity.
        - constructor. exact P1.
        - apply pw_cons. split; [|assumption]. apply Forall_forall. intros x Hx. rewrite forallb_forall in EF. now apply disjoint_b_spec, EF.
        - constructor; assumption.
        - rewrite E1, E2. exact E3. }
      destruct r1 as [a|].
      * destruct (fresh_reply live (mkB a size)) eqn:EF; [|exact I].
        cbn [os_live mem mc handles gc_true overlap]. rewrite accessible_in by (now left). cbn [gc_true]. now apply TAKE.
      * unfold gc. cbn [mc reserved os_live]. destruct res as [|r0 res'].
        -- cbn [os_live mem mc handles gc_true overlap]. destruct debug; [eauto|]. eauto.
        -- destruct (os_dealloc_all_perm (r0 :: res') live al) as (l & El & Pl).
           { rewrite <- P1. apply Permutation_app_comm. }
           rewrite El. cbn [os_live mem mc allocated reserved handles gc_true overlap].
           destruct r2 as [a|]; [|eauto].
           destruct (fresh_reply l (mkB a size)) eqn:EF; [|exact I].
           cbn [os_live mem mc handles gc_true overlap]. rewrite accessible_in by (now left). cbn [gc_true].
           assert (Hlen : length l = length al) by now apply Permutation_length.
           unfold fresh_reply in EF. apply andb_true_iff in EF. destruct EF as (_ & EF).
           assert (Hnew : ~ In (mkB a size) al).
           { intros Hin. rewrite forallb_forall in EF. apply (disj_irrefl (mkB a size)); [assumption|]. apply disjoint_b_spec, EF.
             now apply (Permutation_in _ (Permutation_sym Pl)). }
           unfold set_emplace. destruct (existsb (block_eqb (mkB a size)) al) eqn:EB; [apply existsb_block in EB; contradiction|].
           right. cbn [os_live mc allocated reserved handles length]. split; [lia|].
           rewrite live_blocks_app. cbn [live_blocks flat_map app]. rewrite <- P2. symmetry. apply Permutation_cons_append.
    + set (b := nth (Nat.modulo pick (length (c :: cs))) (c :: cs) c).
      assert (Hb : In b (candidates size res)).
      { rewrite EC. apply nth_In. apply Nat.mod_upper_bound. cbn [length]. lia. }
      apply candidates_in in Hb. destruct Hb as (Hb & Hbs).
      cbn [os_live mem mc handles gc_true overlap].
      assert (Hlive : In b live). { apply (Permutation_in _ P1). apply in_app_iff. now right. }
      rewrite accessible_in by assumption. cbn [gc_true].
      destruct (good_add live (remove1 b res) al hs s m b size) as (E1 & E2 & E3); auto.
      * rewrite <- P1. rewrite (remove1_perm b res Hb) at 2. apply Permutation_middle.
      * rewrite E1, E2. exact E3.
  - unfold deallocate. cbn [handles]. destruct (nth_error hs k) as [[b|]|] eqn:Ek; try exact I.
    cbn [gc_true os_live mem mc allocated reserved overlap].
    pose proof (live_blocks_set_none hs k b Ek) as PL.
    assert (Hin : In b al). { apply (Permutation_in _ P2). eapply in_live; exact Ek. }
    unfold good. cbn [os_live mem mc allocated reserved handles overlap].
    split. { rewrite <- P1. rewrite (remove1_perm b al Hin) at 2. cbn [app]. symmetry. apply Permutation_middle. }
    split. { apply Permutation_cons_inv with (a := b). rewrite <- PL, P2. now apply remove1_perm. }
    do 2 (split; [assumption|]). split; [reflexivity|]. split; [now rewrite !set_nth_length|].
    intros j h c Hh Hc. destruct (Nat.eq_dec k j) as [->|NE].
    + assert (j < length hs)%nat by (apply nth_error_Some; congruence).
      rewrite set_nth_same in Hh by assumption. rewrite set_nth_same in Hc by lia. injection Hh as <-. injection Hc as <-. exact I.
    + rewrite set_nth_other in Hh by assumption. rewrite set_nth_other in Hc by assumption. eapply HA; eassumption.
  - unfold write. cbn [handles]. destruct (nth_error hs k) as [[b|]|] eqn:Ek; try exact I.
    destruct (N.ltb_spec off (b_size b)) as [Ho|]; [|exact I]. cbn [os_live].
    assert (Hin : In b al). { apply (Permutation_in _ P2). eapply in_live; exact Ek. }
    assert (Hlive : In b live). { apply (Permutation_in _ P1). apply in_app_iff. now left. }
    assert (AC : accessible live (mkB (b_addr b + off) 1) = true).
    { unfold accessible. apply existsb_exists. exists b. split; [assumption|]. cbn [b_addr b_size].
      apply andb_true_iff. rewrite !N.leb_le. lia. }
    rewrite AC. cbn [gc_true].
    assert (k < length s)%nat by (rewrite <- HL; apply nth_error_Some; congruence).
    destruct (nth_error s k) as [c|] eqn:Ec; [|apply nth_error_None in Ec; lia].
    pose proof (HA k _ _ Ek Ec) as Hag. destruct c as [bytes|]; [|contradiction].
    destruct Hag as (Hlen & Hag).
    unfold good. cbn [os_live mem mc allocated reserved handles overlap].
    do 4 (split; [assumption|]). split; [reflexivity|]. split; [now rewrite set_nth_length|].
    intros j h c Hh Hc. destruct (Nat.eq_dec k j) as [->|NE].
    + rewrite Ek in Hh. injection Hh as <-. rewrite set_nth_same in Hc by assumption. injection Hc as <-.
      cbn [agrees]. rewrite set_nth_length. split; [assumption|]. intros o2 Ho2. destruct (N.eq_dec o2 off) as [->|NE].
      * rewrite set_nth_same by lia. now rewrite N.eqb_refl.
      * rewrite set_nth_other by lia. rewrite (Hag o2 Ho2). destruct (N.eqb_spec (b_addr b + o2) (b_addr b + off)); [lia|reflexivity].
    + rewrite set_nth_other in Hc by assumption. pose proof (HA j h c Hh Hc) as Hag2.
      destruct h as [b'|], c as [bytes'|]; cbn [agrees] in *; try tauto.
      destruct Hag2 as (L2 & Hag2). split; [assumption|]. intros o2 Ho2. rewrite (Hag2 o2 Ho2). f_equal.
      destruct (N.eqb_spec (b_addr b' + o2) (b_addr b + off)) as [E|]; [|reflexivity]. exfalso.
      (* two different handles hold disjoint blocks *)
      assert (PL : pw (live_blocks hs)).
      { apply (pw_perm al); [now symmetry|]. apply (pw_perm _ _ (Permutation_sym P1)) in PW. now apply pw_app in PW. }
      apply (pw_perm _ _ (live_blocks_set_none hs k b Ek)) in PL. apply pw_cons in PL. destruct PL as (D & _).
      rewrite Forall_forall in D. specialize (D b'). unfold disj in D.
      assert (In b' (live_blocks (set_nth hs k None))) by (apply (in_live _ j); now rewrite set_nth_other).
      specialize (D H0). lia.
  - unfold gc. cbn [mc reserved os_live]. destruct res as [|r0 res'].
    + cbn [gc_true]. exact HG.
    + destruct (os_dealloc_all_perm (r0 :: res') live al) as (l & El & Pl).
      { rewrite <- P1. apply Permutation_app_comm. }
      rewrite El. cbn [gc_true mc handles os_live allocated reserved].
      right. cbn [os_live mc allocated reserved handles]. apply Permutation_length in Pl. cbn [length]. split; [lia|assumption].
Qed.

Lemma step_bad debug w o w' : bad w -> gc_true w = true -> step debug w o = Ok w' -> bad w' /\ gc_true w' = true.
Proof.
  intros HB Hgc. destruct w as [live m [al res] hs g ov]. unfold bad in *.
  cbn [os_live mem mc allocated reserved handles gc_true overlap] in *. subst g.
  destruct o as [size pick r1 r2|k|k off v|]; cbn [step].
  - destruct (N.ltb_spec 0 size) as [Hsz|]; [|discriminate]. unfold allocate, raw_allocate. cbn [mc reserved os_live mem allocated handles gc_true overlap].
    (* the effect of adding block b of the right size *)
    assert (ADD : forall b live', b_size b = size ->
      (ov = true \/ ((length live' < length al + length res)%nat /\ Permutation (live_blocks hs) al)) ->
      ov || negb (forallb (disjoint_b b) (live_blocks hs)) = true \/
      ((length (b :: live') < length (set_emplace b al) + length res)%nat /\
       Permutation (live_blocks (hs ++ [Some b])) (set_emplace b al))).
    { intros b live' Hb HB'. destruct ov; [now left|]. destruct HB' as [|(HB1 & HB2)]; [discriminate|]. cbn [orb].
      unfold set_emplace. destruct (existsb (block_eqb b) al) eqn:E.
      - left. apply existsb_block in E. apply negb_true_iff. apply not_true_iff_false. intros F. rewrite forallb_forall in F.
        apply (disj_irrefl b); [lia|]. apply disjoint_b_spec, F. now apply (Permutation_in _ (Permutation_sym HB2)).
      - right. cbn [length]. split; [lia|]. rewrite live_blocks_app. cbn [live_blocks flat_map app].
        rewrite <- HB2. symmetry. apply Permutation_cons_append. }
    destruct (candidates size res) as [|c cs] eqn:EC.
    + assert (TAKE : forall w0 a ww, gc_true w0 = true -> handles w0 = hs -> mc w0 = mkC al res -> overlap w0 = ov ->
        (ov = true \/ ((length (os_live w0) < length al + length res)%nat /\ Permutation (live_blocks hs) al)) ->
        match (if fresh_reply (os_live w0) (mkB a size)
               then Ok (mkW (mkB a size :: os_live w0) (mem w0) (mkC (set_emplace (mkB a size) (allocated (mc w0))) (reserved (mc w0))) (handles w0) (gc_true w0) (overlap w0), Some (mkB a size))
               else BadEnv) with
        | Ok (w', Some b) =>
          if accessible (os_live w') b
          then Ok (mkW (os_live w') (memset0 (mem w') b) (mc w') (handles w' ++ [Some b]) (gc_true w')
                       (overlap w' || negb (forallb (disjoint_b b) (live_blocks (handles w')))))
          else Ub
        | Ok (_, None) => Ub
        | Ub => Ub | Abort => Abort | Throw => Throw | BadEnv => BadEnv
        end = Ok ww ->
        (overlap ww = true \/ ((length (os_live ww) < length (allocated (mc ww)) + length (reserved (mc ww)))%nat /\
           Permutation (live_blocks (handles ww)) (allocated (mc ww)))) /\ gc_true ww = true).
      { intros w0 a ww G H M O HB'. destruct (fresh_reply (os_live w0) (mkB a size)); [|discriminate].
        cbn [os_live mem mc handles gc_true overlap]. destruct (accessible _ _); [|discriminate].
        intros E. injection E as <-. cbn [os_live mem mc handles gc_true overlap allocated reserved].
        rewrite G, H, M, O. cbn [allocated reserved]. split; [|reflexivity]. apply ADD; [reflexivity|assumption]. }
      destruct r1 as [a|].
      * intros E. eapply TAKE with (w0 := mkW live m (mkC al res) hs true ov); try exact E; try reflexivity. assumption.
      * unfold gc. cbn [mc reserved os_live]. destruct res as [|r0 res'].
        -- destruct debug; discriminate.
        -- destruct (os_dealloc_all live (r0 :: res')) as [l|] eqn:El; [|discriminate].
           cbn [os_live mem mc allocated reserved handles gc_true overlap].
           destruct r2 as [a|]; [|discriminate].
           intros E. eapply TAKE with (w0 := mkW l m (mkC al (r0 :: res')) hs true ov); try exact E; try reflexivity.
           apply os_dealloc_all_length in El. cbn [os_live]. destruct HB as [|(HB1 & HB2)]; [now left|right]. split; [lia|assumption].
    + set (b := nth (Nat.modulo pick (length (c :: cs))) (c :: cs) c).
      assert (Hb : In b (candidates size res)).
      { rewrite EC. apply nth_In. apply Nat.mod_upper_bound. cbn [length]. lia. }
      apply candidates_in in Hb. destruct Hb as (Hb & Hbs).
      cbn [os_live mem mc handles gc_true overlap]. destruct (accessible live b); [|discriminate].
      intros E. injection E as <-. cbn [os_live mem mc handles gc_true overlap allocated reserved]. split; [|reflexivity].
      destruct (ADD b live Hbs HB) as [|(A1 & A2)]; [now left|right]. split; [|assumption].
      pose proof (Permutation_length (remove1_perm b res Hb)) as L. cbn [length] in L, A1. lia.
  - unfold deallocate. cbn [handles]. destruct (nth_error hs k) as [[b|]|] eqn:Ek; try discriminate.
    intros E. injection E as <-. cbn [os_live mem mc handles gc_true overlap allocated reserved]. split; [|reflexivity].
    destruct HB as [|(HB1 & HB2)]; [now left|right].
    assert (Hin : In b al). { apply (Permutation_in _ HB2). eapply in_live; exact Ek. }
    pose proof (remove1_perm b al Hin) as R. split.
    + pose proof (Permutation_length R) as L. cbn [length] in *. lia.
    + apply Permutation_cons_inv with (a := b). rewrite <- R, <- HB2. symmetry. now apply live_blocks_set_none.
  - unfold write. cbn [handles]. destruct (nth_error hs k) as [[b|]|] eqn:Ek; try discriminate.
    destruct (off <? b_size b); [|discriminate]. destruct (accessible _ _); [|discriminate].
    intros E. injection E as <-. cbn [os_live mem mc handles gc_true overlap allocated reserved]. split; [assumption|reflexivity].
  - unfold gc. cbn [mc reserved os_live]. destruct res as [|r0 res'].
    + intros E. injection E as <-. split; [assumption|reflexivity].
    + destruct (os_dealloc_all live (r0 :: res')) as [l|] eqn:El; [|discriminate].
      intros E. injection E as <-. cbn [os_live mem mc handles gc_true overlap allocated reserved]. split; [|reflexivity].
      apply os_dealloc_all_length in El. destruct HB as [|(HB1 & HB2)]; [now left|right]. split; [lia|assumption].
Qed.

Lemma run_inv debug h : forall w s w', inv w s -> run debug w h = Ok w' -> inv w' (fold_left spec_step h s).
Proof.
  induction h as [|o h IH]; intros w s w' HI HR; cbn [run fold_left] in *.
  - now injection HR as <-.
  - unfold inv in HI. destruct (gc_true w) eqn:G.
    + destruct (step debug w o) as [w1| | | |] eqn:E; try discriminate.
      destruct (step_bad _ _ _ _ HI G E) as (B1 & G1). apply (IH w1); [|assumption]. unfold inv. now rewrite G1.
    + pose proof (step_good debug w s o HI G) as SG. destruct (step debug w o) as [w1| | | |]; try discriminate.
      apply (IH w1); [exact SG|assumption].
Qed.

Lemma gc_true_stays_false debug w o w' : gc_true w = false ->
  match o with OAlloc _ _ None _ => False | OGc => False | _ => True end ->
  step debug w o = Ok w' -> gc_true w' = false.
Proof.
  intros G P. destruct o as [size pick [a|] r2|k|k off v|]; try contradiction; cbn [step].
  - destruct (0 <? size); [|discriminate]. unfold allocate, raw_allocate. destruct (candidates size (reserved (mc w))).
    + destruct (fresh_reply _ _); [|discriminate]. destruct (accessible _ _); [|discriminate]. intros E; injection E as <-. exact G.
    + destruct (accessible _ _); [|discriminate]. intros E; injection E as <-. exact G.
  - unfold deallocate. destruct (nth_error _ _) as [[|]|]; try discriminate. intros E; injection E as <-. exact G.
  - unfold write. destruct (nth_error _ _) as [[|]|]; try discriminate. destruct (_ <? _); [|discriminate].
    destruct (accessible _ _); [|discriminate]. intros E; injection E as <-. exact G.
Qed.

Lemma run_plentiful debug h : plentiful h -> forall w s, good w s -> gc_true w = false ->
  run debug w h = BadEnv \/ exists w', run debug w h = Ok w' /\ gc_true w' = false.
Proof.
  induction 1 as [|o h Ho Hh IH]; intros w s HG G; cbn [run].
  - right. eauto.
  - pose proof (step_good debug w s o HG G) as SG. destruct (step debug w o) as [w1| | | |] eqn:E.
    + pose proof (gc_true_stays_false _ _ _ _ G Ho E) as G1. rewrite G1 in SG. apply (IH w1 _ SG G1).
    + destruct SG as (? & ? & ? & _ & ->). contradiction.
    + destruct SG as (? & ? & ? & _ & ->). contradiction.
    + destruct SG as (? & ? & ->). contradiction.
    + now left.
Qed.

Lemma good_live_disjoint w s : good w s -> forall j k bj bk, j <> k ->
  nth_error (handles w) j = Some (Some bj) -> nth_error (handles w) k = Some (Some bk) -> disj bj bk.
Proof.
  intros (P1 & P2 & PW & SZ & HO & HL & HA) j k bj bk NE Hj Hk.
  assert (PL : pw (live_blocks (handles w))).
  { apply (pw_perm (allocated (mc w))); [now symmetry|]. apply (pw_perm _ _ (Permutation_sym P1)) in PW. now apply pw_app in PW. }
  apply (pw_perm _ _ (live_blocks_set_none _ _ _ Hj)) in PL. apply pw_cons in PL. destruct PL as (D & _).
  rewrite Forall_forall in D. apply D. apply (in_live _ k). now rewrite set_nth_other.
Qed.

Lemma good_exit w s : good w s -> exit_clean w = true.
Proof.
  intros (P1 & _). unfold exit_clean.
  destruct (os_dealloc_all_perm (allocated (mc w)) (os_live w) (reserved (mc w))) as (l & E & Pl); [now symmetry|].
  rewrite E. destruct (os_dealloc_all_perm (reserved (mc w)) l []) as (l2 & E2 & _); [now rewrite app_nil_r|]. now rewrite E2.
Qed.

Lemma bad_exit w : bad w -> overlap w = true \/ exit_clean w = false.
Proof.
  intros [|(L & _)]; [now left|right]. unfold exit_clean.
  destruct (os_dealloc_all (os_live w) (allocated (mc w))) as [l|] eqn:E; [|reflexivity].
  destruct (os_dealloc_all l (reserved (mc w))) as [l2|] eqn:E2; [|reflexivity].
  apply os_dealloc_all_length in E, E2. lia.
Qed.
