(** The run of binary_cross_entropy_loss, step by step. *)
From Coq Require Import List Arith Lia Bool PeanoNat Reals Lra.
From Coquelicot Require Import Rcomplements Hierarchy Derive.
From Verif Require Import ListBase TensorModel TensorSpec TensorProofs TensorProofs2 ArrayModel GraphModel GraphSpec GraphProofs GraphProofs2
  GraphProofs3 GraphProofs4 GradSpec LayerSpec LayerProofs CalcSpec CalcProofs GraphProps OpModel OpSpec OpProofs OpProofs4 ComplexModel ComplexRun LossRun2 LossModel LossSpec LossProofs3
  XentProofs XentProofs2 LossTree PairSpec PairProofs BceSpec ForwardCore.
Import ListNotations.
Local Open Scope nat_scope.

Section Bce.
Variable dbg : bool.
Notation run := (run 0%R 1%R Rplus Rmult dbg).
Notation yields := (yields 0%R 1%R Rplus Rmult dbg).

Lemma product_same sh x y : length x = prod sh -> length y = prod sh -> prod sh <> 0 -> product_val dbg (sh, x) (sh, y) = Some (sh, map2 Rmult x y).
Proof.
  intros Lx Ly Np. rewrite (product_val_big dbg (sh, x) (sh, y) Lx Ly Np (le_n _)) by (exists 1; cbn [fst]; lia). cbn [fst snd]. do 2 f_equal.
  rewrite (map2_tab_nth Rmult x y (prod sh) Lx Ly). apply tab_ext. intros p Hp. now rewrite Nat.mod_small by exact Hp.
Qed.

Lemma grow (h : list (list R)) x r y : nth_error h r = Some y -> nth_error (h ++ [x]) r = Some y.
Proof. intros H. rewrite nth_error_app1; [exact H|]. apply nth_error_Some. congruence. Qed.
Lemma grown (h : list (list R)) x : nth_error (h ++ [x]) (length h) = Some x.
Proof. rewrite nth_error_app2, Nat.sub_diag by lia. reflexivity. Qed.
Lemma shown (h : list (list R)) sh r x : nth_error h r = Some x -> val_of h (mkT sh r) = (sh, x).
Proof. intros H. unfold val_of. cbn [shape ref]. now rewrite (nth_error_nth _ _ _ H). Qed.


(** cores while the loss of ids n, 1 + n, ... runs: f tells the results in the cache *)
Section Steps.
Variables (n m : nat) (hold : nat -> option tensor) (tp : tensor).
Definition at_core (c : core (A := R)) (h : list (list R)) (f : nat -> option tensor) : Prop :=
  c_hp c = h /\ c_holders c = hold /\ (forall i, i < 12 -> c_cache c (i + n) = f i) /\ (forall i, i < 12 -> f i = None -> c_own c (i + n) = None) /\
  c_cache c m = Some tp /\ forall i, i < 12 -> i + n <> m.
Definition set_at (f : nat -> option tensor) (i : nat) (t : tensor) (j : nat) : option tensor := if j =? i then Some t else f j.

Lemma at_done c h f i t : at_core c h f -> i < 12 -> at_core (done c (i + n) t) h (set_at f i t).
Proof.
  intros (H1 & H2 & H3 & H4 & H5 & H6) Hi. split; [exact H1|]. split; [exact H2|]. cbn [done c_cache c_own]. split; [|split; [|split]].
  - intros j Hj. unfold fupd, set_at. destruct (Nat.eqb_spec (j + n) (i + n)) as [E|E]; destruct (Nat.eqb_spec j i) as [E'|E']; try lia; [reflexivity|now apply H3].
  - intros j Hj. unfold set_at. destruct (Nat.eqb_spec j i); [discriminate|]. now apply H4.
  - rewrite fupd_other; [exact H5|]. specialize (H6 i Hi). congruence.
  - exact H6.
Qed.
Lemma at_hp c h h' f : at_core c h f -> at_core (with_hp c h') h' f.
Proof. intros (H1 & H2 & H3 & H4 & H5 & H6). split; [reflexivity|]. split; [exact H2|]. split; [exact H3|]. split; [exact H4|]. split; assumption. Qed.
(** with a buffer of its own *)
Lemma at_owns c h f i t : at_core c h f -> i < 12 -> at_core (done (owns c (i + n) t) (i + n) t) h (set_at f i t).
Proof.
  intros (H1 & H2 & H3 & H4 & H5 & H6) Hi. split; [exact H1|]. split; [exact H2|]. cbn [done owns c_cache c_own]. split; [|split; [|split]].
  - intros j Hj. unfold fupd, set_at. destruct (Nat.eqb_spec (j + n) (i + n)) as [E|E]; destruct (Nat.eqb_spec j i) as [E'|E']; try lia; [reflexivity|now apply H3].
  - intros j Hj. unfold set_at. destruct (Nat.eqb_spec j i); [discriminate|]. intros Hf. rewrite fupd_other by lia. now apply H4.
  - rewrite fupd_other; [exact H5|]. specialize (H6 i Hi). congruence.
  - exact H6.
Qed.

Lemma un_at i own_ f mo b e c te c1 h g v : i < 12 -> c_cache c (i + n) = None -> yields e c te c1 -> at_core c1 h g -> g i = None -> f (val_of h te) = Some v ->
  exists c2, yields (EUn (i + n) (UNew own_ f mo b) e) c (mkT (fst v) (length h)) c2 /\ at_core c2 (h ++ [snd v]) (set_at g i (mkT (fst v) (length h))).
Proof.
  intros Hi Hc Y A Hg Hf. pose proof A as (H1 & H2 & H3 & H4 & _).
  assert (Hf' : f (val_of (c_hp c1) te) = Some v) by (rewrite H1; exact Hf).
  pose proof (y_un 0%R 1%R Rplus Rmult dbg (i + n) own_ f mo b e c te c1 v Hc Y Hf' (or_intror (H4 i Hi Hg))) as Y2. cbv zeta in Y2. rewrite H1 in Y2.
  eexists. split; [exact Y2|]. destruct own_; [apply at_owns|apply at_done]; try exact Hi; now apply at_hp with (h := h).
Qed.

Lemma product_at i l r c tl c1 tr c2 h g v : i < 12 -> ComplexRun.no_value l -> ComplexRun.no_value r -> c_cache c (i + n) = None -> yields l c tl c1 -> yields r c1 tr c2 -> at_core c2 h g ->
  product_val dbg (val_of h tl) (val_of h tr) = Some v ->
  exists c3, yields (EBin (i + n) (op_product dbg) l r) c (mkT (fst v) (length h)) c3 /\ at_core c3 (h ++ [snd v]) (set_at g i (mkT (fst v) (length h))).
Proof.
  intros Hi Vl Vr Hc Yl Yr A Hf. pose proof A as (H1 & H2 & H3 & H4 & _). exists (done (with_hp c2 (h ++ [snd v])) (i + n) (mkT (fst v) (length h))).
  split; [|apply at_done; [now apply at_hp with (h := h)|exact Hi]].
  apply (y_bin 0%R 1%R Rplus Rmult dbg _ _ _ _ _ tl c1 tr c2); try assumption. intros s E. cbn [bin_forward op_product]. unfold gbind at 1, get.
  assert (hp s = h) as Eh by (subst c2; exact H1). rewrite Eh. unfold gbind at 1. rewrite Hf. cbn [the]. unfold gret, new_tensor, heaply, alloc. rewrite Eh.
  eexists. split; [reflexivity|]. subst c2. reflexivity.
Qed.

Lemma plus_at i l r c sh a c1 b c2 h g x y : i < 12 -> ComplexRun.no_value l -> ComplexRun.no_value r -> c_cache c (i + n) = None -> yields l c (mkT sh a) c1 -> yields r c1 (mkT sh b) c2 -> at_core c2 h g ->
  nth_error h a = Some x -> nth_error h b = Some y -> length x = length y ->
  exists c3, yields (EBin (i + n) BPlus l r) c (mkT sh a) c3 /\ at_core c3 (upd h a (map2 Rplus x y)) (set_at g i (mkT sh a)).
Proof.
  intros Hi Vl Vr Hc Yl Yr A Hx Hy L. pose proof A as (H1 & H2 & H3 & H4 & _).
  pose proof (y_plus 0%R 1%R Rplus Rmult dbg (i + n) l r c sh a c1 b c2 x y Vl Vr Hc Yl Yr ltac:(rewrite H1; exact Hx) ltac:(rewrite H1; exact Hy) L) as Y2. rewrite H1 in Y2.
  eexists. split; [exact Y2|]. apply at_done; try exact Hi. now apply at_hp with (h := h).
Qed.

Lemma hold_at_core p t c h f : at_core c h f -> hold p = Some t -> yields (EHold p) c t c.
Proof. intros (_ & H & _) Hp. apply y_hold. now rewrite H. Qed.
Lemma hit_at i e t c h f : at_core c h f -> i < 12 -> node_id e = Some (i + n) -> f i = Some t -> nth (ref t) h [] <> [] -> yields e c t c.
Proof. intros (H1 & _ & H3 & _) Hi Ne Hf Hn. apply (y_hit 0%R 1%R Rplus Rmult dbg e (i + n)); [exact Ne|now rewrite H3|now rewrite H1]. Qed.
Lemma out_at e c h f : at_core c h f -> node_id e = Some m -> nth (ref tp) h [] <> [] -> yields e c tp c.
Proof. intros (H1 & _ & _ & _ & H5 & _) Ne Hn. apply (y_hit 0%R 1%R Rplus Rmult dbg e m); [exact Ne|exact H5|now rewrite H1]. Qed.
End Steps.

Theorem bce_run n p tgt out m s who target pred :
  (forall c, out <> EVal c) -> node_id out = Some m -> consistent out -> runnable 0%R 1%R Rplus Rmult out s -> separate out s who ->
  (forall i, i < 12 -> ~ In (i + n) (ids out) /\ own s (i + n) = None) ->
  holders s p = Some tgt -> who (ref tgt) = OLeaf -> nth_error (hp s) (ref tgt) = Some target -> length target = prod (shape tgt) ->
  evalR (env_of s) out = Some (shape tgt, pred) ->
  exists t t6 s', run (binary_cross_entropy_loss dbg n (EHold p) out) s = Ok (t, s') /\
    cache s' (6 + n) = Some t6 /\ val_of (hp s') t6 = (shape tgt, map2 (fun t y => 1 - t - y)%R target pred) /\
    val_of (hp s') t = ([1], [(/ elements (shape tgt) * summed merged_score target pred)%R]) /\
    nth_error (hp s') (ref tgt) = Some target.
Proof.
  intros Vo Nid Co [Zo Do] So Fresh Hh Hw Ht Lt Ep.
  destruct (run_ok 0%R 1%R Rplus Rmult dbg out s who Vo Co Zo Do So) as (tp & s1 & who1 & R1 & E1 & _ & _ & P & _).
  pose proof P as [P1 P2 P3 P4 P5 P6 P7].
  destruct (Zo None out (At_root out) Vo) as (w & Ew & Lw & Nw). assert (w = (shape tgt, pred)) by (unfold evalR in Ep; congruence). subst w. cbn [fst snd] in Lw, Nw.
  set (sh := shape tgt) in *.
  assert (Pn : prod sh <> 0) by (intros E; apply Nw; apply length_zero_iff_nil; lia).
  assert (Etp : val_of (hp s1) tp = (sh, pred)) by (unfold evalR in Ep; congruence).
  destruct tp as [sp rp]. assert (sp = sh) by exact (f_equal fst Etp). subst sp.
  assert (Lrp : rp < length (hp s1)) by (apply (val_live (hp s1) (mkT sh rp)); rewrite Etp; exact Nw).
  assert (Hp1 : nth_error (hp s1) rp = Some pred) by (injection Etp as <-; now apply nth_error_nth').
  assert (Cm : cache s1 m = Some (mkT sh rp)). { clear -P3 Nid. destruct out; try discriminate Nid; injection Nid as ->; exact P3. }
  assert (La : ref tgt < length (hp s)) by (apply nth_error_Some; congruence).
  assert (Ht1 : nth_error (hp s1) (ref tgt) = Some target).
  { rewrite <- Ht. apply (x_frame _ _ _ _ _ P2); [exact La|congruence|congruence]. }
  assert (Hold : holders s1 = holders s) by exact (x_hold _ _ _ _ _ P2).
  assert (Cn : forall i, i < 12 -> cache s1 (i + n) = None).
  { intros i Hi. destruct (cache s1 (i + n)) eqn:E; [|reflexivity]. exfalso. destruct (P4 (i + n) ltac:(congruence)) as [H|H]; [now apply H|]. now apply (Fresh i Hi). }
  assert (On : forall i, i < 12 -> own s1 (i + n) = None).
  { intros i Hi. rewrite (run_spares 0%R 1%R Rplus Rmult dbg (i + n) out s _ s1 (proj1 (Fresh i Hi)) R1). now apply Fresh. }
  assert (Mn : forall i, i < 12 -> i + n <> m).
  { intros i Hi E. rewrite <- E in Cm. rewrite (Cn i Hi) in Cm. discriminate. }
  pose proof (yields_of_run 0%R 1%R Rplus Rmult dbg out s (mkT sh rp) s1 R1) as Y0.
  set (c0 := Core (hp s) (fun _ => None) (own s) (vars s) (holders s) (training s)) in Y0.
  set (c1 := core_of s1) in Y0.
  assert (NE : forall l : list R, length l = prod sh -> l <> []) by (intros l Ll E; apply Pn; rewrite <- Ll, E; reflexivity).
  assert (Nout : ComplexRun.no_value out) by exact Vo.
  assert (Et : tgt = mkT sh (ref tgt)) by (unfold sh; now destruct tgt).
  set (a := ref tgt) in *. clearbody sh a. subst tgt. cbn [shape ref] in *.
  assert (Nh : ComplexRun.no_value (EHold p : expr R)) by (intros c; discriminate).
  assert (Nu : forall i (o : uop R) e, ComplexRun.no_value (EUn i o e)) by (intros i o e c; discriminate).
  assert (Nb : forall i (o : bop R) l r, ComplexRun.no_value (EBin i o l r)) by (intros i o l r c; discriminate).
  assert (A1 : at_core n m (holders s) (mkT sh rp) c1 (hp s1) (fun _ => None)).
  { split; [reflexivity|]. split; [exact Hold|]. split; [exact Cn|]. split; [intros i Hi _; now apply On|]. split; [exact Cm|exact Mn]. }
  set (h1 := hp s1) in *. set (N := length h1) in *. clearbody c1.
  assert (Ne : a < N /\ rp < N) by (split; unfold N; apply nth_error_Some; congruence).
  (* log( prediction ) *)
  set (lp := map ln pred).
  destruct (un_at n m (holders s) (mkT sh rp) 1 true (ew ln) IntoOwn (back_in (fun x g => g / x)%R) out c0 (mkT sh rp) c1 h1 _ (sh, lp) ltac:(lia) eq_refl Y0 A1 eq_refl) as (c2 & Y2 & A2).
  { rewrite (shown h1 sh rp pred Hp1). reflexivity. }
  cbn [fst snd] in Y2, A2. fold N in Y2, A2. set (h2 := h1 ++ [lp]) in *.
  assert (N2 : length h2 = 1 + N) by (unfold h2; rewrite app_length; cbn [length]; lia).
  assert (Ta : nth_error h2 a = Some target) by now apply grow.
  assert (Tp : nth_error h2 rp = Some pred) by now apply grow.
  assert (T0 : nth_error h2 N = Some lp) by apply grown.
  clearbody h2. clear A1 Hp1 Ht1.
  (* times the ground truth *)
  set (q1 := map2 Rmult target lp).
  assert (Llp : length lp = prod sh) by (unfold lp; now rewrite map_length).
  assert (Lq1 : length q1 = prod sh) by (unfold q1; rewrite map2_length; lia).
  destruct (product_at n m (holders s) (mkT sh rp) 2 (EHold p) (EUn (1 + n) op_log out) c0 (mkT sh a) c0 (mkT sh N) c2 h2 _ (sh, q1)
     ltac:(lia) Nh (Nu _ _ _) eq_refl (y_hold 0%R 1%R Rplus Rmult dbg p c0 (mkT sh a) Hh) Y2 A2) as (c3 & Y3 & A3).
  { rewrite (shown h2 sh a target Ta), (shown h2 sh N lp T0). now apply product_same. }
  cbn [fst snd] in Y3, A3. rewrite N2 in Y3, A3. set (h3 := h2 ++ [q1]) in *.
  assert (N3 : length h3 = 2 + N) by (unfold h3; rewrite app_length; cbn [length]; lia).
  apply (grow h2 q1) in Ta. apply (grow h2 q1) in Tp. assert (T1 : nth_error h3 (1 + N) = Some q1) by (rewrite <- N2; apply grown). fold h3 in Ta, Tp. clearbody h3.
  (* ones *)
  set (o := repeat 1%R (prod sh)). assert (Lo : length o = prod sh) by apply repeat_length.
  destruct (un_at n m (holders s) (mkT sh rp) 0 false (fun i => Some (fst i, repeat 1%R (prod (fst i)))) IntoNew (fun _ _ g => Some (fst g, repeat 0%R (prod (fst g)))) (EHold p) c3 (mkT sh a) c3 h3 _ (sh, o)
     ltac:(lia) (proj1 (proj2 (proj2 A3)) 0 ltac:(lia)) (hold_at_core _ _ _ _ _ _ _ _ _ A3 Hh) A3 eq_refl) as (c4 & Y4 & A4).
  { reflexivity. }
  cbn [fst snd] in Y4, A4. rewrite N3 in Y4, A4. set (h4 := h3 ++ [o]) in *.
  assert (N4 : length h4 = 3 + N) by (unfold h4; rewrite app_length; cbn [length]; lia).
  apply (grow h3 o) in Ta. apply (grow h3 o) in Tp. apply (grow h3 o) in T1. assert (T2 : nth_error h4 (2 + N) = Some o) by (rewrite <- N3; apply grown). fold h4 in Ta, Tp, T1. clearbody h4.
  (* - ground truth *)
  set (nt := map Ropp target). assert (Lnt : length nt = prod sh) by (unfold nt; now rewrite map_length).
  destruct (un_at n m (holders s) (mkT sh rp) 3 false (ew Ropp) IntoNew (fun _ _ g => Some (fst g, map Ropp (snd g))) (EHold p) c4 (mkT sh a) c4 h4 _ (sh, nt)
     ltac:(lia) (proj1 (proj2 (proj2 A4)) 3 ltac:(lia)) (hold_at_core _ _ _ _ _ _ _ _ _ A4 Hh) A4 eq_refl) as (c5 & Y5 & A5).
  { rewrite (shown h4 sh a target Ta). reflexivity. }
  cbn [fst snd] in Y5, A5. rewrite N4 in Y5, A5. set (h5 := h4 ++ [nt]) in *.
  assert (N5 : length h5 = 4 + N) by (unfold h5; rewrite app_length; cbn [length]; lia).
  apply (grow h4 nt) in Ta. apply (grow h4 nt) in Tp. apply (grow h4 nt) in T1. apply (grow h4 nt) in T2. assert (T3 : nth_error h5 (3 + N) = Some nt) by (rewrite <- N4; apply grown). fold h5 in Ta, Tp, T1, T2. clearbody h5.
  (* ones - ground truth, in the storage of ones *)
  set (o1 := map2 Rplus o nt). assert (Lo1 : length o1 = prod sh) by (unfold o1; rewrite map2_length; lia).
  destruct (plus_at n m (holders s) (mkT sh rp) 4 (EUn n op_ones_like (EHold p)) (EUn (3 + n) op_negative (EHold p)) c3 sh (2 + N) c4 (3 + N) c5 h5 _ o nt
     ltac:(lia) (Nu _ _ _) (Nu _ _ _) (proj1 (proj2 (proj2 A3)) 4 ltac:(lia)) Y4 Y5 A5 T2 T3 ltac:(lia)) as (c6 & Y6 & A6).
  fold o1 in A6. set (h6 := upd h5 (2 + N) o1) in *.
  assert (N6 : length h6 = 4 + N) by (unfold h6; now rewrite upd_length).
  assert (K6 : forall r, r <> 2 + N -> nth_error h6 r = nth_error h5 r) by (intros r Hr; unfold h6; apply nth_error_upd_other; congruence).
  rewrite <- K6 in Ta by lia. rewrite <- K6 in Tp by lia. rewrite <- K6 in T1 by lia.
  assert (T2' : nth_error h6 (2 + N) = Some o1) by (unfold h6; apply nth_error_upd_same; lia). clear T2 T3 K6. clearbody h6.
  (* - prediction *)
  set (np := map Ropp pred). assert (Lnp : length np = prod sh) by (unfold np; now rewrite map_length).
  assert (Hit : yields (EUn n op_ones_like (EHold p)) c6 (mkT sh (2 + N)) c6).
  { apply (hit_at n m (holders s) (mkT sh rp) 0 _ _ _ _ _ A6); [lia|reflexivity|reflexivity|]. cbn [ref]. rewrite (nth_error_nth _ _ _ T2'). now apply NE. }
  assert (Out6 : yields out c6 (mkT sh rp) c6).
  { apply (out_at n m (holders s) (mkT sh rp) _ _ _ _ A6 Nid). cbn [ref]. rewrite (nth_error_nth _ _ _ Tp). now apply NE. }
  destruct (un_at n m (holders s) (mkT sh rp) 5 false (ew Ropp) IntoNew (fun _ _ g => Some (fst g, map Ropp (snd g))) out c6 (mkT sh rp) c6 h6 _ (sh, np)
     ltac:(lia) (proj1 (proj2 (proj2 A6)) 5 ltac:(lia)) Out6 A6 eq_refl) as (c7 & Y7 & A7).
  { rewrite (shown h6 sh rp pred Tp). reflexivity. }
  cbn [fst snd] in Y7, A7. rewrite N6 in Y7, A7. set (h7 := h6 ++ [np]) in *.
  assert (N7 : length h7 = 5 + N) by (unfold h7; rewrite app_length; cbn [length]; lia).
  apply (grow h6 np) in Ta. apply (grow h6 np) in T1. apply (grow h6 np) in T2'. assert (T4 : nth_error h7 (4 + N) = Some np) by (rewrite <- N6; apply grown). fold h7 in Ta, T1, T2'. clear Tp. clearbody h7.
  (* ones - prediction, in the same storage *)
  set (o2 := map2 Rplus o1 np). assert (Lo2 : length o2 = prod sh) by (unfold o2; rewrite map2_length; lia).
  destruct (plus_at n m (holders s) (mkT sh rp) 6 (EUn n op_ones_like (EHold p)) (EUn (5 + n) op_negative out) c6 sh (2 + N) c6 (4 + N) c7 h7 _ o1 np
     ltac:(lia) (Nu _ _ _) (Nu _ _ _) (proj1 (proj2 (proj2 A6)) 6 ltac:(lia)) Hit Y7 A7 T2' T4 ltac:(lia)) as (c8 & Y8 & A8).
  fold o2 in A8. set (h8 := upd h7 (2 + N) o2) in *.
  assert (N8 : length h8 = 5 + N) by (unfold h8; now rewrite upd_length).
  assert (K8 : forall r, r <> 2 + N -> nth_error h8 r = nth_error h7 r) by (intros r Hr; unfold h8; apply nth_error_upd_other; congruence).
  rewrite <- K8 in Ta by lia. rewrite <- K8 in T1 by lia.
  assert (T2 : nth_error h8 (2 + N) = Some o2) by (unfold h8; apply nth_error_upd_same; lia). clear T2' T4 K8. clearbody h8.
  (* its logarithm *)
  set (lo := map ln o2). assert (Llo : length lo = prod sh) by (unfold lo; now rewrite map_length).
  destruct (un_at n m (holders s) (mkT sh rp) 7 true (ew ln) IntoOwn (back_in (fun x g => g / x)%R) (e_minus (5 + n) (EUn n op_ones_like (EHold p)) out) c6 (mkT sh (2 + N)) c8 h8 _ (sh, lo)
     ltac:(lia) (proj1 (proj2 (proj2 A6)) 7 ltac:(lia)) Y8 A8 eq_refl) as (c9 & Y9 & A9).
  { rewrite (shown h8 sh (2 + N) o2 T2). reflexivity. }
  cbn [fst snd] in Y9, A9. rewrite N8 in Y9, A9. set (h9 := h8 ++ [lo]) in *.
  assert (N9 : length h9 = 6 + N) by (unfold h9; rewrite app_length; cbn [length]; lia).
  apply (grow h8 lo) in Ta. apply (grow h8 lo) in T1. apply (grow h8 lo) in T2. assert (T5 : nth_error h9 (5 + N) = Some lo) by (rewrite <- N8; apply grown). fold h9 in Ta, T1, T2. clearbody h9.
  (* their product *)
  set (q2 := map2 Rmult o2 lo). assert (Lq2 : length q2 = prod sh) by (unfold q2; rewrite map2_length; lia).
  destruct (product_at n m (holders s) (mkT sh rp) 8 (e_minus (3 + n) (EUn n op_ones_like (EHold p)) (EHold p)) (EUn (7 + n) op_log (e_minus (5 + n) (EUn n op_ones_like (EHold p)) out))
     c3 (mkT sh (2 + N)) c6 (mkT sh (5 + N)) c9 h9 _ (sh, q2) ltac:(lia) (Nb _ _ _ _) (Nu _ _ _) (proj1 (proj2 (proj2 A3)) 8 ltac:(lia)) Y6 Y9 A9) as (c10 & Y10 & A10).
  { rewrite (shown h9 sh (2 + N) o2 T2), (shown h9 sh (5 + N) lo T5). now apply product_same. }
  cbn [fst snd] in Y10, A10. rewrite N9 in Y10, A10. set (h10 := h9 ++ [q2]) in *.
  assert (N10 : length h10 = 7 + N) by (unfold h10; rewrite app_length; cbn [length]; lia).
  apply (grow h9 q2) in Ta. apply (grow h9 q2) in T1. apply (grow h9 q2) in T2. assert (T6 : nth_error h10 (6 + N) = Some q2) by (rewrite <- N9; apply grown). fold h10 in Ta, T1, T2. clear T5. clearbody h10.
  (* the sum, in the storage of the first product *)
  set (q := map2 Rplus q1 q2). assert (Lq : length q = prod sh) by (unfold q; rewrite map2_length; lia).
  destruct (plus_at n m (holders s) (mkT sh rp) 9 _ _ c0 sh (1 + N) c3 (6 + N) c10 h10 _ q1 q2
     ltac:(lia) (Nb (2 + n) _ _ _) (Nb (8 + n) _ _ _) eq_refl Y3 Y10 A10 T1 T6 ltac:(lia)) as (c11 & Y11 & A11).
  fold q in A11. set (h11 := upd h10 (1 + N) q) in *.
  assert (N11 : length h11 = 7 + N) by (unfold h11; now rewrite upd_length).
  assert (K11 : forall r, r <> 1 + N -> nth_error h11 r = nth_error h10 r) by (intros r Hr; unfold h11; apply nth_error_upd_other; congruence).
  rewrite <- K11 in Ta by lia. rewrite <- K11 in T2 by lia.
  assert (T1' : nth_error h11 (1 + N) = Some q) by (unfold h11; apply nth_error_upd_same; lia). clear T1 T6 K11. clearbody h11.
  (* the negative *)
  set (nq := map Ropp q). assert (Lnq : length nq = prod sh) by (unfold nq; now rewrite map_length).
  destruct (un_at n m (holders s) (mkT sh rp) 10 false (ew Ropp) IntoNew (fun _ _ g => Some (fst g, map Ropp (snd g))) _ c0 (mkT sh (1 + N)) c11 h11 _ (sh, nq)
     ltac:(lia) eq_refl Y11 A11 eq_refl) as (c12 & Y12 & A12).
  { rewrite (shown h11 sh (1 + N) q T1'). reflexivity. }
  cbn [fst snd] in Y12, A12. rewrite N11 in Y12, A12. set (h12 := h11 ++ [nq]) in *.
  assert (N12 : length h12 = 8 + N) by (unfold h12; rewrite app_length; cbn [length]; lia).
  apply (grow h11 nq) in Ta. apply (grow h11 nq) in T2. assert (T7 : nth_error h12 (7 + N) = Some nq) by (rewrite <- N11; apply grown). fold h12 in Ta, T2. clear T1'. clearbody h12.
  (* the mean *)
  set (me := [(sum_all nq / INR (length nq))%R]).
  destruct (un_at n m (holders s) (mkT sh rp) 11 false (fun i => Some ([1], [(sum_all (snd i) / INR (length (snd i)))%R])) IntoNew (fill_back (fun i => / INR (batch_size (fst i)))%R) _ c0 (mkT sh (7 + N)) c12 h12 _ ([1], me)
     ltac:(lia) eq_refl Y12 A12 eq_refl) as (c13 & Y13 & A13).
  { rewrite (shown h12 sh (7 + N) nq T7). reflexivity. }
  cbn [fst snd] in Y13, A13. rewrite N12 in Y13, A13. set (h13 := h12 ++ [me]) in *.
  apply (grow h12 me) in Ta. apply (grow h12 me) in T2. assert (T8 : nth_error h13 (8 + N) = Some me) by (rewrite <- N12; apply grown). fold h13 in Ta, T2. clearbody h13.
  destruct (y_run 0%R 1%R Rplus Rmult dbg _ s _ _ Y13) as (s' & Rs & Cs).
  destruct A13 as (H1 & _ & H3 & _). rewrite <- Cs in H1, H3. cbn [core_of c_hp c_cache] in H1, H3.
  exists (mkT [1] (8 + N)), (mkT sh (2 + N)), s'. split; [exact Rs|]. split; [exact (H3 6 ltac:(lia))|]. rewrite H1.
  assert (Eo2 : o2 = map2 (fun t y => 1 - t - y)%R target pred).
  { unfold o2, o1, o, nt, np. rewrite <- Lt, <- (map_length Ropp target). rewrite map2_repeat. rewrite map_map, map2_map_l, map2_map_r. reflexivity. }
  split; [rewrite (shown h13 sh (2 + N) o2 T2), Eo2; reflexivity|]. split; [|exact Ta].
  rewrite (shown h13 [1] (8 + N) me T8). unfold me. do 2 f_equal. rewrite sum_all_rsum, Lnq. unfold Rdiv, elements. rewrite Rmult_comm. f_equal.
  unfold summed, nq, q, q1, q2, lp, lo. f_equal. rewrite Eo2. clear.
  revert pred. induction target as [|t l IH]; intros [|y pred]; try reflexivity. cbn [map map2]. rewrite IH. reflexivity.
Qed.
End Bce.
