(** Networks of layers: layer by layer, and whole programs. *)
From Coq Require Import List Arith Lia Bool PeanoNat NArith ZArith Reals.
From Verif Require Import ListBase TensorModel TensorSpec TensorProofs ArrayModel ArrayProofs LayerModel ConvProofs DeclModel DeclSpec DeclProofs DeclProofs2
  NetModel NetSpec ValueModel ValueSpec NetProofs NetProofs2.
Import ListNotations.
Local Open Scope nat_scope.

Lemma within3 m a b c : within m [a; b; c] -> 1 <= a /\ 1 <= b /\ 1 <= c /\ a * (b * c) <= m.
Proof.
  intros (_ & F & L). inversion F as [|? ? Ha F1]. inversion F1 as [|? ? Hb F2]. inversion F2 as [|? ? Hc]. unfold prod in L. cbn [fold_right] in L. lia.
Qed.

Lemma bias_fits m bs out : batch_ok m bs -> 1 <= out -> out <= m -> fits [1; 1; out].
Proof.
  intros B O L. apply fits_pos; [repeat constructor; assumption|]. unfold prod. cbn [fold_right]. apply (below_limit m bs); [assumption|]. destruct B as [B _]. nia.
Qed.

Lemma convolves_out m out kx ky p sx sy dx dy t t' : convolves m out kx ky p sx sy dx dy t t' -> within m t -> 1 <= out /\ out <= m /\ exists ch, nth 2 t 0 = ch /\ out * kx * ky * ch <= m.
Proof.
  intros (r & c & ch & ro & co & pad & -> & -> & P1 & P2 & W1 & W2 & Ho & D1 & D2 & Hw & Hi) W. apply within3 in W. split; [assumption|].
  pose proof (proj1 W1). pose proof (proj1 W2). split; [|exists ch; auto]. assert (1 <= kx * ky * ch) by nia. nia.
Qed.

(** general_conv2d and the bias, on an expression of shape t and weights *)
Lemma conv_sound dbg m s ps qs e w wsh out kx ky p sx sy dx dy t t' :
  (N.of_nat m < 2147483648)%N -> convolves m out kx ky p sx sy dx dy t t' -> within m t -> within m t' -> wsh = [out; kx; ky; nth 2 t 0] ->
  sound m s (ps ++ qs) e t -> (forall bs, batch_ok m bs -> J (shapes bs s (ps ++ qs)) w wsh) ->
  (forall bs, batch_ok m bs -> J (shapes bs s (ps ++ qs)) (Leaf (S (S (length ps)))) [1; 1; out]) ->
  general_conv2d dbg p sx sy dx dy e (shape_N (1 :: t)) w (shape_N wsh) = Ok (conv_at out kx ky p sx sy dx dy t w e) /\
  sound m s (ps ++ qs) (Bin Plus (conv_at out kx ky p sx sy dx dy t w e) (Leaf (S (S (length ps))))) t'.
Proof.
  intros M (r & c & ch & ro & co & pad & -> & -> & P1 & P2 & W1 & W2 & Ho & D1 & D2 & Hw & Hi) W W' -> Se Sw Sb. cbn [nth] in *.
  pose proof (within3 _ _ _ _ W) as (Hr & Hc & Hch & L). pose proof (proj1 W1) as K1. pose proof (proj1 W2) as K2.
  assert (Lr : r <= m) by (assert (1 <= c * ch) by nia; nia). assert (Lc : c <= m) by (assert (1 <= r * ch) by nia; nia).
  assert (Lk : kx * ky * ch <= m) by (replace (out * kx * ky * ch) with (out * (kx * ky * ch)) in Hw by lia; nia).
  assert (Ec : conv_at out kx ky p sx sy dx dy [r; c; ch] w e = conv_ex kx ky pad sx sy dx dy ro co out ch w e).
  { unfold conv_at. cbv zeta. cbn [nth]. now rewrite <- (pads_pad_of _ _ _ _ _ P1), <- (window_is_extent _ _ _ _ _ _ W1), <- (window_is_extent _ _ _ _ _ _ W2). }
  rewrite Ec.
  split; [now apply (general_conv2d_ok dbg m)|]. intros bs B.
  apply (J_bin _ _ _ _ [bs; ro; co; out] [1; 1; out]); [| |apply can_plus, bias_broadcasts|exact I|now apply (within_fits m)].
  - apply (conv_J _ m bs e w r c ch out kx ky ro co pad); try assumption; [now apply (pads_amount m p kx sx dx pad)|now apply Se|now apply Sw].
  - now apply Sb.
Qed.

Lemma conv_layer_ok dbg m s ps e out kx ky p sx sy dx dy t t' :
  (N.of_nat m < 2147483648)%N -> convolves m out kx ky p sx sy dx dy t t' -> within m t -> within m t' -> sound m s ps e t ->
  let e' := Bin Plus (conv_at out kx ky p sx sy dx dy t (Leaf (S (length ps))) e) (Leaf (S (S (length ps)))) in
  conv_layer dbg (shape_N (1 :: s)) out kx ky p sx sy dx dy e ps = Ok (e', ps ++ [[out; kx; ky; nth 2 t 0]; [1; 1; out]]) /\
  sound m s (ps ++ [[out; kx; ky; nth 2 t 0]; [1; 1; out]]) e' t'.
Proof.
  intros M Cv W W' Se. cbv zeta. destruct (convolves_out _ _ _ _ _ _ _ _ _ _ _ Cv W) as (Ho & Lo & ch & Ech & Hw). rewrite Ech.
  assert (Et : exists r c, t = [r; c; ch]). { destruct Cv as (r & c & ch' & ? & ? & ? & -> & _). exists r, c. cbn [nth] in Ech. now subst. } destruct Et as (r & c & Et).
  pose proof (batch_one m M) as B1. assert (Fb : fits [1; 1; out]) by now apply (bias_fits m 1).
  assert (Fw : fits [out; kx; ky; ch]).
  { apply fits_pos.
    - destruct Cv as (? & ? & ? & ? & ? & ? & _ & _ & _ & _ & (K1 & _) & (K2 & _) & _). subst t. apply within3 in W. repeat constructor; lia.
    - apply (below_limit m 1); [assumption|]. unfold prod. cbn [fold_right]. lia. }
  destruct (conv_sound dbg m s ps [[out; kx; ky; ch]; [1; 1; out]] e (Leaf (S (length ps))) [out; kx; ky; ch] out kx ky p sx sy dx dy t t') as (Eg & Sg); try assumption.
  - now rewrite Ech.
  - now apply sound_more.
  - intros bs B. now apply weight_leaf.
  - intros bs B. now apply bias_leaf.
  - split; [|assumption]. unfold conv_layer. destruct (Nat.ltb_spec 0 out); [|lia]. cbn [check].
    rewrite (sound_announced dbg m s ps e t M Se). cbn [obind].
    replace (last_extent (shape_N (1 :: t))) with (Ok (N.of_nat ch)) by (subst t; symmetry; apply (last_extent_ok [1; r; c] ch)). cbn [obind].
    change [N.of_nat out; N.of_nat kx; N.of_nat ky; N.of_nat ch] with (shape_N [out; kx; ky; ch]). rewrite new_variable_ok by apply Fw. cbn [obind].
    change [1%N; 1%N; N.of_nat out] with (shape_N [1; 1; out]). rewrite new_variable_ok by apply Fb. cbn [obind].
    change (map N.of_nat [out; kx; ky; ch]) with (shape_N [out; kx; ky; ch]). rewrite Eg. reflexivity.
Qed.

(** a layer of one operator, without variables *)
Lemma plain_sound m s ps o e t t' : within m t' -> sound m s ps e t -> narrow o = true ->
  (forall bs, batch_ok m bs -> can1 o (bs :: t) (bs :: t') /\ right1 o (bs :: t)) -> sound m s (ps ++ []) (Un o e) t'.
Proof.
  intros W Se N C. rewrite app_nil_r. intros bs B. destruct (C bs B) as [C1 C2]. apply (J_un _ _ _ (bs :: t)); [now apply Se|assumption|assumption|assumption|now apply (within_fits m)].
Qed.

Lemma apply1_ok dbg m s l t t' ps1 ps e : (N.of_nat m < 2147483648)%N -> makes m l t t' ps1 -> within m t -> within m t' -> sound m s ps e t ->
  apply1 dbg (shape_N (1 :: s)) l e ps = Ok (made l t e (length ps), ps ++ ps1) /\ sound m s (ps ++ ps1) (made l t e (length ps)) t'.
Proof.
  intros M Mk W W' Se. pose proof (batch_one m M) as B1.
  destruct Mk as [out n|out kx ky p sx sy dx dy r c ch t' Cv|out k st p d n ch n' Cv|out kx ky p sx sy dx dy r c ch r1 c1 t' E1 E2 W1 Cv|f t|t|t new P|t|n r c k Hn|n r c k Hn|n r c k];
    cbn [apply1 made nth].
  - (* Dense *)
    assert (Ln : 1 <= n /\ n <= m) by (destruct W as (_ & F & L); inversion F; unfold prod in L; cbn [fold_right] in L; lia).
    assert (Lo : 1 <= out /\ out <= m) by (destruct W' as (_ & F & L); inversion F; unfold prod in L; cbn [fold_right] in L; lia).
    assert (Fw : fits [n; out]). { apply fits_pos; [repeat constructor; apply Ln || apply Lo|]. unfold prod, limit. cbn [fold_right]. nia. }
    assert (Fb : fits [1; out]). { apply fits_pos; [repeat constructor; apply Lo|]. unfold prod, limit. cbn [fold_right]. lia. }
    rewrite (sound_announced dbg m s ps e [n] M Se). cbn [obind]. change (shape_N [1; n]) with (shape_N ([1] ++ [n])) at 2. rewrite last_extent_ok.
    cbn [shape_N map length Nat.leb check obind]. change [N.of_nat n; N.of_nat out] with (shape_N [n; out]). rewrite new_variable_ok by apply Fw. cbn [obind].
    change [1%N; N.of_nat out] with (shape_N [1; out]). rewrite new_variable_ok by apply Fb. cbn [obind].
    split; [reflexivity|]. intros bs B.
    apply (J_bin _ _ _ _ [bs; out] [1; out]); [|now apply bias_leaf|apply can_plus, bias_broadcasts2|exact I|now apply (within_fits m)].
    apply (J_bin _ _ _ _ [bs; n] [n; out]); [now apply (sound_more m s ps [[n; out]; [1; out]] e [n])|now apply weight_leaf|apply can_matmul|exact I|now apply (within_fits m)].
  - (* Conv2D *)
    exact (conv_layer_ok dbg m s ps e out kx ky p sx sy dx dy [r; c; ch] t' M Cv W W' Se).
  - (* Conv1D *)
    assert (Wn : within m [n; 1; ch]).
    { destruct W as (_ & F & L). unfold within. split; [discriminate|]. inversion F as [|? ? F1 F2]. inversion F2. split; [repeat constructor; assumption|].
      unfold prod in *. cbn [fold_right] in *. lia. }
    assert (Wn' : within m [n'; 1; out]).
    { destruct W' as (_ & F & L). unfold within. split; [discriminate|]. inversion F as [|? ? F1 F2]. inversion F2. split; [repeat constructor; assumption|].
      unfold prod in *. cbn [fold_right] in *. lia. }
    destruct (conv_layer_ok dbg m s ps (Un (ExpandDims (Some 2)) e) out k 1 p st 1 d 1 [n; 1; ch] [n'; 1; out] M Cv Wn Wn') as (Ee & Se').
    + intros bs B. apply (J_un _ _ _ [bs; n; ch]); [now apply Se|reflexivity| |exact I|now apply (within_fits m)].
      apply (can_expand [bs; n; ch] 2). cbn [length]. lia.
    + rewrite Ee. cbn [obind fst snd nth]. split; [reflexivity|]. cbn [nth] in Se'. intros bs B.
      apply (J_un _ _ _ [bs; n'; 1; out]); [now apply Se'|reflexivity| |exact I|now apply (within_fits m)].
      apply (can_squeeze [bs; n'] [out]). discriminate.
  - (* Conv2DTranspose *)
    pose proof (within3 _ _ _ _ W) as (Hr & Hc & Hch & _).
    destruct (convolves_out _ _ _ _ _ _ _ _ _ _ _ Cv W1) as (Ho & Lo & ch' & Ech & Hw). cbn [nth] in Ech. subst ch'.
    assert (Ks : 1 <= kx /\ 1 <= ky /\ 1 <= sx /\ 1 <= sy).
    { destruct Cv as (? & ? & ? & ? & ? & ? & _ & _ & _ & _ & (K1 & S1 & _) & (K2 & S2 & _) & _). auto. }
    destruct Ks as (K1 & K2 & S1 & S2).
    assert (Fw : fits [out; kx; ky; ch]). { apply fits_pos; [repeat constructor; lia|]. apply (below_limit m 1); [assumption|]. unfold prod. cbn [fold_right]. lia. }
    assert (Fb : fits [1; 1; out]) by now apply (bias_fits m 1).
    set (v := match p with PValid => true | _ => false end) in *.
    assert (Sr : spread_extent r kx sx v = r1) by (subst r1 v; unfold spread_extent; destruct p; lia).
    assert (Sc : spread_extent c ky sy v = c1) by (subst c1 v; unfold spread_extent; destruct p; lia).
    set (qs := [[out; kx; ky; ch]; [1; 1; out]]).
    assert (Ss : sound m s (ps ++ qs) (Un (Spread kx ky sx sy v) e) [r1; c1; ch]).
    { intros bs B. apply (J_un _ _ _ [bs; r; c; ch]); [now apply (sound_more m s ps qs e [r; c; ch])|reflexivity| | |now apply (within_fits m)].
      - rewrite <- Sr, <- Sc. apply can_spread; lia.
      - cbn [right1]. lia. }
    assert (Sw : forall bs, batch_ok m bs -> J (shapes bs s (ps ++ qs)) (Un (Flip 1) (Un (Flip 2) (Leaf (S (length ps))))) [out; kx; ky; ch]).
    { intros bs B. assert (P : prod [out; kx; ky; ch] <> 0) by (unfold prod; cbn [fold_right]; nia).
      apply (J_un _ _ _ [out; kx; ky; ch]); [|reflexivity| |exact P|exact Fw].
      - apply (J_un _ _ _ [out; kx; ky; ch]); [now apply weight_leaf|reflexivity| |exact P|exact Fw].
        apply (can_flip _ [out; kx] ky [ch]); [reflexivity|cbn [length]; lia|exact P|reflexivity].
      - apply (can_flip _ [out] kx [ky; ch]); [reflexivity|cbn [length]; lia|exact P|reflexivity]. }
    destruct (conv_sound dbg m s ps qs (Un (Spread kx ky sx sy v) e) (Un (Flip 1) (Un (Flip 2) (Leaf (S (length ps))))) [out; kx; ky; ch] out kx ky p sx sy dx dy [r1; c1; ch] t')
      as (Eg & Sg); try assumption; [reflexivity|intros bs B; now apply bias_leaf|].
    subst v. rewrite <- E1, <- E2. split; [|exact Sg].
    destruct (Nat.ltb_spec 0 out); [|lia]. cbn [check]. rewrite (sound_announced dbg m s ps e [r; c; ch] M Se). cbn [obind].
    change (shape_N [1; r; c; ch]) with (shape_N ([1; r; c] ++ [ch])). rewrite last_extent_ok. cbn [obind].
    change [N.of_nat out; N.of_nat kx; N.of_nat ky; N.of_nat ch] with (shape_N [out; kx; ky; ch]). rewrite new_variable_ok by apply Fw. cbn [obind].
    change [1%N; 1%N; N.of_nat out] with (shape_N [1; 1; out]). rewrite new_variable_ok by apply Fb. cbn [obind]. cbv zeta. fold qs.
    rewrite (sound_announced dbg m s (ps ++ qs) _ [r1; c1; ch] M Ss). cbn [obind].
    rewrite (J_announced (shapes 1 s (ps ++ qs)) _ [out; kx; ky; ch] dbg (leaves (shape_N (1 :: s)) (ps ++ qs)) (Sw 1 B1) (fun n => shapes_leaves s (ps ++ qs) n)). cbn [obind].
    rewrite Eg. reflexivity.
  - rewrite app_nil_r at 1. split; [reflexivity|]. apply (plain_sound m s ps (Map f) e t t); [assumption|assumption|reflexivity|]. intros bs B. split; [apply can_map|exact I].
  - rewrite app_nil_r at 1. split; [reflexivity|]. apply (plain_sound m s ps Softmax e t t); [assumption|assumption|reflexivity|]. intros bs B. split; [|exact I].
    apply can_softmax; [discriminate|]. rewrite prod_cons. pose proof (within_pos _ _ W). destruct B. nia.
  - rewrite app_nil_r at 1. split; [reflexivity|]. apply (plain_sound m s ps (Reshape new true) e t new); [assumption|assumption|reflexivity|]. intros bs B.
    pose proof (within_pos _ _ W'). split; [apply can_reshape; [lia|rewrite prod_cons, P; reflexivity]|]. cbn [right1]. apply (below_limit m bs); [assumption|].
    destruct W' as (_ & _ & L). destruct B. nia.
  - rewrite app_nil_r at 1. split; [reflexivity|]. apply (plain_sound m s ps Flatten e t [prod t]); [assumption|assumption|reflexivity|]. intros bs B.
    destruct W as (Nt & _ & L). split; [apply can_flatten; [assumption|destruct B; lia]|]. cbn [right1 tl]. lia.
  - rewrite app_nil_r at 1. split; [reflexivity|]. apply (plain_sound m s ps (MaxPool n) e [r; c; k] [r / n; c / n; k]); [assumption|assumption|reflexivity|].
    intros bs B. split; [apply can_max; lia|exact I].
  - rewrite app_nil_r at 1. split; [reflexivity|]. apply (plain_sound m s ps (AvgPool n) e [r; c; k] [r / n; c / n; k]); [assumption|assumption|reflexivity|].
    intros bs B. split; [apply can_avg; lia|exact I].
  - rewrite app_nil_r at 1. split; [reflexivity|]. apply (plain_sound m s ps (UpSample n) e [r; c; k] [r * n; c * n; k]); [assumption|assumption|reflexivity|].
    intros bs B. split; [apply can_up|exact I].
Qed.

Lemma prod_tl p a q : Forall (fun n => 1 <= n) (p ++ a :: q) -> prod p <> 0.
Proof. intros F. apply Forall_app in F. destruct F as [F _]. pose proof (prod_pos p F). lia. Qed.

Lemma apply2_ok m s ps l ta tb t a b : joins l ta tb t -> within m ta -> within m tb -> within m t -> sound m s ps a ta -> sound m s ps b tb -> sound m s ps (apply2 l a b) t.
Proof.
  intros Jn Wa Wb W Sa Sb bs B. destruct Jn as [p x y q axis Ax|l r t St|l r t St|t]; cbn [apply2].
  - apply (J_bin _ _ _ _ (bs :: p ++ x :: q) (bs :: p ++ y :: q)); [now apply Sa|now apply Sb| |exact I|now apply (within_fits m)].
    apply (can_concat (bs :: p) x y q axis).
    + destruct Wa as (_ & F & _). apply prod_tl in F. rewrite prod_cons. destruct B. nia.
    + exact Ax.
  - apply (J_bin _ _ _ _ (bs :: l) (bs :: r)); [now apply Sa|now apply Sb| |exact I|now apply (within_fits m)].
    apply can_plus, stretch_all_broadcasts. constructor; [left; auto|assumption].
  - apply (J_bin _ _ _ _ (bs :: l) (bs :: r)); [now apply Sa| | |exact I|now apply (within_fits m)].
    + apply (J_un _ _ _ (bs :: r)); [now apply Sb|reflexivity|apply can_map|exact I|now apply (within_fits m)].
    + apply can_plus, stretch_all_broadcasts. constructor; [left; auto|assumption].
  - apply (J_bin _ _ _ _ (bs :: t) (bs :: t)); [now apply Sa|now apply Sb| | |now apply (within_fits m)].
    + apply can_product. rewrite prod_cons. pose proof (within_pos _ _ W). destruct B. nia.
    + cbn [right2]. rewrite Nat.ltb_irrefl. now right.
Qed.

Lemma Forall2_nth_error_r {A B} (P : A -> B -> Prop) l r i b : Forall2 P l r -> nth_error r i = Some b -> exists a, nth_error l i = Some a /\ P a b.
Proof. intros H. revert i. induction H as [|x y l r Hxy _ IH]; intros i E; [destruct i; discriminate|]. destruct i; [injection E as <-; cbn; eauto|]. cbn in *. auto. Qed.

Lemma steps_ok dbg m s : (N.of_nat m < 2147483648)%N -> forall prog ts ts' ps1 ns ps, well_formed m ts prog ts' ps1 -> Forall (within m) ts -> Forall2 (sound m s ps) ns ts ->
  exists ns', steps dbg (shape_N (1 :: s)) (Net ns ps) prog = Ok (Net ns' (ps ++ ps1)) /\ Forall (within m) ts' /\ Forall2 (sound m s (ps ++ ps1)) ns' ts'.
Proof.
  intros M. induction prog as [|c prog IH]; intros ts ts' ps1 ns ps WF Wt Ht;
    inversion WF as [ts0|ts0 l i t t' ps0 p0 ts0' ps2 Ei Mk W' WF' X1 X2 X3 X4|ts0 l i j a b t p0 ts0' ps2 Ei Ej Jn W' WF' X1 X2 X3 X4]; subst.
  - exists ns. rewrite app_nil_r. auto.
  - destruct (Forall2_nth_error_r _ _ _ _ _ Ht Ei) as (e & En & Se). pose proof (proj1 (Forall_forall _ _) Wt _ (nth_error_In _ _ Ei)) as W.
    destruct (apply1_ok dbg m s l t t' ps0 ps e M Mk W W' Se) as (Ee & Se'). set (e' := made l t e (length ps)) in *.
    destruct (IH _ _ _ (ns ++ [e']) (ps ++ ps0) WF') as (ns' & Es & Wn & Hn).
    + apply Forall_app. auto.
    + apply Forall2_app; [|auto]. clear - Ht. induction Ht; constructor; [now apply sound_more|assumption].
    + exists ns'. rewrite app_assoc. split; [|auto]. cbn [steps step nodes params]. rewrite En, Ee. cbn [obind fst snd]. exact Es.
  - destruct (Forall2_nth_error_r _ _ _ _ _ Ht Ei) as (e & En & Se). pose proof (proj1 (Forall_forall _ _) Wt _ (nth_error_In _ _ Ei)) as W.
    destruct (Forall2_nth_error_r _ _ _ _ _ Ht Ej) as (e2 & En2 & Se2). pose proof (proj1 (Forall_forall _ _) Wt _ (nth_error_In _ _ Ej)) as W2.
    destruct (IH _ _ _ (ns ++ [apply2 l e e2]) ps WF') as (ns' & Es & Wn & Hn).
    + apply Forall_app. auto.
    + apply Forall2_app; [assumption|]. constructor; [|constructor]. now apply (apply2_ok m s ps l a b).
    + exists ns'. split; [|auto]. cbn [steps step nodes params]. rewrite En, En2. cbn [obind]. exact Es.
Qed.
