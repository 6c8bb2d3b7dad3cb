(** What a network computes: layer by layer, and whole programs. *)
From Coq Require Import List Arith Lia Bool PeanoNat NArith ZArith Reals.
From Verif Require Import ListBase Loops TensorModel TensorSpec TensorProofs ArrayModel ArrayProofs LayerModel LayerSpec LayerProofs ConvProofs
  DeclModel DeclSpec DeclProofs DeclProofs2 NetModel NetSpec ValueModel ValueSpec NetProofs NetProofs2 NetProofs3 ValueProofs ValueProofs2.
Import ListNotations.
Local Open Scope nat_scope.

Lemma is_array_wf x s : is_array x s -> wf x. Proof. unfold wf. intros [-> L]. exact L. Qed.

Section Values.
Variables (m : nat) (eps : R) (leaf : nat -> arr R) (bs : nat).
Hypothesis (M : (N.of_nat m < 2147483648)%N) (Bs : batch_ok m bs).

Lemma computes_leaf dbg n y : computes dbg eps leaf (Leaf n) y -> y = leaf n. Proof. now inversion 1. Qed.
Lemma computes_un dbg o e y : computes dbg eps leaf (Un o e) y -> exists x, computes dbg eps leaf e x /\ run1 dbg eps o x y. Proof. inversion 1. eauto. Qed.
Lemma computes_bin dbg o l r z : computes dbg eps leaf (Bin o l r) z -> exists x y, computes dbg eps leaf l x /\ computes dbg eps leaf r y /\ forward2 dbg o x y z.
Proof. inversion 1. eauto. Qed.

(** the samples of the value of e are g 0, g 1, ... *)
Definition shaped (e : ex) (t : list nat) : Prop := forall dbg y, computes dbg eps leaf e y -> is_array y (bs :: t).
Definition values (e : ex) (t : list nat) (g : nat -> list R) : Prop :=
  shaped e t /\ forall dbg y i, computes dbg eps leaf e y -> i < bs -> part (prod t) i (adata y) = g i.

Lemma batch_pos : 1 <= bs. Proof. apply Bs. Qed.

Lemma size_ok r c ch : within m [r; c; ch] -> (Z.of_nat (prod [bs; r; c; ch]) <= 4294967295)%Z.
Proof.
  intros (_ & _ & L). assert (T : (N.of_nat (prod [bs; r; c; ch]) < 4294967296)%N) by (apply (below m bs); [assumption|]; rewrite prod_cons; now apply Nat.mul_le_mono_l). lia.
Qed.

Lemma conv_value dbg out kx ky pad sx sy dx dy r c ch ro co w e b y :
  window r pad kx sx dx ro -> window c pad ky sy dy co -> 1 <= out -> within m [r; c; ch] ->
  (forall x, computes dbg eps leaf e x -> is_array x [bs; r; c; ch]) -> (forall v, computes dbg eps leaf w v -> is_array v [out; kx; ky; ch]) -> is_array (leaf b) [1; 1; out] ->
  computes dbg eps leaf (Bin Plus (conv_ex kx ky pad sx sy dx dy ro co out ch w e) (Leaf b)) y -> is_array y [bs; ro; co; out] ->
  exists x v, computes dbg eps leaf e x /\ computes dbg eps leaf w v /\
    forall i, i < bs -> part (prod [ro; co; out]) i (adata y) = convolve r c ch out kx ky pad sx sy dx dy ro co (adata v) (adata (leaf b)) (part (prod [r; c; ch]) i (adata x)).
Proof.
  intros W1 W2 Ho W He Hw Hb C Sy. apply computes_bin in C. destruct C as (z & b' & Cz & Cb & F). apply computes_leaf in Cb. subst b'.
  unfold conv_ex in Cz. apply computes_un in Cz. destruct Cz as (tr & Cz & F5). apply computes_un in Cz. destruct Cz as (mm & Cz & F4).
  apply computes_bin in Cz. destruct Cz as (flat & col & Cf & Cc & F3). apply computes_un in Cf. destruct Cf as (v & Cv & F2). apply computes_un in Cc. destruct Cc as (x & Cx & F1).
  exists x, v. split; [assumption|]. split; [assumption|]. pose proof (He x Cx) as Ax. pose proof (Hw v Cv) as Av. pose proof (within3 _ _ _ _ W) as (_ & _ & Hch & _).
  destruct (v_conv dbg eps kx ky pad sx sy dx dy ro co out ch r c bs x v col flat mm tr z (is_array_wf _ _ Ax) (proj1 Ax) (size_ok _ _ _ W) (is_array_wf _ _ Av) (proj1 Av) W1 W2 Hch Ho F1 F2 F3 F4 F5)
    as (Sz & Wz & Hz).
  intros i Hi. unfold convolve. apply (part_image bs); [assumption|apply Sy|]. intros h w' o Hh Hv Hoo.
  rewrite (v_bias dbg z (leaf b) y bs ro co out F Wz Sz (is_array_wf _ _ Hb) (proj1 Hb)) by assumption. now rewrite Hz.
Qed.

Lemma layer1_values l t t' ps1 e k g :
  makes m l t t' ps1 -> within m t -> within m t' -> values e t g ->
  (forall w b, ps1 = [w; b] -> is_array (leaf (S k)) w /\ is_array (leaf (S (S k))) b) -> shaped (made l t e k) t' ->
  values (made l t e k) t' (fun i => snd (means1 eps l (adata (leaf (S k))) (adata (leaf (S (S k)))) (t, g i))) /\
  forall w b x, fst (means1 eps l w b (t, x)) = t'.
Proof.
  intros Mk W W' [Se Ve] Hp Sm.
  destruct Mk as [out n|out kx ky p sx sy dx dy r c ch t' Cv|out n st p d len ch n' Cv|out kx ky p sx sy dx dy r c ch r1 c1 t' E1 E2 W1 Cv|f t|t|t new P|t|n r c q Hn|n r c q Hn|n r c q].
  - (* Dense *)
    destruct (Hp _ _ eq_refl) as [Aw Ab]. split; [|reflexivity]. split; [exact Sm|]. intros dbg y i C Hi. pose proof (Sm dbg y C) as Sy. cbn [made] in C.
    apply computes_bin in C. destruct C as (z & b & Cz & Cb & F). apply computes_leaf in Cb. subst b. apply computes_bin in Cz. destruct Cz as (x & w & Cx & Cw & F2). apply computes_leaf in Cw. subst w.
    pose proof (Se dbg x Cx) as Ax. destruct (v_matmul _ _ _ _ bs n out F2 (is_array_wf _ _ Ax) (proj1 Ax) (is_array_wf _ _ Aw) (proj1 Aw)) as [Sz Ez].
    assert (Wz : wf z) by (unfold wf; rewrite Ez, Sz, tab2_length; unfold prod; cbn [fold_right]; lia).
    cbn [means1 snd]. unfold dense. assert (Pn : forall q, prod [q] = q) by (intros; unfold prod; cbn [fold_right]; lia). rewrite Pn.
    apply (part_eq 0%R _ bs); [assumption|destruct Sy as [_ Ly]; rewrite Ly, prod_cons, Pn; reflexivity|apply tab_length|]. intros o Ho. rewrite nth_tab by assumption.
    rewrite (v_bias2 dbg z (leaf (S (S k))) y bs out F Wz Sz (is_array_wf _ _ Ab) (proj1 Ab)) by assumption. f_equal. rewrite Ez, nth_tab2 by assumption. f_equal.
    apply tab_ext. intros j Hj. rewrite <- (Ve dbg x i Cx Hi), Pn. unfold at1. now rewrite nth_part.
  - (* Conv2D *)
    destruct (Hp _ _ eq_refl) as [Aw Ab]. destruct Cv as (r' & c' & ch' & ro & co & pad & Et & -> & P1 & P2 & W1 & W2 & Ho & _). injection Et as <- <- <-.
    cbn [means1]. cbv zeta. rewrite <- (pads_pad_of _ _ _ _ _ P1), <- (window_is_extent _ _ _ _ _ _ W1), <- (window_is_extent _ _ _ _ _ _ W2). cbn [fst snd]. split; [|reflexivity].
    split; [exact Sm|]. intros dbg y i C Hi. pose proof (Sm dbg y C) as Sy. cbn [made] in C. unfold conv_at in C. cbv zeta in C. cbn [nth] in C.
    rewrite <- (pads_pad_of _ _ _ _ _ P1), <- (window_is_extent _ _ _ _ _ _ W1), <- (window_is_extent _ _ _ _ _ _ W2) in C.
    destruct (conv_value dbg out kx ky pad sx sy dx dy r c ch ro co (Leaf (S k)) e (S (S k)) y) as (x & v & Cx & Cw & H); try assumption.
    + intros x Cx. exact (Se dbg x Cx).
    + intros v Cw. apply computes_leaf in Cw. now subst v.
    + apply computes_leaf in Cw. subst v. rewrite H by assumption. now rewrite (Ve dbg x i Cx Hi).
  - (* Conv1D *)
    destruct (Hp _ _ eq_refl) as [Aw Ab]. destruct Cv as (r' & c' & ch' & ro & co & pad & Et & Et' & P1 & P2 & W1 & W2 & Ho & _). injection Et as <- <- <-. injection Et' as <- <-.
    cbn [means1]. cbv zeta. rewrite <- (pads_pad_of _ _ _ _ _ P1), <- (window_is_extent _ _ _ _ _ _ W1). cbn [fst snd]. split; [|reflexivity].
    split; [exact Sm|]. intros dbg y i C Hi. pose proof (Sm dbg y C) as Sy. cbn [made] in C. unfold conv_at in C. cbv zeta in C. cbn [nth] in C.
    rewrite <- (pads_pad_of _ _ _ _ _ P1), <- (window_is_extent _ _ _ _ _ _ W1), <- (window_is_extent _ _ _ _ _ _ W2) in C.
    apply computes_un in C. destruct C as (z & C & F). cbn [run1] in F.
    assert (Wn : within m [len; 1; ch]).
    { destruct W as (_ & Fa & L). unfold within. split; [discriminate|]. inversion Fa as [|? ? F1 F2]. inversion F2. split; [repeat constructor; assumption|].
      unfold prod in *. cbn [fold_right] in *. lia. }
    assert (Hx : forall x, computes dbg eps leaf (Un (ExpandDims (Some 2)) e) x -> exists x0, computes dbg eps leaf e x0 /\ adata x = adata x0 /\ is_array x [bs; len; 1; ch]).
    { intros x Cx. apply computes_un in Cx. destruct Cx as (x0 & Cx0 & Fx). pose proof (Se dbg x0 Cx0) as Ax0. cbn [run1] in Fx.
      pose proof (v_expand _ _ _ _ Fx (is_array_wf _ _ Ax0)) as Ed. exists x0. split; [assumption|]. split; [assumption|].
      cbn [forward1] in Fx. unfold expand_dims_op in Fx. rewrite (proj1 Ax0) in Fx. cbn [length Nat.ltb Nat.leb firstn skipn app] in Fx. split.
      - now injection Fx as <-.
      - rewrite Ed. destruct Ax0 as [_ ->]. unfold prod. cbn [fold_right]. lia. }
    assert (Sz : is_array z [bs; n'; 1; out]).
    { pose proof C as C'. apply computes_bin in C'. destruct C' as (cv & b' & Ccv & Cb & Fp). apply computes_leaf in Cb. subst b'.
      unfold conv_ex in Ccv. apply computes_un in Ccv. destruct Ccv as (tr & Cz & F5). apply computes_un in Cz. destruct Cz as (mm & Cz & F4).
      apply computes_bin in Cz. destruct Cz as (flat & col & Cf & Cc & F3). apply computes_un in Cf. destruct Cf as (v & Cw & F2). apply computes_un in Cc. destruct Cc as (x & Cx & F1).
      apply computes_leaf in Cw. subst v. destruct (Hx x Cx) as (x0 & _ & _ & Ax). pose proof (within3 _ _ _ _ Wn) as (_ & _ & Hch & _).
      destruct (v_conv dbg eps n 1 pad st 1 d 1 n' 1 out ch len 1 bs x (leaf (S k)) col flat mm tr cv (is_array_wf _ _ Ax) (proj1 Ax) (size_ok _ _ _ Wn) (is_array_wf _ _ Aw) (proj1 Aw) W1 W2 Hch Ho F1 F2 F3 F4 F5)
        as (Scv & Wcv & _).
      destruct (forward2_gives _ _ _ _ _ Fp Wcv (is_array_wf _ _ Ab)) as [Wz G]. cbn [gives2] in G. rewrite Scv, (proj1 Ab), (broadcast_shape_ok dbg _ _ _ (bias_broadcasts bs n' 1 out)) in G. injection G as G. symmetry in G.
      split; [assumption|]. unfold wf in Wz. now rewrite Wz, G. }
    destruct (conv_value dbg out n 1 pad st 1 d 1 len 1 ch n' 1 (Leaf (S k)) (Un (ExpandDims (Some 2)) e) (S (S k)) z) as (x & v & Cx & Cw & H); try assumption.
    + intros x Cx. destruct (Hx x Cx) as (_ & _ & _ & Ax). exact Ax.
    + intros v Cw. apply computes_leaf in Cw. now subst v.
    + apply computes_leaf in Cw. subst v. destruct (Hx x Cx) as (x0 & Cx0 & Ed & _).
      rewrite (v_squeeze dbg z y [bs; n'] [out] F (is_array_wf _ _ Sz) (proj1 Sz)).
      specialize (H i Hi). replace (prod [n'; 1; out]) with (prod [n'; out]) in H by (unfold prod; cbn [fold_right]; lia). rewrite H, Ed.
      replace (prod [len; 1; ch]) with (prod [len; ch]) by (unfold prod; cbn [fold_right]; lia). now rewrite (Ve dbg x0 i Cx0 Hi).
  - (* Conv2DTranspose *)
    destruct (Hp _ _ eq_refl) as [Aw Ab]. destruct Cv as (r' & c' & ch' & ro & co & pad & Et & -> & P1 & P2 & W2 & W3 & Ho & _). injection Et as <- <- <-.
    pose proof (proj1 W2) as K1. pose proof (proj1 W3) as K2. assert (S1 : 1 <= sx) by apply W2. assert (S2 : 1 <= sy) by apply W3.
    pose proof (within3 _ _ _ _ W) as (Hr & Hc & Hch & _).
    cbn [means1]. cbv zeta. set (mx := match p with PValid => kx - 1 | _ => 0 end). set (my := match p with PValid => ky - 1 | _ => 0 end).
    assert (Er : r * sx + 2 * mx = r1) by (subst r1 mx; destruct p; lia). assert (Ec : c * sy + 2 * my = c1) by (subst c1 my; destruct p; lia). rewrite Er, Ec.
    rewrite <- (pads_pad_of _ _ _ _ _ P1), <- (window_is_extent _ _ _ _ _ _ W2), <- (window_is_extent _ _ _ _ _ _ W3). cbn [fst snd]. split; [|reflexivity].
    split; [exact Sm|]. intros dbg y i C Hi. pose proof (Sm dbg y C) as Sy. cbn [made] in C. unfold conv_at in C. cbv zeta in C. cbn [nth] in C. rewrite <- E1, <- E2 in C.
    rewrite <- (pads_pad_of _ _ _ _ _ P1), <- (window_is_extent _ _ _ _ _ _ W2), <- (window_is_extent _ _ _ _ _ _ W3) in C.
    set (vp := match p with PValid => true | _ => false end) in C.
    assert (Emx : mx = if vp then kx - 1 else 0) by (unfold mx, vp; now destruct p). assert (Emy : my = if vp then ky - 1 else 0) by (unfold my, vp; now destruct p).
    assert (Hx : forall x, computes dbg eps leaf (Un (Spread kx ky sx sy vp) e) x -> is_array x [bs; r1; c1; ch] /\
              exists x0, computes dbg eps leaf e x0 /\ part (prod [r1; c1; ch]) i (adata x) = apart r c ch sx sy mx my r1 c1 (part (prod [r; c; ch]) i (adata x0))).
    { intros x Cx. apply computes_un in Cx. destruct Cx as (x0 & Cx0 & Fx). pose proof (Se dbg x0 Cx0) as Ax0. cbn [run1] in Fx.
      destruct (v_spread dbg kx ky sx sy vp x0 x bs r c ch i Fx (is_array_wf _ _ Ax0) (proj1 Ax0) K1 K2 S1 S2 Hi) as (Sx & Wx & Px). rewrite <- Emx, <- Emy, Er, Ec in Sx, Px.
      split; [split; [assumption|]; unfold wf in Wx; now rewrite Wx, Sx|eauto]. }
    assert (Hw : forall v, computes dbg eps leaf (Un (Flip 1) (Un (Flip 2) (Leaf (S k)))) v -> is_array v [out; kx; ky; ch] /\ adata v = turned out kx ky ch (adata (leaf (S k)))).
    { intros v Cw. apply computes_un in Cw. destruct Cw as (u & Cu & Fv). apply computes_un in Cu. destruct Cu as (u0 & Cu0 & Fu). apply computes_leaf in Cu0. subst u0. cbn [run1] in Fv, Fu.
      destruct (v_flips dbg out kx ky ch (leaf (S k)) u v Fu Fv (is_array_wf _ _ Aw) (proj1 Aw)) as (Sv & Wv & Dv).
      - rewrite prod4. assert (1 <= ky * ch) by nia. assert (1 <= kx * (ky * ch)) by nia. nia.
      - split; [|assumption]. split; [assumption|]. unfold wf in Wv. now rewrite Wv, Sv. }
    destruct (conv_value dbg out kx ky pad sx sy dx dy r1 c1 ch ro co (Un (Flip 1) (Un (Flip 2) (Leaf (S k)))) (Un (Spread kx ky sx sy vp) e) (S (S k)) y) as (x & v & Cx & Cw & H); try assumption.
    + intros x Cx. now apply Hx.
    + intros v Cw. now apply Hw.
    + destruct (Hx x Cx) as (_ & x0 & Cx0 & Px). destruct (Hw v Cw) as [_ Dv]. rewrite H by assumption. rewrite Dv, Px. now rewrite (Ve dbg x0 i Cx0 Hi).
  - split; [|reflexivity]. split; [exact Sm|]. intros dbg y i C Hi. cbn [made] in C. apply computes_un in C. destruct C as (x & Cx & F). cbn [run1 forward1] in F. subst y. cbn [adata means1 snd].
    pose proof (Se dbg x Cx) as [_ Lx]. rewrite prod_cons in Lx. rewrite (v_map f (prod t) bs i (adata x) Hi Lx). now rewrite (Ve dbg x i Cx Hi).
  - split; [|reflexivity]. split; [exact Sm|]. intros dbg y i C Hi. cbn [made] in C. apply computes_un in C. destruct C as (x & Cx & F). cbn [run1] in F. cbn [means1]. cbv zeta. cbn [snd].
    pose proof (Se dbg x Cx) as Ax. pose proof (within_pos _ _ W).
    rewrite (v_softmax dbg eps x y bs t i F (is_array_wf _ _ Ax) (proj1 Ax)); [|apply W|lia|assumption]. now rewrite (Ve dbg x i Cx Hi).
  - split; [|reflexivity]. split; [exact Sm|]. intros dbg y i C Hi. cbn [made] in C. apply computes_un in C. destruct C as (x & Cx & F). cbn [run1] in F. cbn [means1 snd].
    pose proof (Se dbg x Cx) as [_ Lx]. rewrite prod_cons, <- P in Lx. rewrite (v_reshape _ _ _ _ bs F Lx), P. exact (Ve dbg x i Cx Hi).
  - split; [|reflexivity]. split; [exact Sm|]. intros dbg y i C Hi. cbn [made] in C. apply computes_un in C. destruct C as (x & Cx & F). cbn [run1] in F. cbn [means1 snd].
    pose proof (Se dbg x Cx) as [Sx Lx]. rewrite prod_cons in Lx. rewrite (v_flatten _ _ _ bs t F Sx Lx). replace (prod [prod t]) with (prod t) by (unfold prod at 2; cbn [fold_right]; lia).
    exact (Ve dbg x i Cx Hi).
  - split; [|reflexivity]. split; [exact Sm|]. intros dbg y i C Hi. cbn [made] in C. apply computes_un in C. destruct C as (x & Cx & F). cbn [run1] in F. cbn [means1 snd].
    pose proof (Se dbg x Cx) as Ax. rewrite (v_max dbg n x y bs r c q i F (is_array_wf _ _ Ax) (proj1 Ax)) by (assumption || lia). now rewrite (Ve dbg x i Cx Hi).
  - split; [|reflexivity]. split; [exact Sm|]. intros dbg y i C Hi. cbn [made] in C. apply computes_un in C. destruct C as (x & Cx & F). cbn [run1] in F. cbn [means1 snd].
    pose proof (Se dbg x Cx) as Ax. rewrite (v_avg dbg n x y bs r c q i F (is_array_wf _ _ Ax) (proj1 Ax)) by (assumption || lia). now rewrite (Ve dbg x i Cx Hi).
  - split; [|reflexivity]. split; [exact Sm|]. intros dbg y i C Hi. cbn [made] in C. apply computes_un in C. destruct C as (x & Cx & F). cbn [run1] in F. cbn [means1 snd].
    pose proof (Se dbg x Cx) as Ax. rewrite (v_up dbg n x y bs r c q i F (is_array_wf _ _ Ax) (proj1 Ax)) by (assumption || lia). now rewrite (Ve dbg x i Cx Hi).
Qed.

Lemma layer2_values l ta tb t a b g h :
  joins l ta tb t -> within m ta -> within m tb -> within m t -> values a ta g -> values b tb h -> shaped (apply2 l a b) t ->
  values (apply2 l a b) t (fun i => snd (means2 l (ta, g i) (tb, h i))) /\ forall x y, fst (means2 l (ta, x) (tb, y)) = t.
Proof.
  intros Jn Wa Wb W [Sa Va] [Sb Vb] Sm. destruct Jn as [p x y q axis Ax|l r t St|l r t St|t].
  - split.
    + split; [exact Sm|]. intros dbg z i C Hi. cbn [apply2] in C. apply computes_bin in C. destruct C as (u & v & Cu & Cv & F). pose proof (Sa dbg u Cu) as Au. pose proof (Sb dbg v Cv) as Av.
      rewrite (v_concat dbg u v z bs p x y q axis i F (is_array_wf _ _ Au) (proj1 Au) (is_array_wf _ _ Av) (proj1 Av)); [|destruct Wa as (_ & Fa & _); apply prod_tl in Fa; rewrite prod_cons; pose proof batch_pos; nia|assumption|assumption].
      now rewrite (Va dbg u i Cu Hi), (Vb dbg v i Cv Hi).
    + intros d e. unfold means2. cbv zeta. cbn [fst].
      assert (Ek : match axis with Some a => a - 1 | None => length (p ++ x :: q) - 1 end = length p).
      { destruct Ax as [->|[-> ->]]; [lia|]. rewrite app_length. cbn [length]. lia. }
      rewrite Ek. rewrite firstn_app, firstn_all, Nat.sub_diag. cbn [firstn]. rewrite app_nil_r. rewrite !app_nth2, !Nat.sub_diag by lia. cbn [nth].
      rewrite skipn_app, skipn_all2 by lia. replace (S (length p) - length p) with 1 by lia. reflexivity.
  - split; [|intros; apply (stretch_all_map2 _ _ _ St)]. split; [exact Sm|]. intros dbg z i C Hi. pose proof (Sm dbg z C) as Az. cbn [apply2] in C. apply computes_bin in C. destruct C as (u & v & Cu & Cv & F).
    pose proof (Sa dbg u Cu) as Au. pose proof (Sb dbg v Cv) as Av. cbn [means2].
    rewrite (v_pointwise dbg u v z bs l r t i F (is_array_wf _ _ Au) (proj1 Au) (is_array_wf _ _ Av) (proj1 Av) (is_array_wf _ _ Az) (proj1 Az) St Hi). now rewrite (Va dbg u i Cu Hi), (Vb dbg v i Cv Hi).
  - split; [|intros; apply (stretch_all_map2 _ _ _ St)]. split; [exact Sm|]. intros dbg z i C Hi. pose proof (Sm dbg z C) as Az. cbn [apply2] in C. apply computes_bin in C. destruct C as (u & v & Cu & Cv & F).
    apply computes_un in Cv. destruct Cv as (v0 & Cv0 & Fv). cbn [run1 forward1] in Fv. pose proof (Sa dbg u Cu) as Au. pose proof (Sb dbg v0 Cv0) as Av0.
    assert (Av : is_array v (bs :: r)) by (subst v; split; [apply Av0|cbn [adata]; rewrite map_length; apply Av0]). cbn [means2].
    rewrite (v_pointwise dbg u v z bs l r t i F (is_array_wf _ _ Au) (proj1 Au) (is_array_wf _ _ Av) (proj1 Av) (is_array_wf _ _ Az) (proj1 Az) St Hi).
    rewrite <- pointwise_minus. subst v. cbn [adata]. destruct Av0 as [_ Lv]. rewrite prod_cons in Lv. rewrite (v_map Ropp (prod r) bs i (adata v0) Hi Lv).
    now rewrite (Va dbg u i Cu Hi), (Vb dbg v0 i Cv0 Hi).
  - split; [|reflexivity]. split; [exact Sm|]. intros dbg z i C Hi. cbn [apply2] in C. apply computes_bin in C. destruct C as (u & v & Cu & Cv & F).
    pose proof (Sa dbg u Cu) as Au. pose proof (Sb dbg v Cv) as Av. cbn [means2 snd]. pose proof (within_pos _ _ W). pose proof batch_pos.
    rewrite (v_product dbg u v z bs t i F (is_array_wf _ _ Au) (proj1 Au) (is_array_wf _ _ Av) (proj1 Av)) by (assumption || nia). now rewrite (Va dbg u i Cu Hi), (Vb dbg v i Cv Hi).
Qed.

End Values.

(** ** Programs *)

Lemma means1_plain eps l w b z : with_variables l = false -> means1 eps l w b z = means1 eps l [] [] z.
Proof. destruct l; cbn [with_variables]; try discriminate; reflexivity. Qed.

Lemma makes_variables m l t t' ps : makes m l t t' ps -> if with_variables l then exists w b, ps = [w; b] else ps = [].
Proof. destruct 1; cbn [with_variables]; eauto. Qed.

Section Programs.
Variables (dbg0 : bool) (m : nat) (s : list nat) (eps : R) (leaf : nat -> arr R) (bs : nat).
Hypothesis (M : (N.of_nat m < 2147483648)%N) (Bs : batch_ok m bs).

Definition stands (ns : list ex) (ts : list (list nat)) (zs : nat -> list (list nat * list R)) : Prop :=
  forall k e t, nth_error ns k = Some e -> nth_error ts k = Some t ->
    (forall i, fst (nth k (zs i) ([], [])) = t) /\ values eps leaf bs e t (fun i => snd (nth k (zs i) ([], []))).

Lemma supplied_at ps : supplied leaf (bs :: s) ps -> forall n, shapes bs s ps n <> [] -> wf (leaf n) /\ ashape (leaf n) = shapes bs s ps n.
Proof.
  intros [[S0 L0] Sp] n N. unfold wf. destruct n as [|k]; cbn [shapes] in *; [rewrite S0; auto|].
  destruct (nth_error ps k) as [p|] eqn:E.
  - rewrite (nth_error_nth _ _ [] E). destruct (Sp k p E) as [A B]. rewrite A. auto.
  - apply nth_error_None in E. now rewrite nth_overflow in N.
Qed.

Lemma sound_shaped ps qs e t : supplied leaf (bs :: s) (ps ++ qs) -> sound m s ps e t -> shaped eps leaf bs e t.
Proof.
  intros Sp Se dbg y C. apply computes_evaluates in C. destruct (J_all _ _ _ leaf dbg y (sound_more m s ps qs e t Se bs Bs) (supplied_at _ Sp) C) as [W E].
  split; [assumption|]. unfold wf in W. now rewrite W, E.
Qed.

Lemma means_fst_nth zs zs' k : k < length zs -> nth k (zs ++ zs') ([], []) = nth k zs (([], []) : list nat * list R).
Proof. intros. now apply app_nth1. Qed.

Lemma steps_values : forall prog ts ts' ps1 ns ps ns' zs, well_formed m ts prog ts' ps1 -> Forall (within m) ts -> Forall2 (sound m s ps) ns ts ->
  supplied leaf (bs :: s) (ps ++ ps1) -> (forall i, length (zs i) = length ns) -> stands ns ts zs -> steps dbg0 (shape_N (1 :: s)) (Net ns ps) prog = Ok (Net ns' (ps ++ ps1)) ->
  stands ns' ts' (fun i => means eps prog (map (fun k => adata (leaf (S k))) (seq (length ps) (length ps1))) (zs i)).
Proof.
  induction prog as [|c prog IH]; intros ts ts' ps1 ns ps ns' zs WF Wt Ht Sp Lz St Es;
    inversion WF as [ts0|ts0 l i t t' ps0 p0 ts0' ps2 Ei Mk W' WF' X1 X2 X3 X4|ts0 l i j a b t p0 ts0' ps2 Ei Ej Jn W' WF' X1 X2 X3 X4]; subst.
  - cbn [steps] in Es. injection Es as <- _. exact St.
  - destruct (Forall2_nth_error_r _ _ _ _ _ Ht Ei) as (e & En & Se). pose proof (proj1 (Forall_forall _ _) Wt _ (nth_error_In _ _ Ei)) as W.
    destruct (apply1_ok dbg0 m s l t t' ps0 ps e M Mk W W' Se) as (Ee & Se'). set (e' := made l t e (length ps)) in *.
    cbn [steps step nodes params] in Es. rewrite En, Ee in Es. cbn [obind fst snd] in Es.
    destruct (St i e t En Ei) as [Fi Vi].
    destruct (layer1_values m eps leaf bs M Bs l t t' ps0 e (length ps) _ Mk W W' Vi) as [Vm Fm].
    { intros w b ->. destruct Sp as [_ Sp]. split; apply Sp.
      - rewrite nth_error_app2, Nat.sub_diag by lia. reflexivity.
      - rewrite nth_error_app2 by lia. replace (S (length ps) - length ps) with 1 by lia. reflexivity. }
    { rewrite app_assoc in Sp. now apply (sound_shaped (ps ++ ps0) ps2). }
    set (w := adata (leaf (S (length ps)))) in *. set (b := adata (leaf (S (S (length ps))))) in *.
    set (zs' := fun i0 => zs i0 ++ [means1 eps l w b (nth i (zs i0) ([], []))]).
    assert (Lns : length (ns ++ [e']) = S (length ns)) by (rewrite app_length; cbn [length]; lia).
    assert (Ln : length ns = length ts) by (clear - Ht; induction Ht; cbn [length]; lia).
    assert (St' : stands (ns ++ [e']) (ts ++ [t']) zs').
    { intros k e0 t0 Ek Et. destruct (Nat.lt_ge_cases k (length ns)) as [Hk|Hk].
      - rewrite nth_error_app1 in Ek by assumption. rewrite nth_error_app1 in Et by lia. destruct (St k e0 t0 Ek Et) as [A B].
        assert (Hz : forall i0, nth k (zs' i0) ([], []) = nth k (zs i0) ([], [])) by (intros i0; unfold zs'; apply means_fst_nth; now rewrite Lz). split.
        + intros i0. rewrite Hz. apply A.
        + destruct B as [B1 B2]. split; [assumption|]. intros. rewrite Hz. now apply (B2 dbg).
      - assert (k = length ns). { assert (k < length (ns ++ [e'])) by (apply nth_error_Some; congruence). lia. } subst k.
        rewrite nth_error_app2, Nat.sub_diag in Ek by lia. rewrite Ln, nth_error_app2, Nat.sub_diag in Et by lia. cbn [nth_error] in Ek, Et. injection Ek as <-. injection Et as <-.
        assert (Hz : forall i0, nth (length ns) (zs' i0) ([], []) = means1 eps l w b (t, snd (nth i (zs i0) ([], [])))).
        { intros i0. unfold zs'. rewrite app_nth2 by (rewrite Lz; lia). rewrite Lz, Nat.sub_diag. cbn [nth]. f_equal. rewrite <- (Fi i0). apply surjective_pairing. }
        split; [intros i0; rewrite Hz; apply Fm|]. destruct Vm as [V1 V2]. split; [assumption|]. intros. rewrite Hz. now apply (V2 dbg). }
    assert (G := IH (ts ++ [t']) ts' ps2 (ns ++ [e']) (ps ++ ps0) ns' zs' WF'). rewrite <- !app_assoc in G.
    assert (G' : stands ns' ts' (fun i0 => means eps prog (map (fun k => adata (leaf (S k))) (seq (length (ps ++ ps0)) (length ps2))) (zs' i0))).
    { apply G; try assumption.
      - apply Forall_app. auto.
      - apply Forall2_app; [|auto]. clear - Ht. induction Ht; constructor; [now apply sound_more|assumption].
      - intros i0. unfold zs'. rewrite !app_length, Lz. reflexivity. }
    intros k e0 t0 Ek Et. destruct (G' k e0 t0 Ek Et) as [A B].
    assert (Hm : forall i0, means eps (Apply1 l i :: prog) (map (fun k => adata (leaf (S k))) (seq (length ps) (length (ps0 ++ ps2)))) (zs i0)
                 = means eps prog (map (fun k => adata (leaf (S k))) (seq (length (ps ++ ps0)) (length ps2))) (zs' i0)).
    { intros i0. cbn [means]. pose proof (makes_variables _ _ _ _ _ Mk) as Mv. unfold zs'. destruct (with_variables l) eqn:Wl.
      - destruct Mv as (w0 & b0 & ->). rewrite !app_length. cbn [length Nat.add seq map skipn nth]. replace (length ps + 2) with (S (S (length ps))) by lia. reflexivity.
      - subst ps0. cbn [app]. rewrite app_nil_r. now rewrite (means1_plain eps l w b _ Wl). }
    split; [intros i0; rewrite Hm; apply A|]. destruct B as [B1 B2]. split; [assumption|]. intros. rewrite Hm. now apply (B2 dbg).
  - destruct (Forall2_nth_error_r _ _ _ _ _ Ht Ei) as (e & En & Se). pose proof (proj1 (Forall_forall _ _) Wt _ (nth_error_In _ _ Ei)) as W.
    destruct (Forall2_nth_error_r _ _ _ _ _ Ht Ej) as (e2 & En2 & Se2). pose proof (proj1 (Forall_forall _ _) Wt _ (nth_error_In _ _ Ej)) as W2.
    set (e' := apply2 l e e2) in *. assert (Se' : sound m s ps e' t) by now apply (apply2_ok m s ps l a b).
    cbn [steps step nodes params] in Es. rewrite En, En2 in Es. cbn [obind] in Es. fold e' in Es.
    destruct (St i e a En Ei) as [Fi Vi]. destruct (St j e2 b En2 Ej) as [Fj Vj].
    destruct (layer2_values m eps leaf bs M Bs l a b t e e2 _ _ Jn W W2 W' Vi Vj) as [Vm Fm]; [now apply (sound_shaped ps ps1)|]. fold e' in Vm.
    set (zs' := fun i0 => zs i0 ++ [means2 l (nth i (zs i0) ([], [])) (nth j (zs i0) ([], []))]).
    assert (Lns : length (ns ++ [e']) = S (length ns)) by (rewrite app_length; cbn [length]; lia).
    assert (Ln : length ns = length ts) by (clear - Ht; induction Ht; cbn [length]; lia).
    assert (St' : stands (ns ++ [e']) (ts ++ [t]) zs').
    { intros k e0 t0 Ek Et. destruct (Nat.lt_ge_cases k (length ns)) as [Hk|Hk].
      - rewrite nth_error_app1 in Ek by assumption. rewrite nth_error_app1 in Et by lia. destruct (St k e0 t0 Ek Et) as [A B].
        assert (Hz : forall i0, nth k (zs' i0) ([], []) = nth k (zs i0) ([], [])) by (intros i0; unfold zs'; apply means_fst_nth; now rewrite Lz). split.
        + intros i0. rewrite Hz. apply A.
        + destruct B as [B1 B2]. split; [assumption|]. intros. rewrite Hz. now apply (B2 dbg).
      - assert (k = length ns). { assert (k < length (ns ++ [e'])) by (apply nth_error_Some; congruence). lia. } subst k.
        rewrite nth_error_app2, Nat.sub_diag in Ek by lia. rewrite Ln, nth_error_app2, Nat.sub_diag in Et by lia. cbn [nth_error] in Ek, Et. injection Ek as <-. injection Et as <-.
        assert (Hz : forall i0, nth (length ns) (zs' i0) ([], []) = means2 l (a, snd (nth i (zs i0) ([], []))) (b, snd (nth j (zs i0) ([], [])))).
        { intros i0. unfold zs'. rewrite app_nth2 by (rewrite Lz; lia). rewrite Lz, Nat.sub_diag. cbn [nth]. f_equal; [rewrite <- (Fi i0)|rewrite <- (Fj i0)]; apply surjective_pairing. }
        split; [intros i0; rewrite Hz; apply Fm|]. destruct Vm as [V1 V2]. split; [assumption|]. intros. rewrite Hz. now apply (V2 dbg). }
    cbn [means]. apply (IH (ts ++ [t]) ts' ps1 (ns ++ [e']) ps ns' zs' WF'); try assumption.
    + apply Forall_app. auto.
    + apply Forall2_app; auto.
    + intros i0. unfold zs'. rewrite !app_length, Lz. reflexivity.
Qed.

End Programs.
