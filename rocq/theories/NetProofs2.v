(** Networks of layers: what the layers of a well formed network build. *)
From Coq Require Import List Arith Lia Bool PeanoNat NArith ZArith Reals.
From Verif Require Import ListBase TensorModel TensorSpec TensorProofs ArrayModel ArrayProofs LayerModel ConvProofs DeclModel DeclSpec DeclProofs DeclProofs2
  NetModel NetSpec ValueModel ValueSpec NetProofs.
Import ListNotations.
Local Open Scope nat_scope.

(** ** Sizes *)

Definition batch_ok (m bs : nat) : Prop := 1 <= bs /\ (N.of_nat (bs * m) < 4294967296)%N.

Lemma prod_pos s : Forall (fun n => 1 <= n) s -> 1 <= prod s.
Proof. induction 1 as [|n s H _ IH]; [cbn; lia|]. rewrite prod_cons. nia. Qed.

Lemma fits_pos s : Forall (fun n => 1 <= n) s -> (N.of_nat (prod s) < limit)%N -> fits s.
Proof.
  intros P L. split; [|assumption]. revert P L. induction 1 as [|n s H P IH]; intros L; [constructor|]. rewrite prod_cons in L. pose proof (prod_pos s P).
  constructor; [|apply IH]; nia.
Qed.

Lemma within_pos m t : within m t -> 1 <= prod t. Proof. intros (_ & P & _). now apply prod_pos. Qed.

Lemma below m bs n : batch_ok m bs -> n <= bs * m -> (N.of_nat n < 4294967296)%N.
Proof. intros [_ B] L. lia. Qed.
Lemma below_limit m bs n : batch_ok m bs -> n <= bs * m -> (N.of_nat n < limit)%N.
Proof. intros B L. pose proof (below _ _ _ B L). unfold limit. lia. Qed.

Lemma within_fits m bs t : batch_ok m bs -> within m t -> fits (bs :: t).
Proof.
  intros B (N & P & L). apply fits_pos; [constructor; [apply B|assumption]|]. apply (below_limit m bs); [assumption|]. rewrite prod_cons. now apply Nat.mul_le_mono_l.
Qed.

(** ** Broadcasting *)

Lemma stretch_all_length l r t : stretch_all l r t -> length l = length t /\ length r = length t.
Proof. induction 1 as [|a b c l r t H _ [IH1 IH2]]; [auto|]. cbn [length]. lia. Qed.

Lemma stretch_all_nth l r t : stretch_all l r t -> forall i, stretched (nth i l 1) (nth i r 1) (nth i t 1).
Proof. induction 1 as [|a b c l r t H _ IH]; intros i; [destruct i; left; auto|]. destruct i; cbn [nth]; auto. Qed.

Lemma stretch_all_broadcasts l r t : stretch_all l r t -> Broadcasts l r t.
Proof.
  intros H. pose proof (stretch_all_length _ _ _ H) as [E1 E2]. split; [lia|]. intros j Hj. unfold dimr. rewrite !rev_nth by lia. rewrite E1, E2.
  pose proof (stretch_all_nth _ _ _ H (length t - S j)) as G. destruct G as [[G1 G2]|[[G1 G2]|[G1 G2]]]; auto.
Qed.

Lemma bias_broadcasts bs r c k : Broadcasts [bs; r; c; k] [1; 1; k] [bs; r; c; k].
Proof.
  split; [reflexivity|]. intros j Hj. cbn [length] in Hj. unfold dimr. cbn [rev app].
  destruct j as [|[|[|[|j]]]]; cbn [nth]; [left; auto|right; right; auto|right; right; auto|right; right; auto|lia].
Qed.

Lemma bias_broadcasts2 bs k : Broadcasts [bs; k] [1; k] [bs; k].
Proof. apply stretch_all_broadcasts. constructor; [right; right; auto|]. constructor; [left; auto|constructor]. Qed.

(** ** Leaves *)

Definition shapes (bs : nat) (s : list nat) (ps : list (list nat)) (n : nat) : list nat := match n with 0 => bs :: s | S k => nth k ps [] end.

Lemma shapes_more bs s ps qs n : shapes bs s ps n <> [] -> shapes bs s (ps ++ qs) n = shapes bs s ps n.
Proof.
  destruct n as [|k]; [reflexivity|]. cbn [shapes]. intros N. apply app_nth1. destruct (Nat.lt_ge_cases k (length ps)); [assumption|]. now rewrite nth_overflow in N.
Qed.

Lemma shapes_leaves s ps n : leaves (shape_N (1 :: s)) ps n = shape_N (shapes 1 s ps n).
Proof. destruct n; reflexivity. Qed.

Definition sound (m : nat) (s : list nat) (ps : list (list nat)) (e : ex) (t : list nat) : Prop := forall bs, batch_ok m bs -> J (shapes bs s ps) e (bs :: t).

Lemma sound_more m s ps qs e t : sound m s ps e t -> sound m s (ps ++ qs) e t.
Proof. intros H bs B. apply (J_ext (shapes bs s ps)); [apply shapes_more|now apply H]. Qed.

Lemma batch_one m : (N.of_nat m < 2147483648)%N -> batch_ok m 1. Proof. intros. split; lia. Qed.

Lemma sound_announced dbg m s ps e t : (N.of_nat m < 2147483648)%N -> sound m s ps e t -> announced dbg (leaves (shape_N (1 :: s)) ps) e = Ok (shape_N (1 :: t)).
Proof. intros M H. apply (J_announced (shapes 1 s ps)); [now apply H, batch_one|]. intros. apply shapes_leaves. Qed.

Lemma weight_leaf bs s ps w b : w <> [] -> fits w -> J (shapes bs s (ps ++ [w; b])) (Leaf (S (length ps))) w.
Proof. intros. apply J_leaf'; [|assumption|assumption]. cbn [shapes]. now rewrite app_nth2, Nat.sub_diag by lia. Qed.
Lemma bias_leaf bs s ps w b : b <> [] -> fits b -> J (shapes bs s (ps ++ [w; b])) (Leaf (S (S (length ps)))) b.
Proof. intros. apply J_leaf'; [|assumption|assumption]. cbn [shapes]. rewrite app_nth2 by lia. now replace (S (length ps) - length ps) with 1 by lia. Qed.

Lemma fold_mul s : forall a, fold_left N.mul (shape_N s) a = (a * N.of_nat (prod s))%N.
Proof. induction s as [|n s IH]; intros a; [cbn; lia|]. unfold shape_N. cbn [map fold_left]. fold (shape_N s). rewrite IH, prod_cons, Nat2N.inj_mul. lia. Qed.

Lemma shape_N_nat s : map N.to_nat (shape_N s) = s.
Proof. unfold shape_N. rewrite map_map. erewrite map_ext; [apply map_id|]. intros. apply Nat2N.id. Qed.

Lemma new_variable_ok s : (N.of_nat (prod s) < limit)%N -> new_variable (shape_N s) = Ok s.
Proof.
  intros L. unfold new_variable. rewrite fold_mul, N.mul_1_l. unfold limit in L. rewrite (proj2 (N.ltb_lt _ _) L). now rewrite shape_N_nat.
Qed.

Lemma last_extent_ok p n : last_extent (shape_N (p ++ [n])) = Ok (N.of_nat n).
Proof. unfold last_extent, shape_N. rewrite map_app, rev_app_distr. reflexivity. Qed.

(** ** Convolution *)

Lemma window_extent n pad k s d m : window n pad k s d m -> conv_extent n pad k s d = Some m.
Proof.
  intros (K & S & L & ->). unfold conv_extent. destruct (Nat.eqb_spec s 0); [lia|]. destruct (Nat.eqb_spec k 0); [lia|].
  destruct (Nat.ltb_spec (n + 2 * pad) (d * (k - 1) + 1)); [lia|]. reflexivity.
Qed.

Lemma pads_amount m p k s d a : pads p k s d a -> 1 <= k -> d * k <= m -> (N.of_nat m < 2147483648)%N -> pad_amount p k s d = N.of_nat a /\ a <= m.
Proof.
  unfold pads, pad_amount. intros P K D M. destruct p; [subst a; split; [reflexivity|lia]| |subst a; split; [reflexivity|lia]].
  destruct P as (D1 & S & ->). assert (E : k + (k - 1) * (d - 1) <= m) by nia. set (t := k + (k - 1) * (d - 1)) in *.
  pose proof (Nat.mod_upper_bound k 2 ltac:(lia)) as Kb.
  assert (Et : wrap (N.of_nat k + wrap (wsub (N.of_nat k) 1 * wsub (N.of_nat d) 1)) = N.of_nat t).
  { rewrite !wsub_exact by (unfold word; nia). replace ((N.of_nat k - 1) * (N.of_nat d - 1))%N with (N.of_nat ((k - 1) * (d - 1))) by (rewrite Nat2N.inj_mul; f_equal; lia).
    assert ((k - 1) * (d - 1) <= m) by (subst t; lia).
    rewrite (wrap_small (N.of_nat ((k - 1) * (d - 1)))) by (unfold word; lia). rewrite wrap_small by (unfold word; subst t; lia). subst t. lia. }
  rewrite Et, wsub_exact by (unfold word; lia). rewrite wrap_small.
  - replace (N.of_nat k mod 2 + (N.of_nat t - N.of_nat s))%N with (N.of_nat (k mod 2 + (t - s))) by (rewrite Nat2N.inj_add, Nat2N.inj_mod, Nat2N.inj_sub; reflexivity).
    split; [now rewrite Nat2N.inj_div|]. assert (1 <= t) by (subst t; lia).
    destruct (Nat.eq_dec t 1) as [T|T].
    + apply Nat.div_le_upper_bound; lia.
    + apply Nat.div_le_upper_bound; lia.
  - change 2%N with (N.of_nat 2). rewrite <- Nat2N.inj_mod. unfold word. lia.
Qed.

Definition conv_ex (kx ky pad sx sy dx dy ro co out ch : nat) (w e : ex) : ex :=
  Un (Reshape [ro; co; out] true) (Un Transpose (Bin Matmul (Un (Reshape [kx * ky * ch] true) w) (Un (Img2col (Conv kx ky pad pad sx sy dx dy)) e))).

Definition conv_at (out kx ky : nat) (p : padding) (sx sy dx dy : nat) (t : list nat) (w e : ex) : ex :=
  let pad := pad_of p kx sx dx in
  conv_ex kx ky pad sx sy dx dy (extent (nth 0 t 0) pad kx sx dx) (extent (nth 1 t 0) pad ky sy dy) out (nth 2 t 0) w e.

(** what layer l makes of expression e, of shape t, after k other variables *)
Definition made (l : layer1) (t : list nat) (e : ex) (k : nat) : ex :=
  match l with
  | Dense out => Bin Plus (Bin Matmul e (Leaf (S k))) (Leaf (S (S k)))
  | Conv2D out kx ky p sx sy dx dy => Bin Plus (conv_at out kx ky p sx sy dx dy t (Leaf (S k)) e) (Leaf (S (S k)))
  | Conv1D out n st p d => Un (Squeeze (Some 2)) (Bin Plus (conv_at out n 1 p st 1 d 1 [nth 0 t 0; 1; nth 1 t 0] (Leaf (S k)) (Un (ExpandDims (Some 2)) e)) (Leaf (S (S k))))
  | Conv2DTranspose out kx ky p sx sy dx dy =>
      Bin Plus (conv_at out kx ky p sx sy dx dy
                  [nth 0 t 0 * sx + match p with PValid => 2 * kx - 2 | _ => 0 end; nth 1 t 0 * sy + match p with PValid => 2 * ky - 2 | _ => 0 end; nth 2 t 0]
                  (Un (Flip 1) (Un (Flip 2) (Leaf (S k)))) (Un (Spread kx ky sx sy (match p with PValid => true | _ => false end)) e)) (Leaf (S (S k)))
  | Activation f => Un (Map f) e
  | SoftmaxLayer => Un Softmax e
  | ReshapeLayer new_shape batch => Un (Reshape new_shape batch) e
  | FlattenLayer => Un Flatten e
  | MaxPooling2D n => Un (MaxPool n) e
  | UpSampling2D n => Un (UpSample n) e
  | AveragePooling2D n => Un (AvgPool n) e
  end.

Lemma pads_pad_of p k s d a : pads p k s d a -> a = pad_of p k s d.
Proof. destruct p; cbn [pads pad_of]; intuition. Qed.
Lemma window_is_extent n pad k s d m : window n pad k s d m -> m = extent n pad k s d.
Proof. intros (_ & _ & _ & E). exact E. Qed.

Lemma general_conv2d_ok dbg m p sx sy dx dy e w bs r c ch out kx ky ro co pad :
  (N.of_nat m < 2147483648)%N -> pads p kx sx dx pad -> pads p ky sy dy pad -> window r pad kx sx dx ro -> window c pad ky sy dy co ->
  dx * kx <= m -> dy * ky <= m -> r <= m -> c <= m -> kx * ky * ch <= m -> 
  general_conv2d dbg p sx sy dx dy e (shape_N [bs; r; c; ch]) w (shape_N [out; kx; ky; ch]) = Ok (conv_ex kx ky pad sx sy dx dy ro co out ch w e).
Proof.
  intros M P1 P2 W1 W2 D1 D2 Hr Hc Hk. unfold general_conv2d. cbn [shape_N map length Nat.eqb check]. rewrite !Nat2N.id.
  destruct (pads_amount m _ _ _ _ _ P1 (proj1 W1) D1 M) as [E1 L]. destruct (pads_amount m _ _ _ _ _ P2 (proj1 W2) D2 M) as [E2 _]. rewrite E1, E2, !Nat2N.id.
  rewrite (col_extent_ok _ _ _ _ _ _ (window_extent _ _ _ _ _ _ W1)) by (unfold word; lia). cbn [obind].
  rewrite (col_extent_ok _ _ _ _ _ _ (window_extent _ _ _ _ _ _ W2)) by (unfold word; lia). cbn [obind]. rewrite !Nat2N.id.
  destruct ch as [|ch].
  - unfold conv_ex. rewrite !Nat.mul_0_r. cbn [N.of_nat]. rewrite N.mul_0_r. reflexivity.
  - assert (kx * ky <= m) by nia.
    rewrite <- Nat2N.inj_mul, (wrap_small (N.of_nat (kx * ky))) by (unfold word; lia). rewrite <- Nat2N.inj_mul, wrap_small by (unfold word; lia). now rewrite Nat2N.id.
Qed.

Lemma window_pos n pad k s d m : window n pad k s d m -> 1 <= m. Proof. intros (_ & _ & _ & ->). lia. Qed.

Lemma conv_J ls m bs e w r c ch out kx ky ro co pad sx sy dx dy :
  (N.of_nat m < 2147483648)%N -> batch_ok m bs -> within m [r; c; ch] -> within m [ro; co; out] -> window r pad kx sx dx ro -> window c pad ky sy dy co -> pad <= m ->
  1 <= out -> out * kx * ky * ch <= m -> kx * ky * ch * (ro * co) <= m ->
  J ls e [bs; r; c; ch] -> J ls w [out; kx; ky; ch] -> J ls (conv_ex kx ky pad sx sy dx dy ro co out ch w e) [bs; ro; co; out].
Proof.
  intros M B Wt Wt' W1 W2 Hp Ho Hw Hi Je Jw. unfold conv_ex.
  pose proof (window_pos _ _ _ _ _ _ W1) as P1. pose proof (window_pos _ _ _ _ _ _ W2) as P2. pose proof (proj1 W1) as K1. pose proof (proj1 W2) as K2. pose proof (proj1 B) as Pb.
  assert (Pc : 1 <= ch) by (destruct Wt as (_ & F & _); inversion F as [|? ? _ F1]; inversion F1 as [|? ? _ F2]; now inversion F2).
  assert (Pr : 1 <= r /\ 1 <= c) by (destruct Wt as (_ & F & _); inversion F as [|? ? ? F1]; inversion F1; auto). destruct Pr as [Pr Pc2].
  pose proof (proj2 (proj2 Wt)) as Lt. pose proof (proj2 (proj2 Wt')) as Lt'. cbn [prod fold_right] in Lt, Lt'. rewrite !Nat.mul_1_r in Lt, Lt'.
  assert (Pk : 1 <= kx * ky * ch) by nia. assert (Po : 1 <= ro * co) by nia.
  set (q := kx * ky * ch) in *. assert (Eq : out * kx * ky * ch = out * q) by (subst q; lia). rewrite Eq in Hw. assert (Lq : q <= m) by nia.
  assert (Lr : r <= m) by (assert (1 <= c * ch) by nia; nia). assert (Lc : c <= m) by (assert (1 <= r * ch) by nia; nia).
  apply (J_un _ _ _ [bs * ro * co; out]); [|reflexivity| | |].
  - apply (J_un _ _ _ [out; bs * ro * co]); [|reflexivity|apply can_transpose|exact I|].
    + apply (J_bin _ _ _ _ [out; q] [q; bs * ro * co]); [| |apply can_matmul|exact I|].
      * apply (J_un _ _ _ [out; kx; ky; ch]); [assumption|reflexivity| | |].
        -- apply can_reshape; unfold prod; cbn [fold_right]; [lia|]. subst q. lia.
        -- cbn [right1]. unfold prod. cbn [fold_right]. apply (below_limit m bs); [assumption|nia].
        -- apply fits_pos; [repeat constructor; lia|]. unfold prod. cbn [fold_right]. apply (below_limit m bs); [assumption|nia].
      * apply (J_un _ _ _ [bs; r; c; ch]); [assumption|reflexivity| | |].
        -- apply (can_img2col (Conv kx ky pad pad sx sy dx dy)); [|now apply window_extent|now apply window_extent].
           assert (T : (N.of_nat (prod [bs; r; c; ch]) < 4294967296)%N) by (apply (below m bs); [assumption|]; unfold prod; cbn [fold_right]; nia). lia.
        -- cbn [right1 nth prow pcol]. unfold word. split; lia.
        -- apply fits_pos; [constructor; [lia|]; constructor; [nia|constructor]|]. unfold prod. cbn [fold_right]. apply (below_limit m bs); [assumption|nia].
      * apply fits_pos; [constructor; [lia|]; constructor; [nia|constructor]|]. unfold prod. cbn [fold_right]. apply (below_limit m bs); [assumption|]. 
        replace (out * (bs * ro * co * 1)) with (bs * (ro * (co * out))) by lia. apply Nat.mul_le_mono_l. lia.
    + apply fits_pos; [constructor; [nia|]; constructor; [lia|constructor]|]. unfold prod. cbn [fold_right]. apply (below_limit m bs); [assumption|].
      replace (bs * ro * co * (out * 1)) with (bs * (ro * (co * out))) by lia. apply Nat.mul_le_mono_l. lia.
  - apply can_reshape; unfold prod; cbn [fold_right]; [nia|lia].
  - cbn [right1]. apply (below_limit m bs); [assumption|]. unfold prod. cbn [fold_right]. nia.
  - now apply (within_fits m).
Qed.
