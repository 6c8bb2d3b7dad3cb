(** cross_entropy_loss: values, and the derivative of the logits. *)
From Coq Require Import List Arith Lia Bool PeanoNat Reals Lra.
From Coquelicot Require Import Rcomplements Hierarchy Derive.
From Coquelicot Require AutoDerive.
From Verif Require Import ListBase TensorModel TensorSpec TensorProofs TensorProofs2 ArrayModel ArrayProps GraphModel GraphSpec GraphProofs GraphProofs2
  GraphProofs3 GraphProofs4 GradSpec GradProofs GradProofs2 GradProofs3 LayerSpec LayerProofs BcastAdjoint CalcSpec CalcProofs CalcProofs2 CalcProofs3 GraphProps OpModel OpSpec OpProofs ArrayProofs Scalar
  OpRules OpProofs2 OpProofs4 OpProofs5 GradProps LossModel XentSpec.
Import ListNotations.
Local Open Scope nat_scope.

Notation rsum := LayerSpec.rsum.

Lemma div_row r n c : c < n -> (r * n + c) / n = r.
Proof. intros H. rewrite Nat.div_add_l by lia. rewrite Nat.div_small by assumption. lia. Qed.

Lemma row_exp_pos n y r : n <> 0 -> (0 < row_exp n y r)%R.
Proof.
  intros H. unfold row_exp. destruct n as [|n]; [congruence|]. rewrite tab_snoc, rsum_app. cbn [LayerSpec.rsum].
  pose proof (exp_pos (y (r * S n + n))). pose proof (rsum_tab_nonneg n (fun j => exp (y (r * S n + j))) (fun j => Rlt_le _ _ (exp_pos _))). lra.
Qed.

Lemma fold_max_spec x l : In (fold_right Rmax x l) (x :: l) /\ forall z, In z (x :: l) -> (z <= fold_right Rmax x l)%R.
Proof.
  induction l as [|a l [I B]]; [cbn; split; [auto|intros z [<-|[]]; lra]|]. cbn [fold_right]. split.
  - unfold Rmax at 1. destruct (Rle_dec a (fold_right Rmax x l)); [destruct I as [E|I]; [left; exact E|right; right; exact I]|right; left; reflexivity].
  - intros z Hz. destruct Hz as [<-|[<-|Hz]].
    + eapply Rle_trans; [apply B; now left|apply Rmax_r].
    + apply Rmax_l.
    + eapply Rle_trans; [apply B; now right|apply Rmax_r].
Qed.

Lemma largest_rmax n y r : n <> 0 -> rmax (tab n (fun j => y (r * n + j))) = largest n y r.
Proof.
  intros H. set (l := tab n (fun j => y (r * n + j))). assert (N : l <> []) by (unfold l; destruct n; [congruence|discriminate]).
  destruct (rmax_spec l N) as [I1 B1]. unfold largest. fold l. destruct (fold_max_spec (y (r * n)) l) as [I2 B2].
  assert (I3 : In (y (r * n)) l). { unfold l, tab. apply in_map_iff. exists 0. split; [f_equal; lia|apply in_seq; lia]. }
  apply Rle_antisym; [apply B2; now right|]. destruct I2 as [<-|I2]; apply B1; assumption.
Qed.

Lemma largest_bounds n y r : n <> 0 -> (exp (largest n y r) <= row_exp n y r)%R.
Proof.
  intros H. rewrite <- largest_rmax by assumption. set (l := tab n (fun j => y (r * n + j))). assert (N : l <> []) by (unfold l; destruct n; [congruence|discriminate]).
  destruct (rmax_spec l N) as [I1 _]. unfold row_exp.
  replace (rsum (tab n (fun j => exp (y (r * n + j))))) with (ArrayProps.rsum (map exp l)).
  - apply rsum_ge_member; [|now apply in_map]. intros x Hx. apply in_map_iff in Hx. destruct Hx as (z & <- & _). left. apply exp_pos.
  - unfold l. rewrite map_tab. generalize (tab n (fun i => exp (y (r * n + i)))). intros m. induction m; cbn; congruence.
Qed.

Lemma share_le_1 n y i : n <> 0 -> (share n y i <= 1)%R.
Proof.
  intros H. unfold share. pose proof (row_exp_pos n y (i / n) H) as P. apply (Rmult_le_reg_r (row_exp n y (i / n))); [exact P|].
  unfold Rdiv. rewrite Rmult_assoc, Rinv_l, Rmult_1_r, Rmult_1_l by lra. unfold row_exp. rewrite (Nat.div_mod i n H) at 1.
  pose proof (Nat.mod_upper_bound i n H) as U. rewrite (Nat.mul_comm n). generalize (i / n) (i mod n) U. clear. intros r c Hc.
  replace (rsum (tab n (fun j => exp (y (r * n + j))))) with (ArrayProps.rsum (tab n (fun j => exp (y (r * n + j))))).
  - apply rsum_ge_member.
    + intros x Hx. apply in_map_iff in Hx. destruct Hx as (z & <- & _). left. apply exp_pos.
    + apply in_map_iff. exists c. split; [reflexivity|]. apply in_seq. lia.
  - generalize (tab n (fun j => exp (y (r * n + j)))). intros m. induction m; cbn; congruence.
Qed.

Lemma damped_share eps n y i : (0 < eps)%R -> n <> 0 -> (Rabs (damped eps n y i - share n y i) <= eps)%R /\ (0 < damped eps n y i)%R /\
  (damped eps n y i * (1 + eps) >= share n y i)%R /\ (damped eps n y i <= share n y i)%R /\ (0 < share n y i)%R.
Proof.
  intros He Hn. unfold damped, share. pose proof (row_exp_pos n y (i / n) Hn) as Sp. pose proof (largest_bounds n y (i / n) Hn) as Lb.
  assert (Ep := exp_pos (y i)). assert (Mp := exp_pos (largest n y (i / n))).
  set (S := row_exp n y (i / n)) in *. set (M := exp (largest n y (i / n))) in *. set (x := exp (y i)) in *.
  assert (Dp : (0 < S + eps * M)%R) by nra.
  assert (Sh : (0 < x / S)%R) by (apply Rdiv_lt_0_compat; lra).
  assert (Le : (x / (S + eps * M) <= x / S)%R).
  { unfold Rdiv. apply Rmult_le_compat_l; [lra|]. apply Rinv_le_contravar; nra. }
  assert (Ge : (x / (S + eps * M) * (1 + eps) >= x / S)%R).
  { apply Rle_ge. apply (Rmult_le_reg_r (S * (S + eps * M))); [nra|]. field_simplify; [|nra|nra]. assert (x * M <= x * S)%R by nra. nra. }
  split; [|split; [apply Rdiv_lt_0_compat; lra|split; [exact Ge|split; [exact Le|exact Sh]]]].
  pose proof (share_le_1 n y i Hn) as S1. unfold share in S1. fold S x in S1.
  assert (0 < x / (S + eps * M))%R by (apply Rdiv_lt_0_compat; lra). rewrite Rabs_left1 by lra. nra.
Qed.

Section Values.
Variable dbg : bool.
Variable eps : R.
Hypothesis Heps : (0 < eps)%R.

Lemma softmax_of_at p n (i : val R) : fst i = p ++ [n] -> sized i -> prod (fst i) <> 0 -> exists d,
  softmax_of dbg eps i = Some (fst i, d) /\ length d = prod (fst i) /\ n <> 0 /\ prod (fst i) = prod p * n /\
  (forall k, k < prod (fst i) -> nth k d 0%R = damped eps n (fun j => nth j (snd i) 0%R) k).
Proof.
  intros Es Hi Hp. unfold sized in Hi. rewrite Es, prod_app in Hi, Hp |- *. cbn [prod fold_right] in Hi, Hp |- *. rewrite Nat.mul_1_r in *.
  assert (Hn : n <> 0) by nia. assert (Hq : prod p <> 0) by nia.
  set (y := fun j => nth j (snd i) 0%R).
  assert (Hrow : forall r, r < prod p -> slice (snd i) (r * n) n = tab n (fun j => y (r * n + j))).
  { intros r Hr. apply (list_eq_nth_d 0%R); rewrite slice_length by nia; [now rewrite tab_length|]. intros j Hj. rewrite nth_tab by assumption.
    erewrite nth_error_nth; [reflexivity|]. rewrite nth_error_slice by assumption. apply nth_error_nth'. nia. }
  exists (tab2 (prod p) n (fun r c => damped eps n y (r * n + c))). split; [|split; [|split; [|split]]]; try assumption; try reflexivity.
  - unfold softmax_of, softmax, check. cbn [adata ashape]. rewrite Hi, Es, rev_app_distr. cbn [rev app].
    destruct (Nat.eqb_spec (prod p * n) 0) as [Z|_]; [nia|]. cbn [negb]. destruct (Nat.eqb_spec n 0) as [Z|_]; [congruence|].
    rewrite Nat.div_mul by assumption. rewrite skipn_all2 by lia. rewrite app_nil_r.
    assert (E : flat_map (fun k => softmax_row eps (slice (snd i) (k * n) n)) (seq 0 (prod p)) = tab2 (prod p) n (fun r c => damped eps n y (r * n + c))).
    { unfold tab2. rewrite !flat_map_concat_map. f_equal. apply map_ext_in. intros r Hr. apply in_seq in Hr. rewrite Hrow by lia.
      rewrite softmax_row_eq, largest_rmax by assumption. rewrite map_tab. apply tab_ext. intros c Hc. unfold damped. rewrite div_row by assumption.
      assert (T : row_total (tab n (fun j => y (r * n + j))) = (row_exp n y r * exp (- largest n y r))%R).
      { unfold row_total. rewrite largest_rmax by assumption. unfold row_exp. rewrite map_tab. generalize (largest n y r). intros m. unfold tab.
        induction (seq 0 n) as [|a l IH]; cbn [map ArrayProps.rsum LayerSpec.rsum]; [ring|]. rewrite IH. unfold Rminus. rewrite exp_plus. ring. }
      rewrite T. unfold Rminus. rewrite exp_plus. rewrite exp_Ropp. pose proof (exp_pos (largest n y r)). pose proof (row_exp_pos n y r Hn).
      assert (0 < row_exp n y r + eps * exp (largest n y r))%R by nra. field. repeat match goal with |- _ /\ _ => split end; lra. }
    rewrite E. destruct dbg; reflexivity.
  - rewrite tab2_length. reflexivity.
  - intros k Hk. rewrite (Nat.div_mod k n Hn), (Nat.mul_comm n). rewrite nth_tab2; [reflexivity| |now apply Nat.mod_upper_bound].
    apply Nat.div_lt_upper_bound; lia.
Qed.

Lemma label_given smooth n t : label eps smooth n t = given eps smooth n t.
Proof. unfold label, given, above. destruct (Rlt_dec eps t); reflexivity. Qed.

Lemma fold_minus {B} (F : B -> R) l a : fold_left (fun s x => s - F x)%R l a = (a - rsum (map F l))%R.
Proof. revert a. induction l as [|x l IH]; intros a; cbn [fold_left map LayerSpec.rsum]; [ring|]. rewrite IH. ring. Qed.

Lemma map_combine_tab {B} (F : R * R -> B) x y m : length x = m -> length y = m -> map F (combine x y) = tab m (fun i => F (nth i x 0%R, nth i y 0%R)).
Proof.
  intros <-. revert y. induction x as [|a x IH]; intros [|b y] H; cbn [length] in H; try discriminate; [reflexivity|].
  injection H as H. cbn [combine map length]. rewrite IH by assumption. unfold tab. cbn [seq map]. rewrite <- seq_shift, map_map. reflexivity.
Qed.

Lemma map2_tab_nth (F : R -> R -> R) x y m : length x = m -> length y = m -> map2 F x y = tab m (fun i => F (nth i x 0%R) (nth i y 0%R)).
Proof.
  intros <-. revert y. induction x as [|a x IH]; intros [|b y] H; cbn [length] in H; try discriminate; [reflexivity|].
  injection H as H. cbn [map2 length]. rewrite IH by assumption. unfold tab. cbn [seq map]. rewrite <- seq_shift, map_map. reflexivity.
Qed.

Lemma xent_forward_at smooth sh d0 p n target pred : sh = p ++ [n] -> (exists l, sh = d0 :: l) -> length target = prod sh -> length pred = prod sh -> prod sh <> 0 ->
  xent_forward dbg eps smooth (sh, target) (sh, pred) =
    Some ([1], [reported eps d0 (prod p) n (fun i => given eps smooth n (nth i target 0%R)) (fun i => nth i pred 0%R)]).
Proof.
  intros Es (l & E0) Lt Lp Np. destruct (softmax_of_at p n (sh, pred) Es Lp Np) as (d & Ed & Ld & Hn & Hprod & Hd). cbn [fst snd] in *.
  unfold xent_forward. rewrite Ed. cbn [fst snd]. 
  assert (HL : last_dim sh = n) by (unfold last_dim; rewrite Es; apply last_last).
  assert (HM : forall B (f : nat -> B) z, match sh with [] => z | d0 :: _ => f d0 end = f d0) by (intros; now rewrite E0).
  rewrite HM, Ld, Lt, Nat.ltb_irrefl, HL.
  rewrite (fold_minus (fun p => label eps smooth n (fst p) * ln (Rmax eps (snd p)))%R). rewrite (map_combine_tab _ _ _ (prod sh) Lt Ld).
  cbn [fst snd]. unfold reported. do 4 f_equal. rewrite Rminus_0_l. f_equal. rewrite Hprod in *. apply rsum_tab_ext. intros i Hi. now rewrite label_given, Hd.
Qed.

Lemma xent_backward_at smooth sh d0 p n target pred o factor : sh = p ++ [n] -> (exists l, sh = d0 :: l) -> length target = prod sh -> length pred = prod sh -> prod sh <> 0 ->
  xent_backward dbg eps smooth (sh, target) (sh, pred) o ([1], [factor]) =
    Some ((sh, map (fun x => x * factor)%R target),
          (sh, tab (prod sh) (fun i => factor * (damped eps n (fun j => nth j pred 0%R) i - given eps smooth n (nth i target 0%R)))%R)).
Proof.
  intros Es (l & E0) Lt Lp Np. destruct (softmax_of_at p n (sh, pred) Es Lp Np) as (d & Ed & Ld & Hn & Hprod & Hd). cbn [fst snd] in *.
  unfold xent_backward. rewrite Ed. cbn [fst snd]. 
  assert (HL : last_dim sh = n) by (unfold last_dim; rewrite Es; apply last_last).
  assert (HM : forall B (f : nat -> B) z, match sh with [] => z | d0 :: _ => f d0 end = f d0) by (intros; now rewrite E0).
  rewrite HM, Ld, Lt, Nat.ltb_irrefl, HL.
  rewrite skipn_all2 by lia. rewrite app_nil_r. do 3 f_equal. rewrite (map2_tab_nth _ _ _ (prod sh) Lt Ld). apply tab_ext. intros i Hi. now rewrite label_given, Hd.
Qed.
End Values.

(** ** Derivative of the logits *)
Lemma logits_derive rows n lab (Y : R -> nat -> R) t0 dy : n <> 0 -> (forall i, i < rows * n -> is_derive (fun t => Y t i) t0 (dy i)) ->
  is_derive (fun t => logits rows n lab (Y t)) t0 (rsum (tab (rows * n) (fun i => (share n (Y t0) i - lab i) * dy i)%R)).
Proof.
  intros Hn HY. rewrite tab_mul, rsum_tab2. unfold logits.
  apply (is_derive_rsum_tab rows (fun r t => ln (row_exp n (Y t) r) - rsum (tab n (fun j => lab (r * n + j)%nat * Y t (r * n + j)%nat)))%R).
  intros r Hr.
  assert (Hj : forall j, j < n -> is_derive (fun t => Y t (r * n + j)) t0 (dy (r * n + j))) by (intros j Hj; apply HY; nia).
  assert (D1 : is_derive (fun t => row_exp n (Y t) r) t0 (rsum (tab n (fun j => exp (Y t0 (r * n + j)%nat) * dy (r * n + j)%nat)))%R).
  { unfold row_exp. apply (is_derive_rsum_tab n (fun j t => exp (Y t (r * n + j)))). intros j H.
    apply (d_eq _ _ (dy (r * n + j)%nat * exp (Y t0 (r * n + j)%nat))%R); [|ring]. exact (is_derive_comp exp (fun t => Y t (r * n + j)) t0 _ _ (d_exp _) (Hj j H)). }
  assert (D2 : is_derive (fun t => rsum (tab n (fun j => lab (r * n + j)%nat * Y t (r * n + j)%nat)))%R t0 (rsum (tab n (fun j => lab (r * n + j)%nat * dy (r * n + j)%nat)))%R).
  { apply (is_derive_rsum_tab n (fun j t => lab (r * n + j)%nat * Y t (r * n + j)%nat)%R). intros j H. apply is_derive_scal. exact (Hj j H). }
  pose proof (row_exp_pos n (Y t0) r Hn) as P.
  apply (d_eq _ _ (rsum (tab n (fun j => exp (Y t0 (r * n + j)%nat) * dy (r * n + j)%nat)) * / row_exp n (Y t0) r - rsum (tab n (fun j => lab (r * n + j)%nat * dy (r * n + j)%nat)))%R).
  - apply (is_derive_minus (fun t => ln (row_exp n (Y t) r)) (fun t => rsum (tab n (fun j => lab (r * n + j)%nat * Y t (r * n + j)%nat)))%R); [|exact D2].
    exact (is_derive_comp ln (fun t => row_exp n (Y t) r) t0 _ _ (d_ln _ P) D1).
  - unfold Rminus. rewrite Rmult_comm, rsum_scal. rewrite <- (Rmult_1_l (rsum (tab n (fun j => lab (r * n + j)%nat * dy (r * n + j)%nat)))%R).
    rewrite Ropp_mult_distr_l, rsum_scal, <- rsum_tab_plus. apply rsum_tab_ext. intros j H. unfold share. rewrite div_row by assumption. field. lra.
Qed.

