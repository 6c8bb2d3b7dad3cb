(** C68: sliding_2d. *)
From Coq Require Import List Arith Lia Bool PeanoNat ZArith Reals Lra.
From Verif Require Import ListBase Loops TensorModel ArrayModel ArrayProofs LayerModel LayerSpec LayerProofs LayerProofs2 SlideModel SlideSpec SlideProofs.
Import ListNotations.
Local Open Scope nat_scope.

(** One operator through any sequence of learning passes and predictions on inputs of one shape: a learning pass moves every
    channel by the numbers drawn for it, a prediction returns its input. *)
Theorem C68_forward : forall (A : Type) (zero : A) dbg p n r c k (h : list (bool * (nat -> Z) * arr A)),
  r <> 0 -> c <> 0 ->
  Forall (fun t => wf (snd t) /\ ashape (snd t) = [n; r; c; k] /\ within p (snd (fst t))) h ->
  exists s ys, slidings zero dbg p new_slider h = Ok (s, ys) /\
    Forall2 (fun (t : bool * (nat -> Z) * arr A) y =>
      if fst (fst t) then slid zero (rows (snd (fst t))) (cols (snd (fst t))) (snd t) y else y = snd t) h ys.
Proof.
  intros A zero dbg p n r c k h Hr Hc F.
  destruct (slidings_ok zero dbg p n r c k h Hr Hc F new_slider (clean_nil zero p n r c k)) as (s & ys & E & V & _).
  exists s, ys. auto.
Qed.
Print Assumptions C68_forward.

(** backward after any such sequence is the adjoint of the shift of the LAST LEARNING pass, also when predictions came after
    it; before the first learning pass it reads out of range. *)
Theorem C68_backward : forall dbg p n r c k (h : list (bool * (nat -> Z) * arr R)) s ys g,
  n <> 0 -> r <> 0 -> c <> 0 -> k <> 0 -> h <> [] ->
  Forall (fun t => wf (snd t) /\ ashape (snd t) = [n; r; c; k] /\ within p (snd (fst t))) h ->
  slidings 0%R dbg p new_slider h = Ok (s, ys) -> wf g -> ashape g = [n; r; c; k] ->
  match last_draws h with
  | Some d => exists b, sliding_bwd 0%R p s g = Ok b /\ wf b /\ ashape b = [n; r; c; k] /\
      forall x y, wf x -> ashape x = [n; r; c; k] -> slid 0%R (rows d) (cols d) x y -> inner (adata b) (adata x) = inner (adata g) (adata y)
  | None => sliding_bwd 0%R p s g = UB
  end.
Proof.
  intros dbg p n r c k h s ys g Hn Hr Hc Hk Hh F E W Eg.
  destruct (slidings_ok 0%R dbg p n r c k h Hr Hc F new_slider (clean_nil 0%R p n r c k)) as (s' & ys' & E' & _ & S & K).
  rewrite E' in E. injection E as -> ->. destruct (K Hh) as (K1 & K2). clear K.
  destruct (last_draws h) as [ d | ] eqn:D.
  - assert (Wd : within p d).
    { clear - F D. revert D. induction F as [ | ((l, e), x) h (_ & _ & Hx) F IH ]; cbn [last_draws]; [ discriminate | ].
      destruct (last_draws h); [ auto | ]. destruct l; [ | discriminate ]. intros [= <-]. exact Hx. }
    destruct (sliding_bwd_ok p s d g n r c k W Eg Wd K1 K2 S) as (b & Eb & Lb & Vb).
    exists (Arr [n; r; c; k] b). split; [assumption|]. split; [exact Lb|]. split; [reflexivity|]. intros x y Wx Ex Hs.
    destruct (slid_at _ _ x y n r c k Hs Ex) as (Ey & Wy & Vy). cbn [adata].
    apply (slide_adjoint n r c k (rows d) (cols d)); try assumption; now apply wf4.
  - unfold sliding_bwd.
    destruct (crop_bwd_ok 0%R p p p p (crop_in s) g n r c k K2 W Eg) as (d1 & E1 & L1 & _). cbv zeta in *.
    rewrite E1. cbn [obind]. unfold slide_bwd. cbn [ashape]. rewrite S. cbn [new_slider shifts length].
    replace (0 <? k) with true by (symmetry; apply Nat.ltb_lt; lia). replace (n =? 0) with false by (symmetry; now apply Nat.eqb_neq).
    reflexivity.
Qed.
Print Assumptions C68_backward.

Module Case.
Definition down : nat -> Z := fun j => if j =? 0 then 1%Z else 0%Z.      (* one row down, no column *)
Definition img : arr R := Arr [1; 2; 1; 1] [3; 4]%R.

Lemma down_within : within 1 down.
Proof. intros j. unfold down. destruct (j =? 0); cbn; lia. Qed.

(* a learning pass with one row down, then a prediction *)
Example two_passes :
  slidings 0%Z true 1 new_slider [(true, down, Arr [1; 2; 1; 1] [3; 4]%Z); (false, down, Arr [1; 2; 1; 1] [3; 4]%Z)]
  = Ok (Slider [0; 0; 0; 0; 3; 0; 0; 4; 0; 0; 0; 0]%Z [(1, 0)]%Z [3; 4]%Z (Arr [1; 2; 1; 1] [3; 4]%Z)
          (Arr [1; 4; 3; 1] [0; 0; 0; 0; 3; 0; 0; 4; 0; 0; 0; 0]%Z),
        [Arr [1; 2; 1; 1] [0; 3]%Z; Arr [1; 2; 1; 1] [3; 4]%Z]).
Proof. reflexivity. Qed.

Lemma img_fits l : wf img /\ ashape img = [1; 2; 1; 1] /\ within 1 (snd (fst (l : bool, down, img))).
Proof. split; [reflexivity|]. split; [reflexivity|]. exact down_within. Qed.
End Case.

(** "backward is the adjoint of the last forward pass": refuted by a prediction after a learning pass. *)
Theorem C68_backward_refuted : exists dbg p (h : list (bool * (nat -> Z) * arr R)) x s ys g b,
  slidings 0%R dbg p new_slider (h ++ [(false, fun _ => 0%Z, x)]) = Ok (s, ys ++ [x]) /\
  sliding_bwd 0%R p s g = Ok b /\ inner (adata b) (adata x) <> inner (adata g) (adata x).
Proof.
  exists true, 1, [(true, Case.down, Case.img)], Case.img.
  exists (Slider [0; 0; 0; 0; 3; 0; 0; 4; 0; 0; 0; 0]%R [(1, 0)]%Z [3; 4]%R Case.img
          (Arr [1; 4; 3; 1] [0; 0; 0; 0; 3; 0; 0; 4; 0; 0; 0; 0]%R)).
  exists [Arr [1; 2; 1; 1] [0; 3]%R], (Arr [1; 2; 1; 1] [1; 0]%R), (Arr [1; 2; 1; 1] [0; 0]%R).
  split; [ vm_compute; reflexivity | ]. split; [ vm_compute; reflexivity | ].
  unfold inner, Case.img. cbn [adata map2 rsum]. lra.
Qed.
Print Assumptions C68_backward_refuted.
