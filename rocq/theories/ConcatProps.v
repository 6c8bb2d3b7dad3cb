(** Property C64: the operator concatenate. *)
From Coq Require Import List Arith Lia Bool PeanoNat ZArith Reals Lra.
From Verif Require Import ListBase TensorModel TensorProofs ArrayModel ArrayProofs GraphModel GraphSpec GradSpec LayerSpec CalcSpec ConcatModel ConcatProofs.
Import ListNotations.
Local Open Scope nat_scope.

(** C64.  backward undoes concatenation: every gradient of the result's shape is cut into two gradients of the operands' shapes whose
    concatenation it is, and what is cut from a concatenation are its parts.  Nothing is said about arithmetic: elements of any type. *)
Theorem C64_backward_inverts : forall (A : Type) (zero : A) dbg axis (l r : arr A) p a b q,
  wf l -> wf r -> ashape l = p ++ a :: q -> ashape r = p ++ b :: q -> names_axis axis (length (p ++ a :: q)) (length p) -> prod (p ++ (a + b) :: q) <> 0 ->
  (forall g, wf g -> ashape g = p ++ (a + b) :: q ->
     exists gl gr, concat_back zero dbg axis l r g = Ok (gl, gr) /\ wf gl /\ wf gr /\ ashape gl = ashape l /\ ashape gr = ashape r /\ concatenate zero dbg gl gr axis = Ok g) /\
  (forall gl gr, wf gl -> wf gr -> ashape gl = ashape l -> ashape gr = ashape r -> exists g, concatenate zero dbg gl gr axis = Ok g /\ concat_back zero dbg axis l r g = Ok (gl, gr)).
Proof.
  intros A zero dbg axis l r p a b q Wl Wr Sl Sr Ax N. assert (N' := N). rewrite prod_app, prod_cons in N'. assert (Np : prod p <> 0) by nia. split.
  - intros g Wg Sg. eexists _, _. split; [apply (back_cuts zero dbg axis p q a b); try assumption; now rewrite Sg|]. unfold wf. cbn [ashape adata]. unfold left_cut at 1, right_cut at 1. rewrite !tab2_length, Sl, Sr, !prod_app, !prod_cons.
    split; [reflexivity|]. split; [reflexivity|]. split; [reflexivity|]. split; [reflexivity|].
    rewrite (forward_joined zero dbg axis p q a b); cbn [ashape adata]; try assumption; try reflexivity.
    + rewrite joined_cuts; [rewrite <- Sg; now destruct g|]. rewrite Wg, Sg, prod_app, prod_cons. lia.
    + unfold wf. cbn [ashape adata]. unfold left_cut. now rewrite tab2_length, prod_app, prod_cons.
    + unfold wf. cbn [ashape adata]. unfold right_cut. now rewrite tab2_length, prod_app, prod_cons.
  - intros gl gr Wgl Wgr Sgl Sgr. assert (Ll : length (adata gl) = prod p * (a * prod q)) by (rewrite Wgl, Sgl, Sl, prod_app, prod_cons; reflexivity).
    assert (Lr : length (adata gr) = prod p * (b * prod q)) by (rewrite Wgr, Sgr, Sr, prod_app, prod_cons; reflexivity).
    eexists. split; [apply (forward_joined zero dbg axis p q a b); congruence|].
    rewrite (back_cuts zero dbg axis p q a b); try assumption; try reflexivity.
    + cbn [adata]. rewrite left_joined, right_joined by assumption. rewrite <- Sgl, <- Sgr. now destruct gl, gr.
    + unfold wf. cbn [ashape adata]. unfold joined. rewrite tab2_length, prod_app, prod_cons. lia.
Qed.
Print Assumptions C64_backward_inverts.

(** With an extent 0 anywhere in the result, backward divides by zero, although the forward pass may succeed. *)
Theorem C64_empty : forall (A : Type) (zero : A) dbg axis (l r : arr A) p a b q g,
  wf l -> wf r -> ashape l = p ++ a :: q -> ashape r = p ++ b :: q -> names_axis axis (length (p ++ a :: q)) (length p) ->
  wf g -> ashape g = p ++ (a + b) :: q -> (concat_back zero dbg axis l r g = UB <-> prod (ashape g) = 0).
Proof.
  intros A zero dbg axis l r p a b q g Wl Wr Sl Sr Ax Wg Sg. split.
  - intros E. destruct (Nat.eq_dec (prod (ashape g)) 0) as [H|H]; [exact H|]. now rewrite (back_cuts zero dbg axis p q a b) in E.
  - intros E. now apply (back_empty zero dbg axis p q a b).
Qed.
Print Assumptions C64_empty.
Theorem C64_empty_refuted : ~ (forall (A : Type) (zero : A) axis (l r g : arr A), wf l -> wf r -> wf g -> concatenate zero true l r axis = Ok g -> concat_back zero true axis l r g <> UB).
Proof. intros H. apply (H Z 0%Z (Some 0) (Arr [1; 0] []) (Arr [2; 0] []) (Arr [3; 0] [])); reflexivity. Qed.
Print Assumptions C64_empty_refuted.

(** The shape announced beforehand is the shape of the result; for an axis equal to the number of dimensions the announcement reads
    behind the end of the shape, for a larger one it announces a shape although the forward pass fails. *)
Theorem C64_shape : forall (A : Type) (zero : A) dbg axis (l r c : arr A), concatenate zero true l r axis = Ok c -> concat_shape dbg axis (ashape l) (ashape r) = Ok (ashape c).
Proof.
  intros A zero dbg axis l r c E. unfold concatenate in E. destruct (Nat.eqb_spec (length (ashape l)) (length (ashape r))) as [El|El]; [|discriminate E]. cbn [negb] in E.
  set (k := pick_axis axis (length (ashape l))) in *. unfold check in E. destruct (Nat.ltb_spec k (length (ashape l))) as [Hk|Hk]; [|discriminate E].
  rewrite (proj2 (Nat.leb_gt _ _)) in E by exact Hk. destruct (list_eqb_spec (firstn k (ashape l)) (firstn k (ashape r))) as [E1|]; [|discriminate E].
  destruct (list_eqb_spec (skipn (S k) (ashape l)) (skipn (S k) (ashape r))) as [E2|]; [|discriminate E].
  match type of E with (if ?x then _ else _) = _ => destruct x; [|discriminate E] end. injection E as <-. cbn [ashape].
  unfold concat_shape. rewrite El, Nat.eqb_refl. cbn [check].
  assert (Ek : match axis with None => length (ashape r) - 1 | Some k => if length (ashape r) <? k then length (ashape r) - 1 else k end = k).
  { unfold k, pick_axis in *. destruct axis as [m|]; [|lia]. now rewrite (proj2 (Nat.ltb_ge _ _)) by lia. }
  rewrite Ek, (proj2 (Nat.ltb_lt _ _)) by lia. reflexivity.
Qed.
Print Assumptions C64_shape.
Theorem C64_shape_beyond : forall (A : Type) (zero : A) dbg (l r : arr A) k, length (ashape l) = length (ashape r) -> ashape l <> [] -> length (ashape l) <= k ->
  concatenate zero true l r (Some k) = Abort /\
  concat_shape dbg (Some k) (ashape l) (ashape r) =
    if k =? length (ashape l) then UB else Ok (removelast (ashape l) ++ [last (ashape l) 0 + last (ashape r) 0]).
Proof.
  intros A zero dbg l r k El Nl Hk. split.
  - unfold concatenate. rewrite El, Nat.eqb_refl. cbn [negb pick_axis]. unfold check. now rewrite (proj2 (Nat.ltb_ge _ _)) by lia.
  - unfold concat_shape. rewrite El, Nat.eqb_refl. cbn [check]. destruct (Nat.eqb_spec k (length (ashape r))) as [->|Nk].
    + rewrite Nat.ltb_irrefl. cbn [andb]. now rewrite Nat.ltb_irrefl.
    + rewrite (proj2 (Nat.ltb_lt _ k)) by lia. destruct (exists_last Nl) as (p & a & Ep). rewrite Ep in *. rewrite app_length in El. cbn [length] in El.
      destruct (exists_last (l := ashape r)) as (p' & b & Er); [intros E0; rewrite E0 in El; cbn in El; lia|]. rewrite Er in *. rewrite app_length in *. cbn [length] in *.
      replace (length p' + 1 - 1) with (length p') by lia. assert (Lp : length p = length p') by lia. rewrite (proj2 (Nat.ltb_lt (length p') (length p' + 1))) by lia. cbn [andb].
      rewrite (nth_at p' [] b), <- Lp, (nth_at p [] a), upd_at, !last_last, removelast_last. reflexivity.
Qed.
Print Assumptions C64_shape_beyond.

(** The operator's rule is right at operands of any shapes that can be concatenated, so back-propagation through expressions with
    concatenations (C27) and training with them (C58-C61) give the derivatives. *)
Theorem C64_gradient : forall dbg axis u v p q a b, sized u -> sized v -> fst u = p ++ a :: q -> fst v = p ++ b :: q -> names_axis axis (length (fst u)) (length p) ->
  prod (p ++ (a + b) :: q) <> 0 -> right2 dbg (op_concat dbg axis) u v.
Proof. intros dbg axis u v p q a b Hu Hv Eu Ev Ax N. rewrite prod_app, prod_cons in N. now apply (concat_right dbg axis u v p q a b). Qed.
Print Assumptions C64_gradient.

Example C64_case :
  let l := Arr [2; 2; 1] [1; 2; 3; 4]%Z in let r := Arr [2; 1; 1] [9; 8]%Z in
  wf l /\ wf r /\ names_axis (Some 1) 3 (length [2]) /\
  concat_back 0%Z true (Some 1) l r (Arr [2; 3; 1] [10; 20; 30; 40; 50; 60]%Z) = Ok (Arr [2; 2; 1] [10; 20; 40; 50]%Z, Arr [2; 1; 1] [30; 60]%Z) /\
  concat_shape true (Some 1) (ashape l) (ashape r) = Ok [2; 3; 1] /\ concat_shape true (Some 3) (ashape l) (ashape r) = UB /\ concat_shape true (Some 4) (ashape l) (ashape r) = Ok [2; 2; 2].
Proof. repeat split. now left. Qed.
Example C64_gradient_case : right2 true (op_concat true None) ([2; 2], [1; 2; 3; 4]%R) ([2; 1], [9; 8]%R).
Proof. apply (C64_gradient true None _ _ [2] [] 2 1); try reflexivity; [now right|discriminate]. Qed.
