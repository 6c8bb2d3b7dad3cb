(** Proofs about scalar arithmetic, copies, reshape, the matrix product and the element-wise product. *)
From Coq Require Import List Arith Lia Bool PeanoNat.
From Verif Require Import ListBase TensorModel TensorSpec TensorProofs.
Import ListNotations.

Lemma fold_seq_inv {S} (f : S -> nat -> S) (inv : nat -> S) n :
  (forall i, i < n -> f (inv i) i = inv (Datatypes.S i)) -> fold_left f (seq 0 n) (inv 0) = inv n.
Proof.
  induction n as [|n IH]; intros H; [reflexivity|].
  rewrite seq_S, fold_left_app. cbn [fold_left plus]. rewrite IH by (intros; apply H; lia). apply H. lia.
Qed.

Section Basic.
Context {A : Type} (zero : A).
Notation heap := (list (list A)).

Lemma data_ok t (h : heap) d : nth_error h (ref t) = Some d -> data t h = Ok (d, h).
Proof. intros E. unfold data. now rewrite E. Qed.

Lemma deep_copy_ok t (h : heap) d :
  nth_error h (ref t) = Some d -> length d = prod (shape t) -> deep_copy zero t h = Ok (mkT (shape t) (length h), h ++ [d]).
Proof.
  intros Hd Hl. unfold deep_copy. rewrite (bind_ok _ _ _ _ _ (data_ok _ _ _ Hd)).
  rewrite (bind_ok _ _ _ _ _ (copy_front_exact d (zeros zero (prod (shape t))) h ltac:(rewrite zeros_length; exact Hl))).
  reflexivity.
Qed.

Lemma upd_last (h : heap) d d' : upd (h ++ [d]) (length h) d' = h ++ [d'].
Proof. apply upd_middle. Qed.

Lemma scalar_op_ok f t (h : heap) d :
  nth_error h (ref t) = Some d -> length d = prod (shape t) ->
  scalar_op zero f t h = Ok (mkT (shape t) (length h), h ++ [map f d]).
Proof.
  intros Hd Hl. unfold scalar_op. rewrite (bind_ok _ _ _ _ _ (deep_copy_ok t h d Hd Hl)).
  unfold map_inplace, bind, data. cbn [ref]. rewrite nth_error_alloc. unfold store. cbn [ref]. rewrite upd_last. reflexivity.
Qed.

Lemma resize_diff t s (h : heap) d :
  nth_error h (ref t) = Some d -> length d <> prod s ->
  resize zero t s h = Ok (mkT s (ref t), upd h (ref t) (zeros zero (prod s))).
Proof.
  intros Hd Hl. unfold resize. rewrite (bind_ok _ _ _ _ _ (data_ok _ _ _ Hd)).
  destruct (Nat.eqb_spec (length d) (prod s)); [contradiction|]. reflexivity.
Qed.
End Basic.

(** ** matrix product *)
Section Gemm.
Context {A : Type} (zero : A) (plus mul : A -> A -> A).

Definition opA (a : list A) (at_ : bool) (m n r i : nat) : A := if at_ then nth (i * m + r) a zero else nth (r * n + i) a zero.
Definition opB (b : list A) (bt : bool) (n k i c : nat) : A := if bt then nth (c * n + i) b zero else nth (i * k + c) b zero.

Definition dotn (a b : list A) (at_ bt : bool) (m n k t r c : nat) : A :=
  fold_left (fun acc i => plus acc (mul (opA a at_ m n r i) (opB b bt n k i c))) (seq 0 t) zero.

Lemma dotn_S a b at_ bt m n k t r c :
  dotn a b at_ bt m n k (S t) r c = plus (dotn a b at_ bt m n k t r c) (mul (opA a at_ m n r t) (opB b bt n k t c)).
Proof. unfold dotn. rewrite seq_S, fold_left_app. reflexivity. Qed.

Definition prog (R I J n : nat) (i j : nat) : nat :=
  if i <? R then n else if i =? R then (if j <? J then S I else I) else 0.

Definition gtab a b at_ bt m n k R I J : list A :=
  tab2 m k (fun i j => dotn a b at_ bt m n k (prog R I J n i j) i j).

Lemma gemm_step_ok a b at_ bt m n k suf R I J :
  m * n <= length a -> n * k <= length b -> R < m -> I < n -> J < k ->
  gemm_step plus mul a b at_ bt m n k (Some (gtab a b at_ bt m n k R I J ++ suf)) R I J
  = Some (gtab a b at_ bt m n k R I (S J) ++ suf).
Proof.
  intros La Lb HR HI HJ. unfold gemm_step, view_index.
  assert (Ha : nth_error a (if at_ then I * m + R else R * n + I) = Some (opA a at_ m n R I)).
  { unfold opA. destruct at_; apply nth_error_nth'; nia. }
  assert (Hb : nth_error b (if bt then J * n + I else I * k + J) = Some (opB b bt n k I J)).
  { unfold opB. destruct bt; apply nth_error_nth'; nia. }
  assert (Hc : nth_error (gtab a b at_ bt m n k R I J ++ suf) (R * k + J) = Some (dotn a b at_ bt m n k I R J)).
  { rewrite nth_error_app1 by (unfold gtab; rewrite tab2_length; nia).
    unfold gtab. rewrite nth_error_tab2 by assumption. unfold prog. rewrite Nat.ltb_irrefl, Nat.eqb_refl, Nat.ltb_irrefl. reflexivity. }
  assert (E : match nth_error a (if at_ then I * m + R else R * n + I) with Some x =>
              match nth_error b (if bt then J * n + I else I * k + J) with Some y =>
              match nth_error (gtab a b at_ bt m n k R I J ++ suf) (R * k + J) with Some z =>
                Some (upd (gtab a b at_ bt m n k R I J ++ suf) (R * k + J) (plus z (mul x y))) | None => None end | None => None end | None => None end
     = Some (gtab a b at_ bt m n k R I (S J) ++ suf)).
  { rewrite Ha, Hb, Hc. f_equal. rewrite <- dotn_S.
    rewrite upd_app1 by (unfold gtab; rewrite tab2_length; nia). f_equal.
    unfold gtab. rewrite !tab2_tab, upd_tab. apply tab_ext. intros p Hp.
    destruct (divmod_lt m k p Hp) as (H1 & H2 & H3).
    destruct (Nat.eqb_spec (R * k + J) p) as [E|N].
    - assert (p / k = R) by (rewrite <- E, Nat.div_add_l by lia; rewrite Nat.div_small by lia; lia).
      assert (p mod k = J) by nia. rewrite H, H0. unfold prog. rewrite Nat.ltb_irrefl, Nat.eqb_refl.
      destruct (Nat.ltb_spec J (S J)); [reflexivity|lia].
    - f_equal. unfold prog. destruct (Nat.ltb_spec (p / k) R); [reflexivity|].
      destruct (Nat.eqb_spec (p / k) R) as [E|]; [|reflexivity].
      assert (p mod k <> J) by (intros G; rewrite E, G in H3; lia).
      destruct (Nat.ltb_spec (p mod k) J), (Nat.ltb_spec (p mod k) (S J)); try reflexivity; lia. }
  destruct at_, bt; exact E.
Qed.

Lemma gtab_J a b at_ bt m n k R I : I < n -> gtab a b at_ bt m n k R I k = gtab a b at_ bt m n k R (S I) 0.
Proof.
  intros HI. unfold gtab. apply tab2_ext. intros i j Hi Hj. f_equal. unfold prog.
  destruct (Nat.ltb_spec j k); [|lia]. reflexivity.
Qed.

Lemma gtab_R a b at_ bt m n k R : gtab a b at_ bt m n k R n 0 = gtab a b at_ bt m n k (S R) 0 0.
Proof.
  unfold gtab. apply tab2_ext. intros i j Hi Hj. f_equal. unfold prog. destruct (Nat.ltb_spec j 0); [lia|].
  destruct (Nat.ltb_spec i R), (Nat.ltb_spec i (S R)); try lia; try reflexivity.
  - destruct (Nat.eqb_spec i R); lia.
  - destruct (Nat.eqb_spec i R); [lia|]. now destruct (i =? S R).
Qed.

Theorem gemm_cpu_ok a b at_ bt m n k c0 :
  m * n <= length a -> (0 < m -> n * k <= length b) -> m * k <= length c0 ->
  gemm_cpu zero plus mul a at_ b bt m n k c0
  = Some (tab2 m k (fun r c => dotn a b at_ bt m n k n r c) ++ skipn (m * k) c0).
Proof.
  intros La Lb Lc. unfold gemm_cpu. destruct (Nat.leb_spec (m * k) (length c0)); [|lia].
  set (suf := skipn (m * k) c0).
  assert (Z : zeros zero (m * k) = gtab a b at_ bt m n k 0 0 0).
  { unfold gtab, zeros. rewrite tab2_tab. apply (list_eq_nth_d zero); rewrite repeat_length; [now rewrite tab_length|].
    intros i Hi. rewrite nth_repeat_same, nth_tab by assumption. unfold prog. cbn [Nat.ltb Nat.leb]. destruct (_ =? 0); reflexivity. }
  rewrite Z.
  assert (E : forall R, R <= m ->
     fold_left (fun c r => fold_left (fun c idx => fold_left (fun c col => gemm_step plus mul a b at_ bt m n k c r idx col)
                                                            (seq 0 k) c) (seq 0 n) c) (seq 0 R)
               (Some (gtab a b at_ bt m n k 0 0 0 ++ suf)) = Some (gtab a b at_ bt m n k R 0 0 ++ suf)).
  { intros R HR. apply (fold_seq_inv _ (fun R => Some (gtab a b at_ bt m n k R 0 0 ++ suf))). intros r Hr.
    rewrite <- gtab_R.
    apply (fold_seq_inv _ (fun I => Some (gtab a b at_ bt m n k r I 0 ++ suf))). intros i Hi.
    rewrite <- gtab_J by assumption.
    apply (fold_seq_inv _ (fun J => Some (gtab a b at_ bt m n k r i J ++ suf))). intros j Hj.
    apply gemm_step_ok; try assumption; lia. }
  rewrite (E m) by lia. do 2 f_equal. unfold gtab. apply tab2_ext. intros i j Hi Hj. unfold prog.
  destruct (Nat.ltb_spec i m); [reflexivity|lia].
Qed.

End Gemm.

Section Multiply.
Context {A : Type} (zero : A) (dbg : bool) (plus mul : A -> A -> A).
Notation heap := (list (list A)).

(** the part of multiply after the operands have been turned into matrices *)
Lemma nth_error_new (h : heap) t d e : nth_error h (ref t) = Some d -> nth_error (h ++ e) (ref t) = Some d.
Proof. apply nth_error_ext. Qed.

Lemma better_assert_true h : better_assert (A:=A) dbg true h = Ok (tt, h).
Proof. reflexivity. Qed.

Lemma zeros_0 : zeros zero 0 = [].
Proof. reflexivity. Qed.

Lemma resize_new (h : heap) s (tail : heap) :
  resize zero (mkT [] (length h)) s (h ++ [[]] ++ tail)
  = Ok (mkT s (length h), h ++ [zeros zero (prod s)] ++ tail).
Proof.
  assert (Hn : nth_error (h ++ [[]] ++ tail) (length h) = Some []).
  { rewrite nth_error_app2 by lia. now rewrite Nat.sub_diag. }
  destruct (Nat.eq_dec 0 (prod s)) as [E|N].
  - rewrite (resize_same zero (mkT [] (length h)) s _ []) by (assumption || exact E). rewrite <- E. reflexivity.
  - rewrite (resize_diff zero (mkT [] (length h)) s _ []) by (assumption || exact N). cbn [ref].
    cbn [app]. rewrite upd_middle. reflexivity.
Qed.

Theorem multiply_2d lhs rhs (h : heap) m n k dl dr :
  shape lhs = [m; n] -> shape rhs = [n; k] ->
  nth_error h (ref lhs) = Some dl -> length dl = m * n ->
  nth_error h (ref rhs) = Some dr -> length dr = n * k ->
  multiply zero dbg plus mul lhs rhs h
  = Ok (mkT [m; k] (length h), h ++ [tab2 m k (fun r c => dotn zero plus mul dl dr false false m n k n r c)]).
Proof.
  intros Sl Sr Hl Ll Hr Lr. unfold multiply.
  rewrite (bind_ok _ _ _ _ _ (eq_refl : new_empty h = Ok (mkT [] (length h), h ++ [[]]))).
  rewrite (bind_ok _ _ _ _ _ (data_ok _ _ _ (nth_error_new _ _ _ _ Hl))).
  rewrite Sl. cbn [length Nat.eqb]. rewrite (bind_ok _ _ _ _ _ (eq_refl : ret lhs _ = Ok (lhs, _))).
  rewrite (bind_ok _ _ _ _ _ (data_ok _ _ _ (nth_error_new _ _ _ _ Hl))).
  rewrite Sr. cbn [length Nat.eqb]. rewrite (bind_ok _ _ _ _ _ (eq_refl : ret rhs _ = Ok (rhs, _))).
  rewrite Sr, Sl. cbn [length Nat.eqb]. rewrite (bind_ok _ _ _ _ _ (better_assert_true _)).
  pose proof (resize_new h [m; k] []) as RN. cbn [app] in RN. rewrite (bind_ok _ _ _ _ _ RN).
  rewrite Nat.eqb_refl. rewrite (bind_ok _ _ _ _ _ (better_assert_true _)).
  rewrite (bind_ok _ _ _ _ _ (data_ok _ _ _ (nth_error_new _ _ _ _ Hl))).
  rewrite (bind_ok _ _ _ _ _ (data_ok _ _ _ (nth_error_new _ _ _ _ Hr))).
  rewrite (bind_ok _ _ _ _ _ (data_ok (mkT [m; k] (length h)) _ _ (nth_error_alloc _ _))).
  rewrite gemm_cpu_ok; [|lia|lia|rewrite zeros_length; cbn [prod fold_right]; lia].
  rewrite skipn_all2 by (rewrite zeros_length; cbn [prod fold_right]; lia). rewrite app_nil_r.
  unfold bind, store, ret. cbn [ref]. now rewrite upd_last.
Qed.

(** a 1-D left operand is a row *)
Theorem multiply_row lhs rhs (h : heap) n k dl dr :
  shape lhs = [n] -> shape rhs = [n; k] ->
  nth_error h (ref lhs) = Some dl -> length dl = n ->
  nth_error h (ref rhs) = Some dr -> length dr = n * k ->
  multiply zero dbg plus mul lhs rhs h
  = Ok (mkT [1; k] (length h), h ++ [tab2 1 k (fun r c => dotn zero plus mul dl dr false false 1 n k n r c)]).
Proof.
  intros Sl Sr Hl Ll Hr Lr.
  rewrite <- (multiply_2d (mkT [1; n] (ref lhs)) rhs h 1 n k dl dr); try assumption; try reflexivity; [|cbn; lia].
  unfold multiply.
  rewrite !(bind_ok _ _ _ _ _ (eq_refl : new_empty h = Ok (mkT [] (length h), h ++ [[]]))).
  rewrite (bind_ok _ _ _ _ _ (data_ok _ _ _ (nth_error_new _ _ _ _ Hl))).
  rewrite (bind_ok _ _ _ _ _ (data_ok (mkT [1; n] (ref lhs)) _ _ (nth_error_new _ _ _ _ Hl))).
  rewrite Sl. cbn [length Nat.eqb shape]. 
  rewrite (bind_ok _ _ _ _ _ (reshape_same zero lhs [1; length dl] _ dl ltac:(discriminate) (nth_error_new _ _ _ _ Hl) ltac:(cbn; lia))).
  rewrite (bind_ok _ _ _ _ _ (eq_refl : ret (mkT [1; n] (ref lhs)) _ = Ok (mkT [1; n] (ref lhs), _))).
  rewrite Ll. reflexivity.
Qed.

(** a 1-D right operand: reshaped to {lhs.size(), 1}.  Any size other than lhs.size() destroys it first. *)
Theorem multiply_vector lhs rhs (h : heap) m n p dl dr :
  shape lhs = [m; n] -> shape rhs = [p] -> ref lhs <> ref rhs ->
  nth_error h (ref lhs) = Some dl -> length dl = m * n ->
  nth_error h (ref rhs) = Some dr -> length dr = p ->
  let dr' := if p =? m * n then dr else zeros zero (m * n) in
  multiply zero dbg plus mul lhs rhs h
  = if dbg && negb (n =? m * n) then Abort
    else Ok (mkT [m; 1] (length h),
             upd h (ref rhs) dr' ++ [tab m (fun r => fold_left (fun acc i => plus acc (mul (nth (r * n + i) dl zero) (nth i dr' zero)))
                                                               (seq 0 n) zero)]).
Proof.
  intros Sl Sr Hne Hl Ll Hr Lr dr'. unfold multiply.
  rewrite (bind_ok _ _ _ _ _ (eq_refl : new_empty h = Ok (mkT [] (length h), h ++ [[]]))).
  rewrite (bind_ok _ _ _ _ _ (data_ok _ _ _ (nth_error_new _ _ _ _ Hl))).
  rewrite Sl. cbn [length Nat.eqb]. rewrite (bind_ok _ _ _ _ _ (eq_refl : ret lhs _ = Ok (lhs, _))).
  rewrite (bind_ok _ _ _ _ _ (data_ok _ _ _ (nth_error_new _ _ _ _ Hl))).
  rewrite Sr. cbn [length Nat.eqb].
  assert (HR : ref rhs < length h) by (apply nth_error_Some; congruence).
  assert (E : reshape zero rhs [length dl; 1] (h ++ [[]]) = Ok (mkT [m * n; 1] (ref rhs), upd h (ref rhs) dr' ++ [[]])).
  { rewrite (reshape_resize zero rhs [length dl; 1] _ dr ltac:(discriminate) (nth_error_new _ _ _ _ Hr)). rewrite Ll. unfold dr'.
    destruct (Nat.eqb_spec p (m * n)) as [E|N].
    - rewrite (resize_same zero rhs _ _ dr (nth_error_new _ _ _ _ Hr)) by (cbn; lia). now rewrite upd_self.
    - rewrite (resize_diff zero rhs _ _ dr (nth_error_new _ _ _ _ Hr)) by (cbn; lia).
      rewrite upd_app1 by assumption. cbn [prod fold_right]. now rewrite !Nat.mul_1_r. }
  rewrite (bind_ok _ _ _ _ _ E). cbn [shape length Nat.eqb]. rewrite Sl.
  rewrite (bind_ok _ _ _ _ _ (better_assert_true _)).
  pose proof (resize_new (upd h (ref rhs) dr') [m; 1] []) as RN. cbn [app] in RN. rewrite upd_length in RN.
  rewrite (bind_ok _ _ _ _ _ RN).
  destruct (dbg && negb (n =? m * n)) eqn:Edbg.
  { apply andb_true_iff in Edbg. destruct Edbg as [E1 E2]. apply negb_true_iff in E2. rewrite E1, E2. reflexivity. }
  assert (EA : forall H, better_assert (A:=A) dbg (n =? m * n) H = Ok (tt, H)).
  { intros H. unfold better_assert. apply andb_false_iff in Edbg. destruct Edbg as [->|E2]; [now destruct (n =? m * n)|].
    apply negb_false_iff in E2. now rewrite E2. }
  rewrite (bind_ok _ _ _ _ _ (EA _)).
  assert (Hl' : nth_error (upd h (ref rhs) dr') (ref lhs) = Some dl) by (rewrite nth_error_upd_other; congruence).
  assert (Hr' : nth_error (upd h (ref rhs) dr') (ref rhs) = Some dr') by (now apply nth_error_upd_same).
  rewrite (bind_ok _ _ _ _ _ (data_ok _ _ _ (nth_error_new _ _ _ _ Hl'))).
  rewrite (bind_ok _ _ _ _ _ (data_ok (mkT [m * n; 1] (ref rhs)) _ _ (nth_error_new _ rhs _ _ Hr'))).
  assert (Hz : nth_error (upd h (ref rhs) dr' ++ [zeros zero (prod [m; 1])]) (length h) = Some (zeros zero (prod [m; 1]))).
  { rewrite <- (upd_length h (ref rhs) dr'). apply nth_error_alloc. }
  rewrite (bind_ok _ _ _ _ _ (data_ok (mkT [m; 1] (length h)) _ _ Hz)).
  assert (Ldr : length dr' = m * n) by (unfold dr'; destruct (Nat.eqb_spec p (m * n)); [congruence|apply zeros_length]).
  rewrite gemm_cpu_ok; [|lia|intros; nia|rewrite zeros_length; cbn [prod fold_right]; lia].
  rewrite skipn_all2 by (rewrite zeros_length; cbn [prod fold_right]; lia). rewrite app_nil_r.
  unfold bind, store, ret. cbn [ref].
  assert (EU : forall c, upd (upd h (ref rhs) dr' ++ [zeros zero (prod [m; 1])]) (length h) c = upd h (ref rhs) dr' ++ [c]).
  { intros c. rewrite <- (upd_length h (ref rhs) dr') at 1. apply upd_last. }
  rewrite EU. do 5 f_equal. rewrite tab2_tab, Nat.mul_1_r. apply tab_ext. intros r _.
  rewrite Nat.div_1_r, Nat.mod_1_r. unfold dotn, opA, opB.
  assert (EF : forall l acc, fold_left (fun acc i => plus acc (mul (nth (r * n + i) dl zero) (nth (i * 1 + 0) dr' zero))) l acc
             = fold_left (fun acc i => plus acc (mul (nth (r * n + i) dl zero) (nth i dr' zero))) l acc).
  { induction l; intros acc; [reflexivity|]. cbn [fold_left]. rewrite IHl. do 4 f_equal. lia. }
  apply EF.
Qed.

End Multiply.

(** ** element-wise product *)
Section Product.
Context {A : Type} (zero : A) (dbg : bool) (mul : A -> A -> A).
Notation heap := (list (list A)).

Lemma product_loop_ok (l r : list A) reps :
  length r <> 0 -> reps * length r <= length l ->
  product_loop zero mul l r reps
  = tab (length l) (fun p => if p <? reps * length r then mul (nth p l zero) (nth (p mod length r) r zero) else nth p l zero).
Proof.
  intros Hr Hle. unfold product_loop. set (n := length r).
  set (T q := tab (length l) (fun p => if p <? q then mul (nth p l zero) (nth (p mod n) r zero) else nth p l zero)).
  assert (E0 : l = T 0). { unfold T. cbn [Nat.ltb]. rewrite <- (tab_nth zero l) at 1. apply tab_ext. intros. now destruct (Nat.ltb_spec i 0); [lia|]. }
  rewrite E0 at 1.
  apply (fold_seq_inv _ (fun i => T (i * n))). intros i Hi.
  replace (T (i * n)) with (T (i * n + 0)) by (f_equal; lia).
  replace (T (S i * n)) with (T (i * n + n)) by (f_equal; lia).
  apply (fold_seq_inv _ (fun j => T (i * n + j))). intros j Hj. cbn zeta.
  assert (Hp : i * n + j < length l) by nia.
  unfold T. rewrite upd_tab, nth_tab by assumption. apply tab_ext. intros p Hpl.
  destruct (Nat.ltb_spec (i * n + j) (i * n + j)); [lia|].
  destruct (Nat.eqb_spec (i * n + j) p) as [<-|Ne].
  - destruct (Nat.ltb_spec (i * n + j) (i * n + S j)); [|lia].
    rewrite Nat.add_comm, Nat.mod_add, Nat.mod_small by lia. reflexivity.
  - destruct (Nat.ltb_spec p (i * n + j)), (Nat.ltb_spec p (i * n + S j)); try reflexivity; lia.
Qed.

Lemma product_ordered_ok lhs rhs (h : heap) dl dr q :
  nth_error h (ref lhs) = Some dl -> length dl = prod (shape lhs) ->
  nth_error h (ref rhs) = Some dr -> length dr <> 0 -> length dl = q * length dr ->
  elementwise_product_ordered zero dbg mul lhs rhs h
  = Ok (mkT (shape lhs) (length h), h ++ [tab (length dl) (fun p => mul (nth p dl zero) (nth (p mod length dr) dr zero))]).
Proof.
  intros Hl Ll Hr Nr Q. unfold elementwise_product_ordered.
  rewrite (bind_ok _ _ _ _ _ (data_ok _ _ _ Hl)), (bind_ok _ _ _ _ _ (data_ok _ _ _ Hr)).
  destruct (Nat.eqb_spec (length dr) 0); [contradiction|].
  assert (Eq : length dl / length dr = q) by (rewrite Q; now apply Nat.div_mul). rewrite Eq.
  replace (length dr * q =? length dl) with true by (symmetry; apply Nat.eqb_eq; lia).
  rewrite (bind_ok _ _ _ _ _ (eq_refl : better_assert dbg true h = Ok (tt, h))).
  rewrite (bind_ok _ _ _ _ _ (deep_copy_ok zero lhs h dl Hl Ll)).
  rewrite (bind_ok _ _ _ _ _ (data_ok (mkT (shape lhs) (length h)) _ _ (nth_error_alloc _ _))).
  rewrite (bind_ok _ _ _ _ _ (data_ok rhs _ _ (nth_error_ext _ _ _ _ Hr))).
  unfold bind, store, ret. cbn [ref]. rewrite upd_last. rewrite product_loop_ok by (assumption || lia).
  do 4 f_equal. apply tab_ext. intros p Hp. now destruct (Nat.ltb_spec p (q * length dr)); [|lia].
Qed.

End Product.
