(** Proofs about one optimiser step on the variables. *)
From Coq Require Import List Arith Lia Bool PeanoNat Reals Lra.
From Verif Require Import ListBase TensorModel TensorSpec TensorProofs GraphModel OptModel OptSpec.
Import ListNotations.
Local Open Scope nat_scope.

Lemma obnd_ok {S T} (m : O S) (f : S -> O T) w v w' : m w = Ok (v, w') -> obnd m f w = f v w'.
Proof. intros H. unfold obnd. now rewrite H. Qed.

Lemma on_heap_ok {T} (m : M (A:=R) T) w v h : m (hp (gr w)) = Ok (v, h) -> on_heap m w = Ok (v, W (set_hp (gr w) h) (ctx w)).
Proof. intros H. unfold on_heap, on_graph, heaply. now rewrite H. Qed.

Lemma nth_error_live {A} (l : list (list A)) r : r < length l -> nth_error l r = Some (nth r l []).
Proof. intros H. now apply nth_error_nth'. Qed.

Lemma nth_error_nth_eq {A} (l l' : list A) r d : nth_error l r = nth_error l' r -> nth r l d = nth r l' d.
Proof.
  intros H. destruct (nth_error l r) as [x|] eqn:E.
  - rewrite (nth_error_nth _ _ d E). symmetry in H. now rewrite (nth_error_nth _ _ d H).
  - symmetry in H. apply nth_error_None in E, H. now rewrite !nth_overflow.
Qed.

Lemma each_ok lead t u v f h n : ref lead < length h -> ref t < length h -> ref u < length h -> ref v < length h ->
  length (nth (ref lead) h []) = n -> length (nth (ref t) h []) = n -> length (nth (ref u) h []) = n -> length (nth (ref v) h []) = n ->
  each lead t u v f h = Ok (tt, upd h (ref t) (tab n (fun i => f (nth i (nth (ref t) h []) 0%R) (nth i (nth (ref u) h []) 0%R) (nth i (nth (ref v) h []) 0%R)))).
Proof.
  intros L1 L2 L3 L4 E1 E2 E3 E4. unfold each, bind, data. rewrite !nth_error_live by assumption. rewrite E1, E2, E3, E4, Nat.leb_refl. cbn [andb].
  unfold store. rewrite skipn_all2 by lia. now rewrite app_nil_r.
Qed.

Lemma zip_inplace_ok dbg f t u h n : shape t = shape u -> ref t < length h -> ref u < length h ->
  length (nth (ref t) h []) = n -> length (nth (ref u) h []) = n ->
  zip_inplace dbg f t u h = Ok (tt, upd h (ref t) (tab n (fun i => f (nth i (nth (ref t) h []) 0%R) (nth i (nth (ref u) h []) 0%R)))).
Proof.
  intros Hs L1 L2 E1 E2. unfold zip_inplace, bind, better_assert, data. rewrite Hs.
  assert (Q : list_eqb (shape u) (shape u) = true). { clear. induction (shape u) as [|x l IH]; [reflexivity|]. cbn. now rewrite Nat.eqb_refl. }
  rewrite Q, !nth_error_live by assumption. rewrite E1, E2, Nat.leb_refl. unfold store. f_equal. f_equal. f_equal.
  apply (list_eq_nth_d 0%R). { rewrite map2_length, tab_length. lia. }
  intros i Hi. rewrite map2_length in Hi. rewrite nth_tab by lia. apply nth_map2; lia.
Qed.

Lemma reset_ok t h n : ref t < length h -> length (nth (ref t) h []) = n -> reset t 0%R h = Ok (tt, upd h (ref t) (repeat 0%R n)).
Proof.
  intros L E. unfold reset, map_inplace, bind, data. rewrite nth_error_live by assumption. unfold store. f_equal. f_equal. f_equal.
  rewrite <- E. clear. induction (nth (ref t) h []) as [|x l IH]; [reflexivity|]. cbn. now rewrite IH.
Qed.

Lemma scalar_ok t f h n : ref t < length h -> length (nth (ref t) h []) = n -> prod (shape t) = n ->
  scalar_op 0%R f t h = Ok (mkT (shape t) (length h), h ++ [tab n (fun i => f (nth i (nth (ref t) h []) 0%R))]).
Proof.
  intros L E P. unfold scalar_op, bind, deep_copy, bind, data. rewrite nth_error_live by assumption.
  unfold copy_front, zeros. rewrite repeat_length, E, P, Nat.leb_refl. unfold ret, alloc, map_inplace, bind, data. cbn [ref].
  rewrite nth_error_app2 by lia. rewrite Nat.sub_diag. cbn [nth_error]. unfold store. cbn [ref]. f_equal. f_equal.
  rewrite skipn_all2 by (rewrite repeat_length; lia). rewrite app_nil_r.
  apply (list_eq_nth_d []). { rewrite upd_length, !app_length. reflexivity. }
  intros i Hi. rewrite upd_length, app_length in Hi. cbn in Hi. rewrite nth_upd by (rewrite app_length; cbn; lia).
  destruct (Nat.eqb_spec (length h) i) as [<-|N].
  - rewrite app_nth2 by lia. rewrite Nat.sub_diag. cbn [nth]. rewrite <- E.
    apply (list_eq_nth_d 0%R). { now rewrite map_length, tab_length. }
    intros j Hj. rewrite map_length in Hj. rewrite nth_tab by lia. rewrite nth_indep with (d' := f 0%R) by now rewrite map_length. now rewrite map_nth.
  - rewrite !app_nth1 by lia. reflexivity.
Qed.

Lemma each_to lead t u v f F h n : ref lead < length h -> ref t < length h -> ref u < length h -> ref v < length h ->
  length (nth (ref lead) h []) = n -> length (nth (ref t) h []) = n -> length (nth (ref u) h []) = n -> length (nth (ref v) h []) = n ->
  (forall i, i < n -> f (nth i (nth (ref t) h []) 0%R) (nth i (nth (ref u) h []) 0%R) (nth i (nth (ref v) h []) 0%R) = F i) ->
  each lead t u v f h = Ok (tt, upd h (ref t) (tab n F)).
Proof. intros. rewrite (each_ok lead t u v f h n) by assumption. now rewrite (tab_ext n _ F). Qed.

Lemma zip_to dbg f F t u h n : shape t = shape u -> ref t < length h -> ref u < length h ->
  length (nth (ref t) h []) = n -> length (nth (ref u) h []) = n ->
  (forall i, i < n -> f (nth i (nth (ref t) h []) 0%R) (nth i (nth (ref u) h []) 0%R) = F i) ->
  zip_inplace dbg f t u h = Ok (tt, upd h (ref t) (tab n F)).
Proof. intros. rewrite (zip_inplace_ok dbg f t u h n) by assumption. now rewrite (tab_ext n _ F). Qed.

(** the worlds before and after an update of v differ only in v's storages *)
Definition only (v : nat) (w w' : world) : Prop :=
  exists h', gr w' = set_hp (gr w) h' /\ length (hp (gr w)) <= length h' /\
    (forall v', v' <> v -> ctx w' v' = ctx w v') /\
    (forall r, r < length (hp (gr w)) -> ~ In r (foot w v) -> nth_error h' r = nth_error (hp (gr w)) r) /\
    (forall r, In r (foot w' v) -> In r (foot w v) \/ length (hp (gr w)) <= r).

Section Update.
Variable dbg : bool.
Variable eps : R.
Variables (a : algo) (lr : R) (it : nat).
Notation update_var := (update_var dbg eps a lr it).

Lemma foot_heap w v h : foot (W (set_hp (gr w) h) (ctx w)) v = foot w v.
Proof. reflexivity. Qed.

(** tidy after the storages' contents changed *)
Lemma tidy_heap w v h : tidy w v -> length (hp (gr w)) <= length h -> (forall r, In r (foot w v) -> length (nth r h []) = count w v) ->
  tidy (W (set_hp (gr w) h) (ctx w)) v.
Proof.
  intros [T1 T2 T3 T4] L H. constructor; auto. intros r Hr. rewrite foot_heap in Hr. destruct (T3 r Hr) as [T5 _]. cbn. split; [lia|]. now apply H.
Qed.

Lemma only_heap w v h : length (hp (gr w)) <= length h ->
  (forall r, r < length (hp (gr w)) -> ~ In r (foot w v) -> nth_error h r = nth_error (hp (gr w)) r) -> only v w (W (set_hp (gr w) h) (ctx w)).
Proof. intros L H. exists h. split; [reflexivity|]. split; [assumption|]. split; [auto|]. split; [assumption|]. auto. Qed.

Lemma memory_same w h p (l : list tensor) : (forall t, In t l -> nth (ref t) h [] = elements w t) ->
  map (fun t => nth p (nth (ref t) h []) 0%R) l = map (fun t => nth p (elements w t) 0%R) l.
Proof. intros H. apply map_ext_in. intros t Ht. now rewrite H. Qed.


(** what an update has to achieve *)
Definition updated (w : world) (v : nat) : Prop :=
  exists w', update_var v w = Ok (tt, w') /\ only v w w' /\ tidy w' v /\ moved a eps lr it w w' v.

(** an update that writes only to v's storages: it is enough to know the final heap *)
Lemma updated_heap w v h : tidy w v -> needed a <= length (ctx w v) -> (ctx w v = [] -> created a = 0) ->
  update_var v w = Ok (tt, W (set_hp (gr w) h) (ctx w)) -> length (hp (gr w)) <= length h ->
  (forall r, r < length (hp (gr w)) -> ~ In r (foot w v) -> nth_error h r = nth_error (hp (gr w)) r) ->
  (forall r, In r (foot w v) -> length (nth r h []) = count w v) ->
  nth (ref (vgrad (vars (gr w) v))) h [] = repeat 0%R (count w v) ->
  (forall p, p < count w v ->
    (map (fun t => nth p (nth (ref t) h []) 0%R) (ctx w v), nth p (nth (ref (vdata (vars (gr w) v))) h []) 0%R) =
    move a eps lr it (memory w v p) (nth p (weights w v) 0%R) (nth p (gradient w v) 0%R)) ->
  updated w v.
Proof.
  intros T N Cr E L F Hl Hg Hm. exists (W (set_hp (gr w) h) (ctx w)). split; [exact E|]. split; [now apply only_heap|]. split; [now apply tidy_heap|].
  constructor.
  - apply (Hl (ref (vdata (vars (gr w) v)))). unfold foot. cbn; tauto.
  - intros p Hp. assert (Q : memory_or_new a w v p = memory w v p).
    { unfold memory_or_new. destruct (ctx w v) eqn:C; [|reflexivity]. unfold memory. rewrite C. now rewrite (Cr eq_refl). }
    rewrite Q. exact (Hm p Hp).
  - exact Hg.
  - cbn [ctx]. destruct (ctx w v) eqn:C; [|reflexivity]. now rewrite (Cr eq_refl).
Qed.

End Update.

Ltac heap_step := erewrite obnd_ok by (apply on_heap_ok; first [eapply each_ok | eapply zip_inplace_ok | eapply scalar_ok | eapply reset_ok]).

Ltac distinct :=
  repeat match goal with
  | H : ?x <> ?y |- context [Nat.eqb ?x ?y] => rewrite (proj2 (Nat.eqb_neq x y) H)
  | H : ?x <> ?y |- context [Nat.eqb ?y ?x] => rewrite (proj2 (Nat.eqb_neq y x) (not_eq_sym H))
  | |- context [Nat.eqb ?x ?x] => rewrite (Nat.eqb_refl x)
  end.
Ltac peek := repeat (rewrite nth_upd by (rewrite ?upd_length; assumption); distinct).

Ltac peek2 := repeat (rewrite nth_upd by (rewrite ?upd_length; assumption)); distinct.

(** names for the parts of a tidy variable with at least one auxiliary tensor *)
Ltac unpack T C :=
  pose proof T as [T1 T2 T3 T4]; unfold foot in T3, T4; cbn [gr ctx] in T1, T2, T3, T4; rewrite C in T2, T3, T4; cbn [map] in T3, T4.

Ltac contexts C :=
  match goal with |- context [W ?s ?c] =>
    rewrite (obnd_ok _ _ _ tt (W s c)) by (unfold create; cbn [ctx]; now rewrite C);
    erewrite (obnd_ok _ _ _ _ (W s c)) by (unfold context; cbn [ctx]; rewrite C; reflexivity)
  end.

Section Algos.
Variable dbg : bool.
Variable eps : R.

(** after the common prologue: the variable's body has to lead to heap hb, with gradient gb; then the gradient is reset *)
Lemma body_updated a lr it s c v m rest hb body :
  (match a with Descent _ => False | _ => True end) ->
  tidy (W s c) v -> c v = m :: rest -> needed a <= length (m :: rest) ->
  update_var dbg eps a lr it v (W s c) = obnd body (fun _ => on_heap (reset (vgrad (vars s v)) 0%R)) (W s c) ->
  body (W s c) = Ok (tt, W (set_hp s hb) c) -> length hb = length (hp s) ->
  (forall r, ~ In r (foot (W s c) v) -> nth_error hb r = nth_error (hp s) r) ->
  (forall r, In r (foot (W s c) v) -> length (nth r hb []) = count (W s c) v) ->
  (forall p, p < count (W s c) v ->
    (map (fun t => nth p (nth (ref t) hb []) 0%R) (m :: rest), nth p (nth (ref (vdata (vars s v))) hb []) 0%R) =
    move a eps lr it (map (fun t => nth p (nth (ref t) (hp s) []) 0%R) (m :: rest)) (nth p (nth (ref (vdata (vars s v))) (hp s) []) 0%R)
      (nth p (nth (ref (vgrad (vars s v))) (hp s) []) 0%R)) ->
  updated dbg eps a lr it (W s c) v.
Proof.
  intros Na T C N E B L F Hl Hm. pose proof T as [T1 T2 T3 T4].
  set (rg := ref (vgrad (vars s v))) in *. set (n := count (W s c) v) in *.
  assert (Hg : In rg (foot (W s c) v)) by (now left). destruct (T3 rg Hg) as [Lg Eg]. cbn [gr] in Lg.
  assert (Nn : forall r, In r (ref (vdata (vars s v)) :: map ref (c v)) -> r <> rg).
  { intros r Hr ->. unfold foot in T4. cbn [gr ctx] in T4. inversion T4 as [|? ? Nr]. now apply Nr. }
  assert (Same : forall r, In r (ref (vdata (vars s v)) :: map ref (c v)) -> nth r (upd hb rg (repeat 0%R n)) [] = nth r hb []).
  { intros r Hr. rewrite nth_upd by lia. now rewrite (proj2 (Nat.eqb_neq rg r) (not_eq_sym (Nn r Hr))). }
  apply (updated_heap dbg eps a lr it (W s c) v (upd hb rg (repeat 0%R n)) T); cbn [ctx gr]; rewrite ?upd_length; try lia.
  - rewrite C. exact N.
  - rewrite C. discriminate.
  - rewrite E, (obnd_ok _ _ _ _ _ B). rewrite (on_heap_ok _ _ tt (upd hb rg (repeat 0%R n))); [reflexivity|].
    cbn [gr hp set_hp]. apply reset_ok; [fold rg; lia|]. now apply Hl.
  - intros r Hr Nr. rewrite nth_error_upd_other; [now apply F|]. intros <-. now apply Nr.
  - intros r Hr. rewrite nth_upd by lia. destruct (Nat.eqb_spec rg r); [apply repeat_length|now apply Hl].
  - fold rg n. rewrite nth_upd by lia. now rewrite Nat.eqb_refl.
  - intros p Hp. specialize (Hm p Hp). unfold memory, weights, gradient, elements. cbn [gr ctx]. fold rg n in Hm |- *. rewrite C.
    rewrite Same by now left. rewrite <- Hm. f_equal. apply map_ext_in. intros t Ht. rewrite Same; [reflexivity|]. right. rewrite C. now apply in_map.
Qed.

Lemma rest_same {A} (l : list tensor) (h h' : list A) d (f : A -> R) : (forall r, In r (map ref l) -> nth r h' d = nth r h d) ->
  map (fun t => f (nth (ref t) h' d)) l = map (fun t => f (nth (ref t) h d)) l.
Proof. intros H. apply map_ext_in. intros t Ht. rewrite H; [reflexivity|]. now apply in_map. Qed.

(** with one auxiliary tensor m: new elements M for it and D for the variable *)
Lemma one_updated a lr it s c v m rest hb body M D :
  (match a with Descent _ => False | _ => True end) -> needed a = 1 ->
  tidy (W s c) v -> c v = m :: rest ->
  update_var dbg eps a lr it v (W s c) = obnd body (fun _ => on_heap (reset (vgrad (vars s v)) 0%R)) (W s c) ->
  body (W s c) = Ok (tt, W (set_hp s hb) c) -> length hb = length (hp s) ->
  nth (ref m) hb [] = tab (count (W s c) v) M -> nth (ref (vdata (vars s v))) hb [] = tab (count (W s c) v) D ->
  length (nth (ref (vgrad (vars s v))) hb []) = count (W s c) v ->
  (forall r, r <> ref m -> r <> ref (vdata (vars s v)) -> r <> ref (vgrad (vars s v)) -> nth_error hb r = nth_error (hp s) r) ->
  (forall p cs, p < count (W s c) v ->
    move a eps lr it (nth p (nth (ref m) (hp s) []) 0%R :: cs) (nth p (nth (ref (vdata (vars s v))) (hp s) []) 0%R)
      (nth p (nth (ref (vgrad (vars s v))) (hp s) []) 0%R) = (M p :: cs, D p)) ->
  updated dbg eps a lr it (W s c) v.
Proof.
  intros Na Ne T C E B L Hm Hd Hg F Hmv.
  unpack T C. set (rg := ref (vgrad (vars s v))) in *. set (rd := ref (vdata (vars s v))) in *. set (n := count (W s c) v) in *.
  inversion T4 as [|? ? Ng T5]; subst. inversion T5 as [|? ? Nd T6]; subst. inversion T6 as [|? ? Nm T7]; subst. clear T4 T5 T6.
  assert (R : forall r, In r (map ref rest) -> nth_error hb r = nth_error (hp s) r).
  { intros r Hr. apply F; intros ->; [now apply Nm|apply Nd; now right|apply Ng; right; now right]. }
  apply (body_updated _ _ _ s c v m rest hb body); auto.
  - rewrite Ne. cbn. lia.
  - unfold foot. cbn [gr ctx]. rewrite C. cbn [map]. fold rg rd. intros r Nr. apply F; intros ->; apply Nr; cbn; tauto.
  - unfold foot. cbn [gr ctx]. rewrite C. cbn [map]. fold rg rd n. intros r Hr.
    destruct Hr as [<-|[<-|[<-|Hr]]]; [exact Hg|rewrite Hd; apply tab_length|rewrite Hm; apply tab_length|].
    destruct (T3 r ltac:(cbn; tauto)) as [_ E3]. rewrite <- E3. f_equal. apply nth_error_nth_eq. now apply R.
  - intros p Hp. fold rd rg n in Hmv |- *. cbn [map]. rewrite Hmv by assumption. rewrite Hm, Hd, !nth_tab by assumption. f_equal. f_equal.
    apply (rest_same rest (hp s) hb [] (fun l => nth p l 0%R)). intros r Hr. apply nth_error_nth_eq. now apply R.
Qed.

Lemma sgd_updated mu dc nes lr it w v : tidy w v -> 1 <= length (ctx w v) -> updated dbg eps (Sgd mu dc nes) lr it w v.
Proof.
  intros T N. destruct w as [s c]. cbn [ctx] in N. destruct (c v) as [|m rest] eqn:C; [cbn in N; lia|].
  unpack T C. set (rg := ref (vgrad (vars s v))) in *. set (rd := ref (vdata (vars s v))) in *. set (n := count (W s c) v) in *.
  inversion T4 as [|? ? Ng T5]; subst. inversion T5 as [|? ? Nd T6]; subst. inversion T6 as [|? ? Nm T7]; subst. clear T4 T5 T6.
  assert (D1 : rg <> rd) by (intros Q; apply Ng; rewrite Q; cbn; tauto).
  assert (D2 : rg <> ref m) by (intros Q; apply Ng; rewrite Q; cbn; tauto).
  assert (D3 : rd <> ref m) by (intros Q; apply Nd; rewrite Q; cbn; tauto).
  destruct (T3 rg ltac:(cbn; tauto)) as [Lg Eg]. destruct (T3 rd ltac:(cbn; tauto)) as [Ld Ed]. destruct (T3 (ref m) ltac:(cbn; tauto)) as [Lm Em].
  set (h := hp s) in *.
  set (M := fun i => (nth i (nth (ref m) h []) 0 * mu - lr * nth i (nth rg h []) 0)%R).
  set (D := fun i => (nth i (nth rd h []) 0 + (if nes then M i else mu * M i - lr * nth i (nth rg h []) 0))%R).
  set (h1 := upd h (ref m) (tab n M)). set (h2 := upd h1 rd (tab n D)).
  assert (K1 : length h1 = length h) by (unfold h1; now rewrite upd_length).
  assert (V1 : nth (ref m) h1 [] = tab n M) by (unfold h1; peek2; reflexivity).
  assert (V2 : nth rd h1 [] = nth rd h []) by (unfold h1; peek2; reflexivity).
  assert (V3 : nth rg h1 [] = nth rg h []) by (unfold h1; peek2; reflexivity).
  eapply (one_updated _ _ _ s c v m rest h2 _ M D); [exact I|reflexivity|exact T|exact C|..].
  - unfold update_var. rewrite (obnd_ok _ _ _ (vars s v) (W s c)) by reflexivity. cbv zeta. reflexivity.
  - contexts C. rewrite (obnd_ok _ _ _ tt (W (set_hp s h1) c)).
    2:{ apply on_heap_ok. apply each_to; fold rg h; try assumption. reflexivity. }
    destruct nes; cbn [negb]; apply (on_heap_ok _ (W (set_hp s h1) c)); cbn [gr hp set_hp].
    + apply zip_to; fold rd; rewrite ?V1, ?V2, ?tab_length; try lia; try assumption.
      * symmetry. apply T2. now left.
      * intros i Hi. now rewrite nth_tab.
    + apply each_to; fold rd rg; rewrite ?V1, ?V2, ?V3, ?tab_length; try lia; try assumption.
      intros i Hi. rewrite nth_tab by assumption. reflexivity.
  - unfold h2. now rewrite upd_length.
  - unfold h2. rewrite nth_upd by lia. fold n. distinct. exact V1.
  - fold rd n. unfold h2. rewrite nth_upd by lia. now distinct.
  - fold rg n. unfold h2. rewrite nth_upd by lia. distinct. rewrite V3. exact Eg.
  - fold rg rd. intros r N1 N2 N3. unfold h2, h1. rewrite !nth_error_upd_other by congruence. reflexivity.
  - fold rg rd n h. intros p cs Hp. cbn [move upd nth]. f_equal; [f_equal; unfold M; ring|]. unfold D, M. destruct nes; ring.
Qed.

Lemma adagrad_updated dc lr it w v : tidy w v -> 1 <= length (ctx w v) -> updated dbg eps (Adagrad dc) lr it w v.
Proof.
  intros T N. destruct w as [s c]. cbn [ctx] in N. destruct (c v) as [|m rest] eqn:C; [cbn in N; lia|].
  unpack T C. set (rg := ref (vgrad (vars s v))) in *. set (rd := ref (vdata (vars s v))) in *. set (n := count (W s c) v) in *.
  inversion T4 as [|? ? Ng T5]; subst. inversion T5 as [|? ? Nd T6]; subst. inversion T6 as [|? ? Nm T7]; subst. clear T4 T5 T6.
  assert (D1 : rg <> rd) by (intros Q; apply Ng; rewrite Q; cbn; tauto).
  assert (D2 : rg <> ref m) by (intros Q; apply Ng; rewrite Q; cbn; tauto).
  assert (D3 : rd <> ref m) by (intros Q; apply Nd; rewrite Q; cbn; tauto).
  destruct (T3 rg ltac:(cbn; tauto)) as [Lg Eg]. destruct (T3 rd ltac:(cbn; tauto)) as [Ld Ed]. destruct (T3 (ref m) ltac:(cbn; tauto)) as [Lm Em].
  set (h := hp s) in *.
  set (M := fun i => (nth i (nth (ref m) h []) 0 + nth i (nth rg h []) 0 * nth i (nth rg h []) 0)%R).
  set (D := fun i => (nth i (nth rd h []) 0 - lr * nth i (nth rg h []) 0 / (eps + sqrt (M i)))%R).
  set (h1 := upd h (ref m) (tab n M)). set (h2 := upd h1 rd (tab n D)).
  assert (K1 : length h1 = length h) by (unfold h1; now rewrite upd_length).
  assert (V1 : nth (ref m) h1 [] = tab n M) by (unfold h1; peek2; reflexivity).
  assert (V2 : nth rd h1 [] = nth rd h []) by (unfold h1; peek2; reflexivity).
  assert (V3 : nth rg h1 [] = nth rg h []) by (unfold h1; peek2; reflexivity).
  eapply (one_updated _ _ _ s c v m rest h2 _ M D); [exact I|reflexivity|exact T|exact C|..].
  - unfold update_var. rewrite (obnd_ok _ _ _ (vars s v) (W s c)) by reflexivity. cbv zeta. reflexivity.
  - contexts C. rewrite (obnd_ok _ _ _ tt (W (set_hp s h1) c)).
    2:{ apply on_heap_ok. apply each_to; fold rg h; try assumption. reflexivity. }
    apply (on_heap_ok _ (W (set_hp s h1) c)); cbn [gr hp set_hp].
    apply each_to; fold rd rg; rewrite ?V1, ?V2, ?V3, ?tab_length; try lia; try assumption.
    intros i Hi. rewrite nth_tab by assumption. reflexivity.
  - unfold h2. now rewrite upd_length.
  - unfold h2. rewrite nth_upd by lia. fold n. distinct. exact V1.
  - fold rd n. unfold h2. rewrite nth_upd by lia. now distinct.
  - fold rg n. unfold h2. rewrite nth_upd by lia. distinct. rewrite V3. exact Eg.
  - fold rg rd. intros r N1 N2 N3. unfold h2, h1. rewrite !nth_error_upd_other by congruence. reflexivity.
  - fold rg rd n h. intros p cs Hp. cbn [move upd nth]. reflexivity.
Qed.

Lemma rmsprop_updated rho dc lr it w v : tidy w v -> 1 <= length (ctx w v) -> updated dbg eps (Rmsprop rho dc) lr it w v.
Proof.
  intros T N. destruct w as [s c]. cbn [ctx] in N. destruct (c v) as [|m rest] eqn:C; [cbn in N; lia|].
  unpack T C. set (rg := ref (vgrad (vars s v))) in *. set (rd := ref (vdata (vars s v))) in *. set (n := count (W s c) v) in *.
  inversion T4 as [|? ? Ng T5]; subst. inversion T5 as [|? ? Nd T6]; subst. inversion T6 as [|? ? Nm T7]; subst. clear T4 T5 T6.
  assert (D1 : rg <> rd) by (intros Q; apply Ng; rewrite Q; cbn; tauto).
  assert (D2 : rg <> ref m) by (intros Q; apply Ng; rewrite Q; cbn; tauto).
  assert (D3 : rd <> ref m) by (intros Q; apply Nd; rewrite Q; cbn; tauto).
  destruct (T3 rg ltac:(cbn; tauto)) as [Lg Eg]. destruct (T3 rd ltac:(cbn; tauto)) as [Ld Ed]. destruct (T3 (ref m) ltac:(cbn; tauto)) as [Lm Em].
  set (h := hp s) in *.
  set (M := fun i => (if Nat.eqb it 0 then nth i (nth rg h []) 0 * nth i (nth rg h []) 0 else rho * nth i (nth (ref m) h []) 0 + (1 - rho) * (nth i (nth rg h []) 0 * nth i (nth rg h []) 0))%R).
  set (D := fun i => (nth i (nth rd h []) 0 - lr * nth i (nth rg h []) 0 / (eps + sqrt (M i)))%R).
  set (h1 := upd h (ref m) (tab n M)). set (h2 := upd h1 rd (tab n D)).
  assert (K1 : length h1 = length h) by (unfold h1; now rewrite upd_length).
  assert (V1 : nth (ref m) h1 [] = tab n M) by (unfold h1; peek2; reflexivity).
  assert (V2 : nth rd h1 [] = nth rd h []) by (unfold h1; peek2; reflexivity).
  assert (V3 : nth rg h1 [] = nth rg h []) by (unfold h1; peek2; reflexivity).
  eapply (one_updated _ _ _ s c v m rest h2 _ M D); [exact I|reflexivity|exact T|exact C|..].
  - unfold update_var. rewrite (obnd_ok _ _ _ (vars s v) (W s c)) by reflexivity. cbv zeta. reflexivity.
  - contexts C. rewrite (obnd_ok _ _ _ tt (W (set_hp s h1) c)).
    2:{ unfold h1, M. destruct (Nat.eqb it 0); apply on_heap_ok; apply each_to; fold rg h; try assumption; [reflexivity|]. intros i Hi. cbv beta. ring. }
    apply (on_heap_ok _ (W (set_hp s h1) c)); cbn [gr hp set_hp].
    apply each_to; fold rd rg; rewrite ?V1, ?V2, ?V3, ?tab_length; try lia; try assumption.
    intros i Hi. rewrite nth_tab by assumption. reflexivity.
  - unfold h2. now rewrite upd_length.
  - unfold h2. rewrite nth_upd by lia. fold n. distinct. exact V1.
  - fold rd n. unfold h2. rewrite nth_upd by lia. now distinct.
  - fold rg n. unfold h2. rewrite nth_upd by lia. distinct. rewrite V3. exact Eg.
  - fold rg rd. intros r N1 N2 N3. unfold h2, h1. rewrite !nth_error_upd_other by congruence. reflexivity.
  - fold rg rd n h. intros p cs Hp. cbn [move upd nth]. reflexivity.
Qed.

Lemma adadelta_updated rho lr it w v : tidy w v -> 1 <= length (ctx w v) -> updated dbg eps (Adadelta rho) lr it w v.
Proof.
  intros T N. destruct w as [s c]. cbn [ctx] in N. destruct (c v) as [|m rest] eqn:C; [cbn in N; lia|].
  unpack T C. set (rg := ref (vgrad (vars s v))) in *. set (rd := ref (vdata (vars s v))) in *. set (n := count (W s c) v) in *.
  inversion T4 as [|? ? Ng T5]; subst. inversion T5 as [|? ? Nd T6]; subst. inversion T6 as [|? ? Nm T7]; subst. clear T4 T5 T6.
  assert (D1 : rg <> rd) by (intros Q; apply Ng; rewrite Q; cbn; tauto).
  assert (D2 : rg <> ref m) by (intros Q; apply Ng; rewrite Q; cbn; tauto).
  assert (D3 : rd <> ref m) by (intros Q; apply Nd; rewrite Q; cbn; tauto).
  destruct (T3 rg ltac:(cbn; tauto)) as [Lg Eg]. destruct (T3 rd ltac:(cbn; tauto)) as [Ld Ed]. destruct (T3 (ref m) ltac:(cbn; tauto)) as [Lm Em].
  set (h := hp s) in *.
  set (M1 := fun i => (rho * nth i (nth (ref m) h []) 0 + (1 - rho) * (nth i (nth rg h []) 0 * nth i (nth rg h []) 0))%R).
  set (Gr := fun i => (lr * sqrt ((M1 i + eps) / (M1 i + eps)) * nth i (nth rg h []) 0)%R).
  set (D := fun i => (nth i (nth rd h []) 0 - Gr i)%R).
  set (M2 := fun i => (rho * M1 i + (1 - rho) * (Gr i * Gr i))%R).
  set (h1 := upd h (ref m) (tab n M1)). set (h2 := upd h1 rg (tab n Gr)). set (h3 := upd h2 rd (tab n D)). set (h4 := upd h3 (ref m) (tab n M2)).
  assert (K1 : length h1 = length h) by (unfold h1; now rewrite upd_length).
  assert (K2 : length h2 = length h) by (unfold h2; now rewrite upd_length).
  assert (K3 : length h3 = length h) by (unfold h3; now rewrite upd_length).
  assert (V1 : nth (ref m) h1 [] = tab n M1) by (unfold h1; peek2; reflexivity).
  assert (V3 : nth rg h1 [] = nth rg h []) by (unfold h1; peek2; reflexivity).
  assert (V5 : nth rg h2 [] = tab n Gr) by (unfold h2; rewrite nth_upd by lia; now distinct).
  assert (V6 : nth rd h2 [] = nth rd h []) by (unfold h2, h1; rewrite !nth_upd by (rewrite ?upd_length; lia); now distinct).
  assert (V7 : nth (ref m) h3 [] = tab n M1) by (unfold h3, h2; rewrite !nth_upd by (rewrite ?upd_length; lia); now distinct).
  assert (V8 : nth rg h3 [] = tab n Gr) by (unfold h3; rewrite !nth_upd by (rewrite ?upd_length; lia); now distinct).
  eapply (one_updated _ _ _ s c v m rest h4 _ M2 D); [exact I|reflexivity|exact T|exact C|..].
  - unfold update_var. rewrite (obnd_ok _ _ _ (vars s v) (W s c)) by reflexivity. cbv zeta. reflexivity.
  - contexts C. rewrite (obnd_ok _ _ _ m (W s c)) by (unfold context; cbn [ctx]; now rewrite C).
    rewrite (obnd_ok _ _ _ tt (W (set_hp s h1) c)).
    2:{ apply on_heap_ok. apply each_to; fold rg h; try assumption. intros i Hi. cbv beta. unfold M1. ring. }
    rewrite (obnd_ok _ _ _ tt (W (set_hp s h2) c)).
    2:{ apply (on_heap_ok _ (W (set_hp s h1) c)); cbn [gr hp set_hp]. apply each_to; fold rg; rewrite ?V1, ?V3, ?tab_length; try lia; try assumption.
        intros i Hi. rewrite nth_tab by assumption. unfold Gr. ring. }
    rewrite (obnd_ok _ _ _ tt (W (set_hp s h3) c)).
    2:{ apply (on_heap_ok _ (W (set_hp s h2) c)); cbn [gr hp set_hp]. apply zip_to; fold rg rd; rewrite ?V5, ?V6, ?tab_length; try lia; try assumption.
        - symmetry. exact T1.
        - intros i Hi. now rewrite nth_tab. }
    apply (on_heap_ok _ (W (set_hp s h3) c)); cbn [gr hp set_hp]. apply each_to; fold rg; rewrite ?V7, ?V8, ?tab_length; try lia; try assumption.
    intros i Hi. rewrite !nth_tab by assumption. unfold M2. ring.
  - unfold h4. now rewrite upd_length.
  - fold n. unfold h4. rewrite nth_upd by lia. now distinct.
  - fold rd n. unfold h4. rewrite nth_upd by lia. distinct. unfold h3. rewrite nth_upd by lia. now distinct.
  - fold rg n. unfold h4. rewrite nth_upd by lia. distinct. rewrite V8. apply tab_length.
  - fold rg rd. intros r N1 N2 N3. unfold h4, h3, h2, h1. rewrite !nth_error_upd_other by congruence. reflexivity.
  - fold rg rd n h. intros p cs Hp. cbn [move upd nth]. reflexivity.
Qed.

Lemma adam_updated b1 b2 lr it w v : tidy w v -> 2 <= length (ctx w v) -> updated dbg eps (Adam b1 b2) lr it w v.
Proof.
  intros T N. destruct w as [s c]. cbn [ctx] in N. destruct (c v) as [|m [|q rest]] eqn:C; [cbn in N; lia|cbn in N; lia|].
  unpack T C. set (rg := ref (vgrad (vars s v))) in *. set (rd := ref (vdata (vars s v))) in *. set (n := count (W s c) v) in *.
  inversion T4 as [|? ? Ng T5]; subst. inversion T5 as [|? ? Nd T6]; subst. inversion T6 as [|? ? Nm T7]; subst. inversion T7 as [|? ? Nq T8]; subst. clear T4 T5 T6 T7.
  assert (D1 : rg <> rd) by (intros Q; apply Ng; rewrite Q; cbn; tauto).
  assert (D2 : rg <> ref m) by (intros Q; apply Ng; rewrite Q; cbn; tauto).
  assert (D3 : rd <> ref m) by (intros Q; apply Nd; rewrite Q; cbn; tauto).
  assert (D4 : rg <> ref q) by (intros Q; apply Ng; rewrite Q; cbn; tauto).
  assert (D5 : rd <> ref q) by (intros Q; apply Nd; rewrite Q; cbn; tauto).
  assert (D6 : ref m <> ref q) by (intros Q; apply Nm; rewrite Q; cbn; tauto).
  destruct (T3 rg ltac:(cbn; tauto)) as [Lg Eg]. destruct (T3 rd ltac:(cbn; tauto)) as [Ld Ed]. destruct (T3 (ref m) ltac:(cbn; tauto)) as [Lm Em].
  destruct (T3 (ref q) ltac:(cbn; tauto)) as [Lq Eq].
  set (h := hp s) in *.
  set (M := fun i => (b1 * nth i (nth (ref m) h []) 0 + (1 - b1) * nth i (nth rg h []) 0)%R).
  set (Sq := fun i => (b2 * nth i (nth (ref q) h []) 0 + (1 - b2) * (nth i (nth rg h []) 0 * nth i (nth rg h []) 0))%R).
  set (D := fun i => (if Nat.ltb 1 it then nth i (nth rd h []) 0 - lr * sqrt (1 - b2 ^ (it + 1)) / (1 - b1 ^ (it + 1)) * M i / (eps + sqrt (Sq i))
                      else nth i (nth rd h []) 0 - lr * nth i (nth rg h []) 0)%R).
  set (h1 := upd h (ref m) (tab n M)). set (h2 := upd h1 (ref q) (tab n Sq)). set (h3 := upd h2 rd (tab n D)).
  assert (K1 : length h1 = length h) by (unfold h1; now rewrite upd_length).
  assert (K2 : length h2 = length h) by (unfold h2; now rewrite upd_length).
  assert (V3 : nth rg h1 [] = nth rg h []) by (unfold h1; peek2; reflexivity).
  assert (V4 : nth (ref q) h1 [] = nth (ref q) h []) by (unfold h1; peek2; reflexivity).
  assert (V5 : nth rg h2 [] = nth rg h []) by (unfold h2, h1; rewrite !nth_upd by (rewrite ?upd_length; lia); now distinct).
  assert (V6 : nth rd h2 [] = nth rd h []) by (unfold h2, h1; rewrite !nth_upd by (rewrite ?upd_length; lia); now distinct).
  assert (V7 : nth (ref m) h2 [] = tab n M) by (unfold h2, h1; rewrite !nth_upd by (rewrite ?upd_length; lia); now distinct).
  assert (V8 : nth (ref q) h2 [] = tab n Sq) by (unfold h2; rewrite !nth_upd by (rewrite ?upd_length; lia); now distinct).
  assert (W7 : nth (ref m) h3 [] = tab n M) by (unfold h3; rewrite nth_upd by lia; now distinct).
  assert (W8 : nth (ref q) h3 [] = tab n Sq) by (unfold h3; rewrite nth_upd by lia; now distinct).
  assert (W6 : nth rd h3 [] = tab n D) by (unfold h3; rewrite nth_upd by lia; now distinct).
  assert (W5 : nth rg h3 [] = nth rg h []) by (unfold h3; rewrite nth_upd by lia; now distinct).
  assert (F : forall r, r <> ref m -> r <> ref q -> r <> rd -> nth_error h3 r = nth_error h r).
  { intros r N1 N2 N3. unfold h3, h2, h1. now rewrite !nth_error_upd_other by congruence. }
  assert (Rs : forall r, In r (map ref rest) -> nth r h3 [] = nth r h []).
  { intros r Hr. apply nth_error_nth_eq. apply F; intros ->; [apply Nm; now right|now apply Nq|apply Nd; right; now right]. }
  eapply (body_updated _ _ _ s c v m (q :: rest) h3); [exact I|exact T|exact C|cbn; lia|..].
  - unfold update_var. rewrite (obnd_ok _ _ _ (vars s v) (W s c)) by reflexivity. cbv zeta. reflexivity.
  - contexts C. rewrite (obnd_ok _ _ _ q (W s c)) by (unfold context; cbn [ctx]; now rewrite C).
    rewrite (obnd_ok _ _ _ tt (W (set_hp s h1) c)).
    2:{ apply on_heap_ok. apply each_to; fold rg h; try assumption. intros i Hi. cbv beta. unfold M. ring. }
    rewrite (obnd_ok _ _ _ tt (W (set_hp s h2) c)).
    2:{ apply (on_heap_ok _ (W (set_hp s h1) c)); cbn [gr hp set_hp]. apply each_to; fold rg; rewrite ?V3, ?V4; try lia; try assumption.
        intros i Hi. unfold Sq. ring. }
    unfold h3, D. destruct (1 <? it); apply (on_heap_ok _ (W (set_hp s h2) c)); cbn [gr hp set_hp].
    + apply each_to; fold rd; rewrite ?V6, ?V7, ?V8, ?tab_length; try lia; try assumption. intros i Hi. rewrite !nth_tab by assumption. reflexivity.
    + apply each_to; fold rd rg; rewrite ?V5, ?V6; try lia; try assumption. reflexivity.
  - unfold h3. now rewrite upd_length.
  - unfold foot. cbn [gr ctx]. rewrite C. cbn [map]. fold rg rd. intros r Nr. apply F; intros ->; apply Nr; cbn; tauto.
  - unfold foot. cbn [gr ctx]. rewrite C. cbn [map]. fold rg rd n. intros r Hr.
    destruct Hr as [<-|[<-|[<-|[<-|Hr]]]]; [now rewrite W5|rewrite W6; apply tab_length|rewrite W7; apply tab_length|rewrite W8; apply tab_length|].
    rewrite Rs by assumption. now apply T3; cbn; tauto.
  - intros p Hp. fold rd rg h n in Hp |- *. cbn [map move upd nth]. rewrite W6, W7, W8, !nth_tab by assumption. f_equal. f_equal. f_equal.
    now apply (rest_same rest h h3 [] (fun l => nth p l 0%R)).
Qed.

Lemma descent_updated mu lr it w v : tidy w v -> updated dbg eps (Descent mu) lr it w v.
Proof.
  intros T. destruct w as [s c]. pose proof T as [T1 T2 T3 T4]. cbn [gr ctx] in T1, T2, T3.
  set (rg := ref (vgrad (vars s v))) in *. set (rd := ref (vdata (vars s v))) in *. set (n := count (W s c) v) in *.
  unfold foot in T4. cbn [gr ctx] in T4. fold rg rd in T4. inversion T4 as [|? ? Ng T5]; subst. inversion T5 as [|? ? Nd T6]; subst. clear T4 T5.
  assert (D1 : rg <> rd) by (intros Q; apply Ng; rewrite Q; cbn; tauto).
  destruct (T3 rg ltac:(cbn; tauto)) as [Lg Eg]. destruct (T3 rd ltac:(cbn; tauto)) as [Ld Ed].
  set (h := hp s) in *.
  set (D := fun i => (nth i (nth rd h []) 0 - lr * nth i (nth rg h []) 0)%R).
  set (P := tab n (fun i => nth i (nth rg h []) 0 * lr)%R).
  set (h1 := h ++ [P]). set (h2 := upd h1 rd (tab n D)). set (h3 := upd h2 rg (repeat 0%R n)).
  assert (K1 : length h1 = S (length h)) by (unfold h1; rewrite app_length; cbn; lia).
  assert (K2 : length h2 = S (length h)) by (unfold h2; now rewrite upd_length).
  assert (O1 : forall r, r < length h -> nth r h1 [] = nth r h []) by (intros r Hr; unfold h1; now rewrite app_nth1).
  assert (F : forall r, r < length h -> r <> rg -> r <> rd -> nth_error h3 r = nth_error h r).
  { intros r Hr N1 N2. unfold h3, h2. rewrite !nth_error_upd_other by congruence. unfold h1. now rewrite nth_error_app1. }
  assert (Vd : nth rd h3 [] = tab n D) by (unfold h3, h2; rewrite !nth_upd by (rewrite ?upd_length; lia); now distinct).
  assert (Vg : nth rg h3 [] = repeat 0%R n) by (unfold h3; rewrite !nth_upd by (rewrite ?upd_length; lia); now distinct).
  assert (Rs : forall r, In r (map ref (c v)) -> nth r h3 [] = nth r h []).
  { intros r Hr. apply nth_error_nth_eq. destruct (T3 r) as [Lr _]; [cbn; tauto|]. apply F; [exact Lr|intros ->; apply Ng; now right|now intros ->]. }
  apply (updated_heap dbg eps (Descent mu) lr it (W s c) v h3 T); cbn [ctx gr]; fold h.
  - cbn. lia.
  - reflexivity.
  - unfold update_var. rewrite (obnd_ok _ _ _ (vars s v) (W s c)) by reflexivity. cbv zeta.
    rewrite (obnd_ok _ _ _ tt (W (set_hp s h2) c)).
    + apply (on_heap_ok _ (W (set_hp s h2) c)); cbn [gr hp set_hp]. apply reset_ok; [fold rg; lia|]. fold rg. unfold h2. rewrite nth_upd by lia. distinct. now rewrite O1.
    + rewrite (obnd_ok _ _ _ (mkT (shape (vgrad (vars s v))) (length h)) (W (set_hp s h1) c)).
      * apply (on_heap_ok _ (W (set_hp s h1) c)); cbn [gr hp set_hp].
        assert (Vt : nth (length h) h1 [] = P) by (unfold h1; rewrite app_nth2, Nat.sub_diag by lia; reflexivity).
        apply zip_to; cbn [shape ref]; fold rd; rewrite ?Vt, ?O1; try lia; try assumption; [now symmetry|apply tab_length|].
        intros i Hi. unfold P. rewrite nth_tab by assumption. unfold D. ring.
      * apply on_heap_ok. cbn [gr]. fold h. rewrite (scalar_ok _ _ _ n); [reflexivity|exact Lg|exact Eg|]. now rewrite T1.
  - unfold h3. rewrite upd_length. lia.
  - intros r Hr Nr. apply F; [assumption|intros ->; apply Nr; cbn; tauto|intros ->; apply Nr; cbn; tauto].
  - unfold foot. cbn [gr ctx]. fold rg rd n. intros r Hr. destruct Hr as [<-|[<-|Hr]]; [rewrite Vg; apply repeat_length|rewrite Vd; apply tab_length|].
    rewrite Rs by assumption. apply T3. cbn; tauto.
  - fold rg n. exact Vg.
  - intros p Hp. fold rd rg n in Hp |- *. unfold memory, weights, gradient, elements. cbn [gr ctx move]. fold rd rg h. rewrite Vd, nth_tab by assumption. f_equal.
    apply (rest_same (c v) h h3 [] (fun l => nth p l 0%R)). exact Rs.
Qed.

Lemma all_updated a lr it w v : tidy w v -> needed a <= length (ctx w v) -> updated dbg eps a lr it w v.
Proof.
  intros T N. destruct a; cbn [needed] in N; [now apply sgd_updated|now apply adagrad_updated|now apply rmsprop_updated|now apply adadelta_updated|now apply adam_updated|now apply descent_updated].
Qed.

(** ** creating the auxiliary tensors *)

Definition grown (w : world) (v : nat) (k : nat) : world :=
  W (set_hp (gr w) (hp (gr w) ++ repeat (repeat 0%R (count w v)) k))
    (fupd (ctx w) v (ctx w v ++ map (fun i => mkT (shape (vdata (vars (gr w) v))) (length (hp (gr w)) + i)) (seq 0 k))).

Lemma push_zeros_ok v k : forall w, exists w', push_zeros v k w = Ok (tt, w') /\ gr w' = gr (grown w v k) /\ forall v', ctx w' v' = ctx (grown w v k) v'.
Proof.
  induction k as [|k IH]; intros w.
  - exists w. split; [reflexivity|]. split.
    + unfold grown. cbn. rewrite app_nil_r. destruct w as [[] ?]. reflexivity.
    + intros v'. cbn. unfold fupd. destruct (Nat.eqb_spec v' v) as [->|]; [now rewrite app_nil_r|reflexivity].
  - destruct w as [s c].
    set (w1 := W (set_hp s (hp s ++ [repeat 0%R (prod (shape (vdata (vars s v))))])) (fupd c v (c v ++ [mkT (shape (vdata (vars s v))) (length (hp s))]))).
    destruct (IH w1) as (w' & E & Eg & Ec). exists w'. split; [exact E|]. split.
    + rewrite Eg. unfold grown, w1, count. cbn [gr hp set_hp vars ctx]. rewrite <- app_assoc. reflexivity.
    + intros v'. rewrite Ec. unfold grown, w1. cbn [gr hp set_hp vars ctx]. unfold fupd. destruct (Nat.eqb_spec v' v) as [->|]; [|reflexivity].
      rewrite Nat.eqb_refl. rewrite <- app_assoc. f_equal. rewrite app_length. cbn [length seq map]. rewrite Nat.add_0_r. cbn [app]. f_equal.
      rewrite <- seq_shift, map_map. apply map_ext. intros i. f_equal. lia.
Qed.

Lemma map_add_seq k : forall b i, map (fun j => b + j) (seq i k) = seq (b + i) k.
Proof. induction k as [|k IH]; intros b i; [reflexivity|]. cbn. f_equal. rewrite IH. f_equal. lia. Qed.

Lemma nth_repeat_in {A} (x d : A) k : forall i, i < k -> nth i (repeat x k) d = x.
Proof. induction k as [|k IH]; intros i H; [lia|]. destruct i; [reflexivity|]. cbn. apply IH. lia. Qed.

Lemma update_from a lr it w w1 v : ctx w v = [] -> 0 < created a -> push_zeros v (created a) w = Ok (tt, w1) -> vars (gr w1) v = vars (gr w) v ->
  ctx w1 v <> [] -> update_var dbg eps a lr it v w = update_var dbg eps a lr it v w1.
Proof.
  intros C P E V N. destruct w as [s c], w1 as [s1 c1]. cbn [gr ctx] in *.
  assert (Q : create v (created a) (W s c) = Ok (tt, W s1 c1)) by (unfold create; cbn [ctx]; rewrite C; exact E).
  assert (Q1 : create v (created a) (W s1 c1) = Ok (tt, W s1 c1)) by (unfold create; cbn [ctx]; destruct (c1 v); congruence).
  unfold update_var. rewrite (obnd_ok _ _ _ (vars s v) (W s c)) by reflexivity. rewrite (obnd_ok _ _ (W s1 c1) (vars s1 v) (W s1 c1)) by reflexivity.
  rewrite V. cbv zeta. destruct a; cbn [created] in *; try lia; unfold obnd; now rewrite Q, Q1.
Qed.

Lemma update_ok a lr it w v : tidy w v -> stocked a w v -> updated dbg eps a lr it w v.
Proof.
  intros T S. destruct (le_lt_dec (needed a) (length (ctx w v))) as [N|N]; [now apply all_updated|].
  destruct S as [C|S]; [|lia].
  assert (Hk : 0 < created a /\ needed a <= created a) by (destruct a; cbn in *; rewrite C in N; cbn in N; lia). destruct Hk as [Hk Hn].
  set (k := created a) in *.
  destruct (push_zeros_ok v k w) as (w1 & E1 & Eg & Ec).
  pose proof T as [T1 T2 T3 T4]. set (n := count w v) in *. set (h := hp (gr w)) in *.
  assert (Ev : vars (gr w1) = vars (gr w)) by (rewrite Eg; reflexivity).
  assert (Eh : hp (gr w1) = h ++ repeat (repeat 0%R n) k) by (rewrite Eg; reflexivity).
  assert (Ecv : ctx w1 v = map (fun i => mkT (shape (vdata (vars (gr w) v))) (length h + i)) (seq 0 k)).
  { rewrite Ec. unfold grown. cbn [ctx]. unfold fupd. rewrite Nat.eqb_refl, C. reflexivity. }
  assert (Lc : length (ctx w1 v) = k) by (rewrite Ecv, map_length, seq_length; reflexivity).
  assert (Ef : foot w1 v = ref (vgrad (vars (gr w) v)) :: ref (vdata (vars (gr w) v)) :: seq (length h) k).
  { unfold foot. rewrite Ev, Ecv, map_map. cbn [ref]. do 2 f_equal. rewrite map_add_seq. now rewrite Nat.add_0_r. }
  assert (Nw : forall r, length h <= r < length h + k -> nth r (hp (gr w1)) [] = repeat 0%R n).
  { intros r Hr. rewrite Eh, app_nth2 by lia. apply nth_repeat_in. lia. }
  assert (Od : forall r, r < length h -> nth r (hp (gr w1)) [] = nth r h []) by (intros r Hr; now rewrite Eh, app_nth1).
  assert (Lh : length (hp (gr w1)) = length h + k) by (now rewrite Eh, app_length, repeat_length).
  assert (Ec1 : count w1 v = n) by (unfold count; rewrite Ev; reflexivity).
  assert (Hg := T3 (ref (vgrad (vars (gr w) v))) ltac:(cbn; tauto)). assert (Hd := T3 (ref (vdata (vars (gr w) v))) ltac:(cbn; tauto)).
  assert (T' : tidy w1 v).
  { constructor.
    - now rewrite Ev.
    - intros t Ht. rewrite Ecv in Ht. apply in_map_iff in Ht. destruct Ht as (i & <- & _). now rewrite Ev.
    - rewrite Ef, Ec1, Lh. intros r [<-|[<-|Hr]].
      + rewrite Od by tauto. fold n in Hg. split; [lia|tauto].
      + rewrite Od by tauto. fold n in Hd. split; [lia|tauto].
      + apply in_seq in Hr. rewrite Nw by assumption. split; [lia|apply repeat_length].
    - rewrite Ef. unfold foot in T4. rewrite C in T4. inversion T4 as [|? ? N1 N2]; subst. constructor; [|constructor; [|apply seq_NoDup]].
      + intros [Q|Q]; [apply N1; now left|]. apply in_seq in Q. lia.
      + intros Q. apply in_seq in Q. lia. }
  destruct (all_updated a lr it w1 v T') as (w' & E' & (h' & G1 & G2 & G3 & G4 & G5) & T'' & [M1 M2 M3 M4]); [lia|].
  exists w'. split; [|split; [|split; [exact T''|]]].
  - rewrite (update_from a lr it w w1 v C Hk E1); [exact E'|now rewrite Ev|]. intros Q. rewrite Q in Lc. cbn in Lc. lia.
  - exists h'. split; [rewrite G1, Eg; reflexivity|]. split; [fold h; lia|]. split; [|split].
    + intros v' Nv. rewrite G3 by assumption. rewrite Ec. unfold grown. cbn [ctx]. unfold fupd. now rewrite (proj2 (Nat.eqb_neq v' v) Nv).
    + intros r Hr Nr. rewrite G4.
      * rewrite Eh. now rewrite nth_error_app1.
      * fold h in Hr; lia.
      * rewrite Ef. intros [Q|[Q|Q]]; [apply Nr; now left|apply Nr; right; now left|]. apply in_seq in Q. fold h in Hr. lia.
    + intros r Hr. destruct (G5 r Hr) as [Q|Q]; [|right; fold h; lia]. rewrite Ef in Q. destruct Q as [Q|[Q|Q]].
      * left. now left.
      * left. right. now left.
      * right. apply in_seq in Q. fold h. lia.
  - constructor.
    + rewrite M1, Ec1. reflexivity.
    + fold n. intros p Hp. rewrite M2 by lia.
      assert (Q1 : weights w1 v = weights w v) by (unfold weights, elements; rewrite Ev, Od by tauto; reflexivity).
      assert (Q2 : gradient w1 v = gradient w v) by (unfold gradient, elements; rewrite Ev, Od by tauto; reflexivity).
      assert (Q3 : memory_or_new a w1 v p = memory_or_new a w v p).
      { unfold memory_or_new. rewrite C. fold k. destruct (ctx w1 v) as [|t l] eqn:Cl; [cbn in Lc; lia|]. unfold memory. rewrite Cl, Ecv.
        rewrite map_map. rewrite (map_ext_in _ (fun _ => 0%R)).
        - clear. generalize 0 at 1. induction k as [|k IH]; intros j; [reflexivity|]. cbn. f_equal. apply IH.
        - intros i Hi. apply in_seq in Hi. unfold elements. cbn [ref]. rewrite Nw by lia. apply nth_repeat_in. assumption. }
      now rewrite Q1, Q2, Q3.
    + rewrite M3, Ec1. reflexivity.
    + rewrite M4, C. fold k. destruct (ctx w1 v); [cbn in Lc; lia|exact Lc].
Qed.

End Algos.

Section All.
Variable dbg : bool.
Variable eps : R.
Variables (a : algo) (lr : R) (it : nat).

Lemma moved_transport w w1 w' v : (forall r, In r (foot w v) -> nth r (hp (gr w1)) [] = nth r (hp (gr w)) []) ->
  vars (gr w1) v = vars (gr w) v -> ctx w1 v = ctx w v -> moved a eps lr it w1 w' v -> moved a eps lr it w w' v.
Proof.
  intros F V C [M1 M2 M3 M4].
  assert (Q0 : count w1 v = count w v) by (unfold count; now rewrite V).
  assert (Q1 : weights w1 v = weights w v) by (unfold weights, elements; rewrite V; apply F; unfold foot; cbn; tauto).
  assert (Q2 : gradient w1 v = gradient w v) by (unfold gradient, elements; rewrite V; apply F; unfold foot; cbn; tauto).
  constructor; [congruence| |congruence|now rewrite ?C in *].
  intros p Hp. rewrite M2 by lia. rewrite Q1, Q2. f_equal. unfold memory_or_new. rewrite C. destruct (ctx w v) as [|t l] eqn:E; [reflexivity|].
  unfold memory. rewrite C, E. apply map_ext_in. intros u Hu. unfold elements. rewrite F; [reflexivity|]. unfold foot. rewrite E. right. right. now apply in_map.
Qed.

Lemma moved_after w w1 w' v : (forall r, In r (foot w1 v) -> nth r (hp (gr w')) [] = nth r (hp (gr w1)) []) ->
  vars (gr w') v = vars (gr w1) v -> ctx w' v = ctx w1 v -> moved a eps lr it w w1 v -> moved a eps lr it w w' v.
Proof.
  intros F V C [M1 M2 M3 M4].
  assert (Q1 : weights w' v = weights w1 v) by (unfold weights, elements; rewrite V; apply F; unfold foot; cbn; tauto).
  assert (Q2 : gradient w' v = gradient w1 v) by (unfold gradient, elements; rewrite V; apply F; unfold foot; cbn; tauto).
  constructor; [congruence| |congruence|now rewrite ?C in *].
  intros p Hp. rewrite <- M2 by lia. rewrite Q1. f_equal. unfold memory. rewrite C. apply map_ext_in. intros u Hu. unfold elements. rewrite F; [reflexivity|].
  unfold foot. right. right. now apply in_map.
Qed.

Lemma tidy_same w w' v : (forall r, In r (foot w v) -> nth r (hp (gr w')) [] = nth r (hp (gr w)) []) -> length (hp (gr w)) <= length (hp (gr w')) ->
  vars (gr w') v = vars (gr w) v -> ctx w' v = ctx w v -> tidy w v -> tidy w' v.
Proof.
  intros F L V C [T1 T2 T3 T4]. assert (E : foot w' v = foot w v) by (unfold foot; now rewrite V, C).
  constructor; rewrite ?V, ?C, ?E; auto. intros r Hr. destruct (T3 r Hr) as [L1 L2]. rewrite F by assumption. unfold count in *. rewrite V. split; [lia|assumption].
Qed.

Theorem update_all_ok sess : forall l w, incl l sess -> NoDup (map fst l) -> orderly sess w -> (forall v, In (v, true) l -> stocked a w v) ->
  exists w' h', update_all dbg eps a lr it l w = Ok (tt, w') /\ gr w' = set_hp (gr w) h' /\ length (hp (gr w)) <= length h' /\ orderly sess w' /\
    (forall v, In (v, true) l -> moved a eps lr it w w' v) /\
    (forall v, ~ In (v, true) l -> ctx w' v = ctx w v) /\
    (forall r, r < length (hp (gr w)) -> (forall v, In (v, true) l -> ~ In r (foot w v)) -> nth_error h' r = nth_error (hp (gr w)) r) /\
    (forall v r, In r (foot w' v) -> In r (foot w v) \/ length (hp (gr w)) <= r).
Proof.
  intros l. induction l as [|[v b] l IH]; intros w Hi Nd Od St.
  { exists w, (hp (gr w)). split; [reflexivity|]. split; [destruct w as [[] ?]; reflexivity|]. split; [lia|]. split; [exact Od|].
    split; [intros v []|]. split; [reflexivity|]. split; [reflexivity|]. auto. }
  cbn [map fst] in Nd. inversion Nd as [|? ? Nv Nd']; subst.
  assert (Hin : In (v, b) sess) by (apply Hi; now left).
  destruct b.
  2:{ destruct (IH w) as (w' & h' & E & G1 & L & O' & M & C & F & P); auto.
      { intros x Hx. apply Hi. now right. }
      { intros u Hu. apply St. now right. }
      exists w', h'. split; [|split; [exact G1|split; [exact L|split; [exact O'|split; [|split; [|split]]]]]].
      - cbn [update_all]. now rewrite (obnd_ok _ _ _ tt w).
      - intros u [Q|Hu]; [discriminate|]. now apply M.
      - intros u Hu. apply C. intros Q. apply Hu. now right.
      - intros r Hr Hn. apply F; auto. intros u Hu. apply Hn. now right.
      - exact P. }
  pose proof Od as [O1 O2 O3].
  destruct (update_ok dbg eps a lr it w v (O2 v true Hin) (St v (or_introl eq_refl))) as (w1 & E1 & (h1 & G1 & L1 & C1 & F1 & P1) & T1 & M1).
  assert (V1 : vars (gr w1) = vars (gr w)) by (rewrite G1; reflexivity).
  assert (H1 : hp (gr w1) = h1) by (rewrite G1; reflexivity).
  (* other variables are untouched *)
  assert (Ft : forall u, u <> v -> foot w1 u = foot w u) by (intros u Hu; unfold foot; now rewrite V1, C1).
  assert (Sm : forall u b, In (u, b) sess -> u <> v -> forall r, In r (foot w u) -> nth r h1 [] = nth r (hp (gr w)) []).
  { intros u b Hu Nu r Hr. apply nth_error_nth_eq. apply F1.
    - apply (t_live w u (O2 u b Hu) r Hr).
    - exact (O3 u b v true Hu Hin Nu r Hr). }
  assert (Od1 : orderly sess w1).
  { constructor; [exact O1| |].
    - intros u b Hu. destruct (Nat.eq_dec u v) as [->|Nu]; [exact T1|].
      apply (tidy_same w w1 u); auto; [rewrite H1; exact (Sm u b Hu Nu)|rewrite H1; lia|now rewrite V1|exact (O2 u b Hu)].
    - intros u b u' b' Hu Hu' Ne r Hr Hr'.
      destruct (Nat.eq_dec u v) as [->|Nu].
      + rewrite Ft in Hr' by congruence. destruct (P1 r Hr) as [Q|Q]; [exact (O3 v b u' b' Hu Hu' Ne r Q Hr')|].
        destruct (t_live w u' (O2 u' b' Hu') r Hr') as [Q' _]. lia.
      + rewrite Ft in Hr by congruence. destruct (Nat.eq_dec u' v) as [->|Nu'].
        * destruct (P1 r Hr') as [Q|Q]; [exact (O3 u b v b' Hu Hu' Ne r Hr Q)|]. destruct (t_live w u (O2 u b Hu) r Hr) as [Q' _]. lia.
        * rewrite Ft in Hr' by congruence. exact (O3 u b u' b' Hu Hu' Ne r Hr Hr'). }
  assert (Nl : forall u, In (u, true) l -> u <> v) by (intros u Hu ->; apply Nv; change v with (fst (v, true)); now apply in_map).
  assert (Hl : forall u, In (u, true) l -> In (u, true) sess) by (intros u Hu; apply Hi; now right).
  destruct (IH w1) as (w' & h' & E & G2 & L2 & O' & M & C & F & P); auto.
  { intros x Hx. apply Hi. now right. }
  { intros u Hu. unfold stocked. rewrite C1 by now apply Nl. apply St. now right. }
  assert (V2 : vars (gr w') = vars (gr w1)) by (rewrite G2; reflexivity).
  assert (H2 : hp (gr w') = h') by (rewrite G2; reflexivity).
  rewrite H1 in L2, F, P.
  assert (Kv : forall r, In r (foot w1 v) -> nth r h' [] = nth r h1 []).
  { intros r Hr. apply nth_error_nth_eq. apply F.
    - rewrite <- H1. apply (t_live w1 v T1 r Hr).
    - intros u Hu Q. exact (o_apart sess w1 Od1 v true u true Hin (Hl u Hu) (not_eq_sym (Nl u Hu)) r Hr Q). }
  exists w', h'. split; [|split; [|split; [lia|split; [exact O'|split; [|split; [|split]]]]]].
  - cbn [update_all]. rewrite (obnd_ok _ _ _ tt w1) by exact E1. exact E.
  - rewrite G2, G1. reflexivity.
  - intros u [Q|Hu].
    + injection Q as <-. apply (moved_after w w1 w' v); auto; [rewrite H1, H2; exact Kv|now rewrite V2|].
      apply C. intros Q. exact (Nl v Q eq_refl).
    + apply (moved_transport w w1 w' u); auto; [|now rewrite V1].
      rewrite H1. exact (Sm u true (Hl u Hu) (Nl u Hu)).
  - intros u Hu. rewrite C by (intros Q; apply Hu; now right). apply C1. intros ->. apply Hu. now left.
  - intros r Hr Hn. rewrite F.
    + apply F1; [assumption|]. apply Hn. now left.
    + lia.
    + intros u Hu. rewrite Ft by now apply Nl. apply Hn. now right.
  - intros u r Hr. destruct (P u r Hr) as [Q|Q]; [|right; lia]. destruct (Nat.eq_dec u v) as [->|Nu]; [now apply P1|]. rewrite Ft in Q by assumption. now left.
Qed.

(** An optimiser that finds too few auxiliary tensors reads past the end of contexts_. *)
Theorem update_unstocked w v : ctx w v <> [] -> length (ctx w v) < needed a -> update_var dbg eps a lr it v w = UB.
Proof.
  destruct w as [s c]. cbn [ctx]. destruct (c v) as [|t l] eqn:C; [congruence|]. intros _ N. destruct a; cbn in N; try lia.
  destruct l; [|cbn in N; lia].
  unfold update_var. rewrite (obnd_ok _ _ _ (vars s v) (W s c)) by reflexivity. cbv zeta. unfold obnd at 1.
  rewrite (obnd_ok _ _ _ tt (W s c)) by (unfold create; cbn [ctx]; now rewrite C).
  rewrite (obnd_ok _ _ _ t (W s c)) by (unfold context; cbn [ctx]; now rewrite C).
  unfold obnd, context. cbn [ctx]. now rewrite C.
Qed.

End All.
