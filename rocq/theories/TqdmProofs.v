(** Proofs about TqdmModel. *)
From Coq Require Import List Arith Bool PeanoNat ZArith QArith Qround String Ascii Lia.
From Verif Require Import TensorModel TqdmModel TqdmSpec.
Import ListNotations.
Local Open Scope nat_scope.

Lemma visible_app : forall a b, visible (a ++ b) = visible a ++ visible b.
Proof. induction a as [|[|g|c] a IH]; intros b; cbn; [reflexivity|apply IH|f_equal; apply IH|apply IH]. Qed.
Lemma size_app : forall a b, size (a ++ b) = size a + size b.
Proof. induction a as [|t a IH]; intros b; cbn; [reflexivity|rewrite IH; lia]. Qed.
Lemma visible_text : forall s, visible (text s) = characters s.
Proof. induction s; cbn; congruence. Qed.
Lemma size_text : forall s, size (text s) = String.length s.
Proof. induction s; cbn; congruence. Qed.
Lemma characters_app : forall a b, characters (a ++ b) = characters a ++ characters b.
Proof. induction a as [|c a IH]; intros b; cbn; [reflexivity|f_equal; apply IH]. Qed.
Lemma characters_length : forall s, List.length (characters s) = String.length s.
Proof. induction s; cbn; congruence. Qed.
Lemma visible_rize : forall s f b, visible (rize s f b) = visible s.
Proof. intros. unfold rize. cbn [visible]. rewrite visible_app. cbn [visible]. apply app_nil_r. Qed.
Lemma visible_copies : forall n l, visible (copies n l) = List.concat (repeat (visible l) n).
Proof. induction n as [|n IH]; intros l; cbn; [reflexivity|]. rewrite visible_app, IH. reflexivity. Qed.
Lemma visible_repeat : forall n g, visible (repeat (Glyph g) n) = repeat g n.
Proof. induction n; intros; cbn; congruence. Qed.
Lemma concat_one : forall (g : string) n, List.concat (repeat [g] n) = repeat g n.
Proof. induction n; cbn; congruence. Qed.
Lemma size_copies : forall n l, size (copies n l) = n * size l.
Proof. induction n as [|n IH]; intros l; cbn; [reflexivity|]. rewrite size_app, IH. reflexivity. Qed.
Lemma size_repeat : forall n g, size (repeat (Glyph g) n) = n * String.length g.
Proof. induction n as [|n IH]; intros; cbn; [reflexivity|]. rewrite IH. reflexivity. Qed.

(** ** Progress *)
Definition progress (k n : nat) : Q := clamp (calc_progress (Z.of_nat k) (Z.of_nat n)).

Lemma progress_full : forall k n, 1 <= k -> n <= k -> progress k n = 1%Q.
Proof.
  intros k n K H. unfold progress, calc_progress. destruct (Z.eqb_spec (Z.of_nat n) 0) as [E|E].
  - unfold clamp. assert (L : (1 <= inject_Z (Z.of_nat k) * 1000000000)%Q) by (unfold Qle; cbn; lia).
    rewrite (proj2 (Qle_bool_iff _ _) L). destruct (Qle_bool _ 0) eqn:G; [|reflexivity]. apply Qle_bool_iff in G. exfalso.
    apply (Qle_trans _ _ _ L) in G. unfold Qle in G. cbn in G. lia.
  - unfold clamp. assert (L : (1 <= inject_Z (Z.of_nat k) / inject_Z (Z.of_nat n))%Q).
    { apply Qle_shift_div_l; [unfold Qlt; cbn; lia|]. rewrite Qmult_1_l. unfold Qle; cbn; lia. }
    rewrite (proj2 (Qle_bool_iff _ _) L). destruct (Qle_bool _ 0) eqn:G; [|reflexivity]. apply Qle_bool_iff in G. exfalso.
    apply (Qle_trans _ _ _ L) in G. unfold Qle in G. cbn in G. lia.
Qed.

Lemma progress_part : forall k n, 1 <= k < n -> progress k n = (inject_Z (Z.of_nat k) / inject_Z (Z.of_nat n))%Q /\ (0 < progress k n < 1)%Q.
Proof.
  intros k n K. unfold progress, calc_progress. destruct (Z.eqb_spec (Z.of_nat n) 0) as [E|E]; [lia|].
  assert (P : (0 < inject_Z (Z.of_nat n))%Q) by (unfold Qlt; cbn; lia).
  assert (L1 : (0 < inject_Z (Z.of_nat k) / inject_Z (Z.of_nat n))%Q).
  { apply Qlt_shift_div_l; [exact P|]. rewrite Qmult_0_l. unfold Qlt; cbn; lia. }
  assert (L2 : (inject_Z (Z.of_nat k) / inject_Z (Z.of_nat n) < 1)%Q).
  { apply Qlt_shift_div_r; [exact P|]. rewrite Qmult_1_l. unfold Qlt; cbn; lia. }
  set (q := (inject_Z (Z.of_nat k) / inject_Z (Z.of_nat n))%Q) in *. clearbody q. unfold clamp.
  destruct (Qle_bool q 0) eqn:G1. { apply Qle_bool_iff in G1. exfalso. exact (Qlt_not_le _ _ L1 G1). }
  destruct (Qle_bool 1 q) eqn:G2. { apply Qle_bool_iff in G2. exfalso. exact (Qlt_not_le _ _ L2 G2). } auto.
Qed.

Lemma shown_ok : forall k n, 1 <= k -> Qeq_bool (progress k n) 0 || Qeq_bool (progress k n) 1 = (n <=? k).
Proof.
  intros k n K. destruct (Nat.leb_spec n k) as [H|H].
  - rewrite progress_full by lia. reflexivity.
  - destruct (progress_part k n ltac:(lia)) as (_ & A & B). apply orb_false_iff. split; apply not_true_iff_false; intros E; apply Qeq_bool_iff in E; rewrite E in *; [now apply Qlt_irrefl in A|now apply Qlt_irrefl in B].
Qed.

Lemma filled_ok : forall b k n, 1 <= k -> Qfloor (progress k n * inject_Z (Z.of_nat b)) = Z.of_nat (full_cells b n k) /\ full_cells b n k <= b.
Proof.
  intros b k n K. unfold full_cells. destruct (Nat.ltb_spec k n) as [H|H].
  - destruct (progress_part k n ltac:(lia)) as (E & _). rewrite E. split.
    + assert (X : (inject_Z (Z.of_nat k) / inject_Z (Z.of_nat n) * inject_Z (Z.of_nat b) == Z.of_nat (k * b) # Pos.of_nat n)%Q).
      { destruct n as [|n]; [lia|]. rewrite Zpos_P_of_succ_nat || idtac. unfold Qdiv, Qinv, inject_Z, Qmult, Qeq. cbn [Qnum Qden].
        rewrite <- (Zpos_P_of_succ_nat n) || idtac. cbn [Z.of_nat Qnum Qden]. rewrite Pos.of_nat_succ. rewrite !Pos.mul_1_r, !Pos.mul_1_l || idtac. cbn [Qnum Qden]. rewrite Nat2Z.inj_mul, <- !Pos.of_nat_succ. lia. }
      rewrite (Qfloor_comp _ _ X). unfold Qfloor. rewrite Nat2Z.inj_div. f_equal. destruct n; [lia|]. rewrite <- Pos.of_nat_succ. reflexivity.
    + apply Nat.div_le_upper_bound; [lia|]. apply Nat.mul_le_mono_r. lia.
  - rewrite progress_full by lia. split; [|lia]. rewrite (Qfloor_comp _ (inject_Z (Z.of_nat b))) by apply Qmult_1_l. apply Qfloor_Z.
Qed.

(** ** Frames *)
Fixpoint plain (l : list token) : bool := match l with [] => true | Return :: _ => false | _ :: l => plain l end.
Lemma plain_app : forall a b, plain (a ++ b) = plain a && plain b.
Proof. induction a as [|[|g|c] a IH]; intros b; cbn; auto. Qed.
Lemma plain_text : forall s, plain (text s) = true.
Proof. induction s; cbn; auto. Qed.
Lemma plain_rize : forall s f b, plain (rize s f b) = plain s.
Proof. intros. unfold rize. cbn [plain]. rewrite plain_app. cbn. apply andb_true_r. Qed.
Lemma plain_copies : forall n l, plain l = true -> plain (copies n l) = true.
Proof. induction n as [|n IH]; intros l H; cbn; [reflexivity|]. rewrite plain_app, H. now apply IH. Qed.
Lemma plain_repeat : forall n g, plain (repeat (Glyph g) n) = true.
Proof. induction n; intros; cbn; auto. Qed.

Definition cell : nat := size (rize [Glyph full_block] "Green" "Default").
Definition edge : nat := size (rize [] "Default" "Light Green").
Lemma size_rize : forall s f b, size (rize s f b) = size (rize [] f b) + size s.
Proof. intros. unfold rize. cbn [size app]. rewrite size_app. cbn [size]. lia. Qed.

Lemma print_bar_ok : forall b k n, (Z.of_nat b <= 2147483647)%Z -> 1 <= k ->
  let m := full_cells b n k in
  exists bar, print_bar (Z.of_nat b) (progress k n) = Ok bar /\ plain bar = true /\ size bar = 2 + m * cell + edge + (b - m) /\
    visible bar = ("["%string :: repeat full_block m ++ repeat " "%string (b - m) ++ ["]"%string]).
Proof.
  intros b k n B K m. destruct (filled_ok b k n K) as [E L]. fold m in E, L. unfold print_bar. rewrite E.
  destruct (Z.ltb_spec (Z.of_nat m) 0); [lia|]. destruct (Z.ltb_spec 2147483647 (Z.of_nat m)); [lia|]. destruct (Z.ltb_spec (Z.of_nat b - Z.of_nat m) 0); [lia|].
  rewrite Nat2Z.id. replace (Z.to_nat (Z.of_nat b - Z.of_nat m)) with (b - m) by lia. eexists. split; [reflexivity|]. split; [|split].
  - cbn [plain]. rewrite !plain_app, plain_rize, plain_copies, plain_repeat by reflexivity. reflexivity.
  - cbn [size]. rewrite !size_app, size_copies, (size_rize (repeat _ _)), size_repeat. change (size (rize [Glyph full_block] "Green" "Default")) with cell.
    change (size (rize [] "Default" "Light Green")) with edge. cbn [bytes String.length size]. lia.
  - cbn [visible]. rewrite !visible_app, visible_rize, visible_repeat, visible_copies, visible_rize. cbn [visible]. rewrite concat_one. reflexivity.
Qed.

Definition fixed : nat := size (rize [] "Magenta" "Default") + size (rize [] "Blue" "Default") + edge + 16.
(** the bytes of the k-th frame *)
Definition out_size (e : env) (prefix : string) (b n k : nat) : nat :=
  let m := full_cells b n k in fixed + String.length prefix + m * cell + (b - m) + varying e k.

Lemma display_ok : forall e b prefix k n cols, (Z.of_nat b <= 2147483647)%Z -> 1 <= k ->
  let c := Nat.max cols (out_size e prefix b n k) in
  exists f, display e (Z.of_nat b) prefix k (progress k n) cols = Ok (Return :: f, c) /\ plain f = true /\
    visible f = frame_of e prefix b (full_cells b n k) k ++ repeat " "%string (c - out_size e prefix b n k).
Proof.
  intros e b prefix k n cols B K c. destruct (print_bar_ok b k n B K) as (bar & E & P & Sz & V). unfold display. rewrite E. cbn [obind].
  match goal with |- context [Nat.max cols (size ?o)] => set (out := o) end.
  assert (So : size out = out_size e prefix b n k).
  { unfold out, out_size, varying, fixed. cbn [size app]. rewrite !size_app. cbn [size]. rewrite !size_app, (size_rize (text _) "Magenta"), (size_rize (text _) "Blue"), !size_text, Sz.
    cbn [bytes String.length]. lia. }
  rewrite So. fold c. eexists. split; [unfold out; cbn [app]; reflexivity|]. split.
  - repeat (rewrite plain_app || rewrite plain_text || rewrite plain_rize || rewrite plain_repeat || rewrite P || cbn [plain andb text]). reflexivity.
  - repeat (rewrite visible_app || rewrite visible_text || rewrite visible_rize || rewrite visible_repeat || rewrite V || cbn [visible text]).
    unfold frame_of. cbn [characters app]. repeat (rewrite <- app_assoc || cbn [app characters]). reflexivity.
Qed.

Lemma update_ok : forall e b prefix n k cols, (Z.of_nat b <= 2147483647)%Z -> 1 <= k ->
  update e (Z.of_nat b) prefix (Z.of_nat n) k cols =
  if tick e k || (n <=? k) then obind (display e (Z.of_nat b) prefix k (progress k n) cols) (fun r => Ok ([fst r], snd r)) else Ok ([], cols).
Proof. intros e b prefix n k cols B K. unfold update. fold (progress k n). rewrite <- orb_assoc, shown_ok by exact K. reflexivity. Qed.

(** what a frame is to be *)
Definition good (e : env) (prefix : string) (b n k : nat) (fs : list (list token)) : Prop :=
  if tick e k || (n <=? k) then exists f z, fs = [f] /\ visible f = frame_of e prefix b (full_cells b n k) k ++ repeat " "%string z else fs = [].

Lemma weave_ext : forall A (l : list A) f g k, (forall i, k <= i -> f i = g i) -> weave f k l = weave g k l.
Proof.
  induction l as [|x l IH]; intros f g k H; cbn [weave]; rewrite (H k) by lia; [reflexivity|]. do 2 f_equal. apply IH. intros i Hi. apply H. lia.
Qed.

Lemma loop_ok : forall A e b prefix n (l : list A) k cols, (Z.of_nat b <= 2147483647)%Z -> 1 <= k ->
  exists fr, loop e (Z.of_nat b) prefix (Z.of_nat n) k cols l = Ok (weave fr k l) /\ forall i, k <= i <= k + List.length l -> good e prefix b n i (fr i).
Proof.
  intros A e b prefix n l. induction l as [|x l IH]; intros k cols B K.
  all: assert (U : exists fs c, update e (Z.of_nat b) prefix (Z.of_nat n) k cols = Ok (fs, c) /\ good e prefix b n k fs).
  1,3: rewrite update_ok by assumption; unfold good; destruct (tick e k || (n <=? k)); [|now exists [], cols];
      destruct (display_ok e b prefix k n cols B K) as (f & E & _ & V); rewrite E; cbn [obind fst snd]; eexists; eexists; split; [reflexivity|];
      exists (Return :: f); eexists; split; [reflexivity|exact V].
  - destruct U as (fs & c & E & G). cbn [loop]. rewrite E. cbn [obind fst snd]. exists (fun _ => fs). split; [cbn [weave]; now rewrite app_nil_r|].
    intros i Hi. cbn [List.length] in Hi. replace i with k by lia. exact G.
  - destruct U as (fs & c & E & G). destruct (IH (S k) c B ltac:(lia)) as (fr & EL & GL). cbn [loop]. rewrite E. cbn [obind fst snd]. rewrite EL. cbn [obind].
    exists (fun i => if i =? k then fs else fr i). split.
    + cbn [weave]. rewrite Nat.eqb_refl. do 3 f_equal. apply weave_ext. intros i Hi. destruct (Nat.eqb_spec i k); [lia|reflexivity].
    + intros i Hi. cbn [List.length] in Hi. destruct (Nat.eqb_spec i k) as [->|N]; [exact G|]. apply GL. lia.
Qed.

Lemma bodies_weave : forall A (l : list A) fr k, bodies (weave fr k l) = l.
Proof.
  assert (X : forall A fs (r : list (event A)), bodies (map Frame fs ++ r) = bodies r) by (induction fs; intros; cbn; auto).
  induction l as [|x l IH]; intros fr k; cbn [weave]; rewrite X; cbn [bodies]; [reflexivity|]. now rewrite IH.
Qed.

(** ** Narrow terminals *)
Lemma narrow : forall A e bs prefix n (l : list A) k cols, (bs < 0)%Z -> 1 <= k -> n <= k + List.length l ->
  loop e bs prefix (Z.of_nat n) k cols l = UB.
Proof.
  intros A e bs prefix n l. induction l as [|x l IH]; intros k cols B K N; cbn [List.length] in N.
  all: assert (U : update e bs prefix (Z.of_nat n) k cols = if tick e k || (n <=? k) then UB else Ok ([], cols)).
  1,3: unfold update; fold (progress k n); rewrite <- orb_assoc, shown_ok by exact K; destruct (tick e k || (n <=? k)); [|reflexivity];
    unfold display, print_bar;
    assert (P : (0 < progress k n)%Q) by (destruct (Nat.le_gt_cases n k); [rewrite progress_full by lia; reflexivity|apply progress_part; lia]);
    assert (X : (progress k n * inject_Z bs < 0)%Q) by (rewrite <- (Qmult_0_r (progress k n)); apply Qmult_lt_l; [exact P|unfold Qlt; cbn; lia]);
    pose proof (Qle_lt_trans _ _ _ (Qfloor_le _) X) as Y; change 0%Q with (inject_Z 0) in Y; rewrite <- Zlt_Qlt in Y;
    rewrite (proj2 (Z.ltb_lt _ _) Y); reflexivity.
  - cbn [loop]. rewrite U. rewrite (proj2 (Nat.leb_le n k)) by lia. rewrite orb_true_r. reflexivity.
  - cbn [loop]. rewrite U. destruct (tick e k || (n <=? k)); [reflexivity|]. cbn [obind fst snd]. rewrite IH by lia. reflexivity.
Qed.

(** ** The line of a terminal *)
Lemma put_glyph : forall line cur g, cur <= List.length line ->
  put (line, cur) (Glyph g) = (firstn cur line ++ g :: skipn (S cur) line, S cur).
Proof. reflexivity. Qed.

Lemma send_plain : forall f done line, plain f = true ->
  send f (done ++ line, List.length done) = (done ++ visible f ++ skipn (List.length (visible f)) line, List.length done + List.length (visible f)).
Proof.
  induction f as [|[|g|c] f IH]; intros done line P; cbn [plain] in P; [cbn; now rewrite Nat.add_0_r|discriminate| |].
  - cbn [send fold_left put fst snd]. change (fold_left put f ?s) with (send f s).
    rewrite firstn_app, firstn_all, Nat.sub_diag. cbn [firstn]. rewrite app_nil_r.
    replace (skipn (S (List.length done)) (done ++ line)) with (skipn 1 line).
    2:{ rewrite skipn_app. rewrite (skipn_all2 done) by lia. replace (S (List.length done) - List.length done) with 1 by lia. reflexivity. }
    replace (done ++ g :: skipn 1 line) with ((done ++ [g]) ++ skipn 1 line) by (rewrite <- app_assoc; reflexivity).
    replace (S (List.length done)) with (List.length (done ++ [g])) by (rewrite app_length; cbn; lia).
    rewrite IH by exact P. cbn [visible List.length]. rewrite app_length. cbn [List.length]. rewrite <- !app_assoc. cbn [app].
    f_equal; [|lia]. do 3 f_equal. destruct line; [now rewrite !skipn_nil|reflexivity].
  - cbn [send fold_left put]. change (fold_left put f ?s) with (send f s). rewrite IH by exact P. reflexivity.
Qed.

Lemma send_frame : forall f s, plain f = true -> fst (send (Return :: f) s) = visible f ++ skipn (List.length (visible f)) (fst s).
Proof.
  intros f [line cur] P. cbn [send fold_left put fst]. change (fold_left put f ?s) with (send f s).
  change line with ([] ++ line) at 1. change 0 with (List.length (@nil string)). rewrite send_plain by exact P. reflexivity.
Qed.

Lemma full_cells_mono : forall b n i j, i <= j -> full_cells b n i <= full_cells b n j.
Proof.
  intros b n i j H. unfold full_cells. destruct (Nat.ltb_spec i n), (Nat.ltb_spec j n); try lia.
  - apply Nat.div_le_mono; [lia|]. apply Nat.mul_le_mono_r. exact H.
  - apply Nat.div_le_upper_bound; [lia|]. apply Nat.mul_le_mono_r. lia.
Qed.
Lemma full_cells_le : forall b n k, full_cells b n k <= b.
Proof. intros. unfold full_cells. destruct (Nat.ltb_spec k n); [|lia]. apply Nat.div_le_upper_bound; [lia|]. apply Nat.mul_le_mono_r. lia. Qed.
Lemma cell_pos : cell = 17.
Proof. reflexivity. Qed.

Lemma out_size_mono : forall e prefix b n i j, i <= j -> varying e i <= varying e j -> out_size e prefix b n i <= out_size e prefix b n j.
Proof.
  intros e prefix b n i j H V. unfold out_size. pose proof (full_cells_mono b n i j H). pose proof (full_cells_le b n i). pose proof (full_cells_le b n j).
  rewrite cell_pos. lia.
Qed.
Lemma frame_length : forall e prefix b m k, m <= b -> List.length (frame_of e prefix b m k) = String.length prefix + b + varying e k + 15.
Proof.
  intros e prefix b m k H. unfold frame_of, varying. rewrite !app_length, !repeat_length, !characters_length. cbn [String.length]. lia.
Qed.

Lemma watch_app : forall A (a b : list (event A)) s, watch (a ++ b) s = watch b (watch a s).
Proof. induction a as [|[f|x] a IH]; intros b s; cbn [watch app]; auto. Qed.

Lemma line_ok : forall A e b prefix n (l : list A), (Z.of_nat b <= 2147483647)%Z ->
  (forall i j, i <= j -> varying e i <= varying e j) -> forall k cols s ev, 1 <= k -> cols <= out_size e prefix b n k ->
  List.length (fst s) <= String.length prefix + b + varying e k + 15 ->
  loop e (Z.of_nat b) prefix (Z.of_nat n) k cols l = Ok ev ->
  forall a f r, ev = a ++ Frame f :: r -> fst (watch (a ++ [Frame f]) s) = visible f.
Proof.
  intros A e b prefix n l B Mono. induction l as [|x l IH]; intros k cols s ev K C Ls E a f r D.
  all: assert (U : exists fs c, update e (Z.of_nat b) prefix (Z.of_nat n) k cols = Ok (fs, c) /\ c <= out_size e prefix b n k /\
     (fs = [] \/ exists g, fs = [g] /\ fst (send g s) = visible g /\ List.length (visible g) = String.length prefix + b + varying e k + 15)).
  1,3: rewrite update_ok by assumption; destruct (tick e k || (n <=? k)); [|exists [], cols; auto];
    destruct (display_ok e b prefix k n cols B K) as (g & Eg & Pg & Vg); rewrite Eg; cbn [obind fst snd]; rewrite Nat.max_r in * by exact C;
    eexists; eexists; split; [reflexivity|]; split; [lia|]; right; exists (Return :: g); split; [reflexivity|];
    rewrite Nat.sub_diag in Vg; cbn [repeat] in Vg; rewrite app_nil_r in Vg;
    assert (Lg : List.length (visible g) = String.length prefix + b + varying e k + 15) by (rewrite Vg; apply frame_length, full_cells_le);
    split; [|exact Lg]; rewrite send_frame by exact Pg; cbn [visible]; rewrite skipn_all2 by lia; apply app_nil_r.
  - destruct U as (fs & c & EU & HC & F). cbn [loop] in E. rewrite EU in E. cbn [obind fst snd] in E. injection E as <-.
    destruct F as [->|(g & -> & Sg & Lg)]; [destruct a; discriminate|].
    destruct a as [|y a]; cbn [app map] in D; [|injection D as _ D; destruct a; discriminate]. injection D as -> _. exact Sg.
  - destruct U as (fs & c & EU & HC & F). cbn [loop] in E. rewrite EU in E. cbn [obind fst snd] in E.
    destruct (loop e (Z.of_nat b) prefix (Z.of_nat n) (S k) c l) as [rest| |] eqn:EL; cbn [obind] in E; try discriminate. injection E as <-.
    assert (C' : c <= out_size e prefix b n (S k)) by (etransitivity; [exact HC|]; apply out_size_mono; [lia|apply Mono; lia]).
    pose proof (Mono k (S k) ltac:(lia)) as M.
    destruct F as [->|(g & -> & Sg & Lg)]; cbn [map app] in D.
    + destruct a as [|y a]; cbn [app] in D; [discriminate|]. injection D as <- D.
      apply (IH (S k) c s rest ltac:(lia) C' ltac:(lia) EL a f r D).
    + destruct a as [|y a]; cbn [app] in D; [injection D as -> _; exact Sg|]. injection D as <- D.
      destruct a as [|y a]; cbn [app] in D; [discriminate|]. injection D as <- D. cbn [app watch].
      apply (IH (S k) c (send g s) rest ltac:(lia) C' ltac:(rewrite Sg; lia) EL a f r D).
Qed.

(** ** Ranges of ints *)
Fixpoint upto (n : nat) (first : Z) : list Z := match n with 0 => [] | S n => first :: upto n (first + 1)%Z end.
Lemma ints_ok : forall fuel v last, (v <= last <= INT_MAX)%Z -> (INT_MAX - v < Z.of_nat fuel)%Z -> ints fuel v last = Ok (upto (Z.to_nat (last - v)) v).
Proof.
  induction fuel as [|fuel IH]; intros v last H F; [lia|]. cbn [ints]. destruct (Z.eqb_spec v last) as [->|N].
  - rewrite Z.sub_diag. reflexivity.
  - destruct (Z.eqb_spec v INT_MAX); [lia|]. rewrite IH by lia. cbn [obind]. replace (Z.to_nat (last - v)) with (S (Z.to_nat (last - (v + 1)))) by lia. reflexivity.
Qed.
Lemma ints_over : forall fuel v last, (last < v <= INT_MAX)%Z -> ints fuel v last = UB.
Proof.
  induction fuel as [|fuel IH]; intros v last H; [reflexivity|]. cbn [ints]. destruct (Z.eqb_spec v last); [lia|].
  destruct (Z.eqb_spec v INT_MAX); [reflexivity|]. rewrite IH by lia. reflexivity.
Qed.
Lemma upto_nth : forall n f i, i < n -> nth_error (upto n f) i = Some (f + Z.of_nat i)%Z.
Proof.
  induction n as [|n IH]; intros f i H; [lia|]. destruct i; cbn [upto nth_error]; [f_equal; lia|]. rewrite IH by lia. f_equal. lia.
Qed.
Lemma upto_length : forall n f, List.length (upto n f) = n.
Proof. induction n; intros; cbn; auto. Qed.
