(** C92: loops with progress bars. *)
From Coq Require Import List Arith Bool PeanoNat ZArith QArith Qround String Ascii Lia.
From Verif Require Import TensorModel TqdmModel TqdmSpec TqdmProofs.
Import ListNotations.
Local Open Scope nat_scope.

(** In a terminal of at least 40 columns, whatever the clock does, a loop over dm( l ) runs its body once for every element, in order.
    Before the k-th body, and once after the last, a frame is shown if the clock says so or k reaches the number n of elements; it has
    k * b / n of b = columns - 40 cells full, the rest empty, and the texts it should have, and is followed by blanks only. *)
Theorem C92_loop : forall A e w prefix (l : list A), 40 <= w -> (Z.of_nat w <= 65535)%Z ->
  exists fr, dm e (Some w) prefix l = Ok (weave fr 1 l) /\ bodies (weave fr 1 l) = l /\
    forall k, 1 <= k <= List.length l + 1 ->
      let n := List.length l in let b := w - 40 in
      if tick e k || (n <=? k) then exists f z, fr k = [f] /\ visible f = frame_of e prefix b (full_cells b n k) k ++ repeat " "%string z
      else fr k = [].
Proof.
  intros A e w prefix l W _W. unfold dm. cbn [get_terminal_width obind]. replace (Z.of_nat w - 40)%Z with (Z.of_nat (w - 40)) by lia.
  destruct (loop_ok A e (w - 40) prefix (List.length l) l 1 1 ltac:(lia) ltac:(lia)) as (fr & E & G). exists fr. split; [exact E|].
  split; [apply bodies_weave|]. intros k K. apply G. lia.
Qed.
Print Assumptions C92_loop.

(** Exactly then: without a terminal at standard input the width is read from an uninitialised variable, and in a terminal of less
    than 40 columns the cells are counted to a negative number, whatever is in the list, be it nothing. *)
Theorem C92_defined : forall A e terminal prefix (l : list A), (forall w, terminal = Some w -> Z.of_nat w <= 65535)%Z ->
  ((exists ev, dm e terminal prefix l = Ok ev) <-> (exists w, terminal = Some w /\ 40 <= w)) /\
  ((exists ev, dm e terminal prefix l = Ok ev) \/ dm e terminal prefix l = UB).
Proof.
  intros A e [w|] prefix l W.
  - specialize (W w eq_refl). destruct (Nat.le_gt_cases 40 w) as [H|H].
    + destruct (C92_loop A e w prefix l H W) as (fr & E & _). split; [split; intros _; eauto|eauto].
    + assert (E : dm e (Some w) prefix l = UB).
      { unfold dm. cbn [get_terminal_width obind]. apply narrow; lia. }
      rewrite E. split; [|now right]. split; [intros (ev & X); discriminate|intros (v & X & Y); injection X as ->; lia].
  - unfold dm. cbn [get_terminal_width obind]. split; [|now right]. split; [intros (ev & X); discriminate|intros (v & X & _); discriminate].
Qed.
Print Assumptions C92_defined.

(** A full bar does not mean that all is done: it is shown before the body of the last element is run. *)
Theorem C92_full_means_done_refuted : forall A e w prefix (l : list A) x, 40 <= w -> (Z.of_nat w <= 65535)%Z ->
  exists a f z, dm e (Some w) prefix (l ++ [x]) = Ok (a ++ Frame f :: Body x :: z) /\ bodies a = l /\
    exists r, visible f = frame_of e prefix (w - 40) (w - 40) (List.length l + 1) ++ r.
Proof.
  intros A e w prefix l x W W'. destruct (C92_loop A e w prefix (l ++ [x]) W W') as (fr & E & _ & G). rewrite app_length in G. cbn [List.length] in G.
  specialize (G (List.length l + 1) ltac:(lia)). cbn zeta in G. rewrite Nat.leb_refl, orb_true_r in G. destruct G as (f & z & Ef & Vf).
  assert (X : forall (l : list A) k, fr (k + List.length l) = [f] ->
    exists a, weave fr k (l ++ [x]) = a ++ Frame f :: Body x :: map Frame (fr (S (k + List.length l))) /\ bodies a = l).
  { assert (Y : forall fs (r : list (event A)), bodies (map Frame fs ++ r) = bodies r) by (induction fs; intros; cbn; auto).
    clear. intros l0. assert (Y : forall fs (r : list (event A)), bodies (map Frame fs ++ r) = bodies r) by (induction fs; intros; cbn; auto).
    induction l0 as [|y l0 IH]; intros k Hk; cbn [List.length] in Hk.
    - rewrite Nat.add_0_r in Hk. exists []. cbn [app weave List.length]. rewrite Hk, Nat.add_0_r, app_nil_r. split; reflexivity.
    - replace (k + S (List.length l0)) with (S k + List.length l0) in Hk by lia. destruct (IH (S k) Hk) as (a & Ea & Ba).
      exists (map Frame (fr k) ++ Body y :: a). cbn [app weave List.length]. rewrite Ea, <- app_assoc. cbn [app]. split; [replace (k + S (List.length l0)) with (S k + List.length l0) by lia; reflexivity|].
      rewrite Y. cbn [bodies]. now rewrite Ba. }
  rewrite Nat.add_comm in Ef. destruct (X l 1 Ef) as (a & Ea & Ba). exists a, f. eexists. rewrite E, Ea. split; [reflexivity|]. split; [exact Ba|].
  exists (repeat " "%string z). rewrite Vf. do 2 f_equal. unfold full_cells. now rewrite Nat.ltb_irrefl.
Qed.
Print Assumptions C92_full_means_done_refuted.

(** If the texts never become shorter, then after every frame the line of the terminal shows that frame and nothing else. *)
Theorem C92_line : forall A e w prefix (l : list A) ev, 40 <= w -> (Z.of_nat w <= 65535)%Z -> (forall i j, i <= j -> varying e i <= varying e j) ->
  dm e (Some w) prefix l = Ok ev -> forall a f r, ev = a ++ Frame f :: r -> fst (watch (a ++ [Frame f]) ([], 0)) = visible f.
Proof.
  intros A e w prefix l ev W W' Mono E. unfold dm in E. cbn [get_terminal_width obind] in E. replace (Z.of_nat w - 40)%Z with (Z.of_nat (w - 40)) in E by lia.
  apply (line_ok A e (w - 40) prefix (List.length l) l ltac:(lia) Mono 1 1 ([], 0) ev ltac:(lia)); [|cbn; lia|exact E].
  unfold out_size, fixed. lia.
Qed.
Print Assumptions C92_line.

(** If they do, then remains of earlier frames stay: the blanks that are to cover them are counted in bytes, and a full cell has 17. *)
Definition clock : env := Env (fun _ => true) (fun _ => "100.0"%string) (fun _ => "1"%string) (fun k => if k =? 1 then "0.00123"%string else "0"%string) (fun _ => ""%string).
Definition seen : list (event nat) := match dm clock (Some 42) "" [7; 8] with Ok ev => ev | _ => [] end.
Definition second : list token := match nth_error seen 2 with Some (Frame f) => f | _ => [] end.
Theorem C92_line_refuted : ~ (forall A e w prefix (l : list A) ev, 40 <= w -> (Z.of_nat w <= 65535)%Z ->
  dm e (Some w) prefix l = Ok ev -> forall a f r, ev = a ++ Frame f :: r -> fst (watch (a ++ [Frame f]) ([], 0)) = visible f).
Proof.
  intros H. assert (W1 : 40 <= 42) by lia. assert (W2 : (Z.of_nat 42 <= 65535)%Z) by lia.
  assert (E : dm clock (Some 42) "" [7; 8] = Ok seen) by (vm_compute; reflexivity).
  assert (D : seen = firstn 2 seen ++ Frame second :: skipn 3 seen) by (vm_compute; reflexivity).
  pose proof (H nat clock 42 ""%string [7; 8] seen W1 W2 E (firstn 2 seen) second (skipn 3 seen) D) as X. vm_compute in X. discriminate X.
Qed.
Print Assumptions C92_line_refuted.

(** trange( first, last ) counts from first to last, the end not included; if last is below first, it counts until the int overflows
    instead of not at all. *)
Theorem C92_trange : forall e terminal prefix first last, (INT_MIN <= first <= INT_MAX)%Z -> (INT_MIN <= last <= INT_MAX)%Z -> (last - first <= INT_MAX)%Z ->
  ((first <= last)%Z -> exists l, trange e terminal prefix first last = dm e terminal prefix l /\
     List.length l = Z.to_nat (last - first) /\ forall i, i < List.length l -> nth_error l i = Some (first + Z.of_nat i)%Z) /\
  ((last < first)%Z -> trange e terminal prefix first last = UB).
Proof.
  intros e terminal prefix first last F L D. split; intros H; unfold trange.
  - destruct (Z.ltb_spec (last - first) INT_MIN) as [X|X]; [unfold INT_MIN in X; lia|]. destruct (Z.ltb_spec INT_MAX (last - first)); [lia|]. cbn [orb].
    rewrite ints_ok by lia. cbn [obind]. exists (upto (Z.to_nat (last - first)) first). split; [reflexivity|]. rewrite upto_length. split; [reflexivity|].
    intros i Hi. now apply upto_nth.
  - destruct ((last - first <? INT_MIN)%Z || (INT_MAX <? last - first)%Z); [reflexivity|]. rewrite ints_over by lia. reflexivity.
Qed.
Print Assumptions C92_trange.

(** rize shows the text it is given, between a control sequence and the one that resets all; names of colours that are not known are
    taken as the default's; every foreground's name is a background's, except Magenta, which is misspelt in the table. *)
Theorem C92_rize : forall source f b,
  (exists c, rize source f b = Control c :: source ++ [Control (ESC ++ "[0m")]) /\
  (~ In f (map fst color_foreground) -> rize source f b = rize source "Default" b) /\
  (~ In b (map fst color_background) -> rize source f b = rize source f "Default") /\
  rize source f "Magenta" = rize source f "Default" /\
  (forall name, In name (map fst color_foreground) -> name <> "Default"%string -> name <> "Magenta"%string -> rize source f name <> rize source f "Default").
Proof.
  assert (N : forall m name, ~ In name (map fst m) -> find name m = None).
  { induction m as [|[k v] m IH]; intros name H; cbn [find]; [reflexivity|]. destruct (String.eqb_spec k name) as [E|E]; [exfalso; apply H; now left|].
    apply IH. intros I. apply H. now right. }
  intros source f b. split; [eexists; reflexivity|]. split; [|split; [|split; [reflexivity|]]].
  - intros H. unfold rize, code. rewrite (N _ _ H). reflexivity.
  - intros H. unfold rize, code. rewrite (N _ _ H). reflexivity.
  - intros name H D M E. cbn [map fst color_foreground In] in H.
    repeat (destruct H as [<-|H]; [try (now elim D); try (now elim M); unfold rize in E; injection E as E; cbn in E; discriminate E|]). exact H.
Qed.
Print Assumptions C92_rize.

(** ** Cases *)
Module Case.
(** two elements, a clock that never asks for a frame, and a bar of four cells: one frame before the last body, one after it *)
Definition quiet : env := Env (fun _ => false) (fun _ => "100.0"%string) (fun _ => "1"%string) (fun _ => "0"%string) (fun _ => ""%string).
Example C92_frames : exists f g, dm quiet (Some 44) "" [7; 8] = Ok [Body 7; Frame f; Body 8; Frame g] /\ List.length (visible f) = 26 /\ visible f = visible g.
Proof. vm_compute. eexists. eexists. split; [reflexivity|]. split; reflexivity. Qed.
(** what the line shows in [C92_line_refuted]: the second frame is six glyphs shorter than the first, whose end stays *)
Example C92_remains : List.length (visible second) = 24 /\ String.concat "" (skipn 18 (fst (watch (firstn 3 seen) ([], 0)))) = "< 0s) 123s) "%string.
Proof. vm_compute. split; reflexivity. Qed.
End Case.
