(** What users expect of images. *)
From Coq Require Import List Arith Bool Reals String Ascii.
From Verif Require Import ImageModel.
Import ListNotations.
Local Open Scope nat_scope.

(** a grey picture without or with channels, or one of 3 or 4 channels *)
Definition legal {A} (im : image A) (w h ch : nat) : Prop :=
  (ishape im = [w; h] /\ ch = 1 \/ ishape im = [w; h; ch]) /\ In ch [1; 3; 4] /\ List.length (pixels im) = w * h * ch.

Definition no_dot (s : string) : Prop := ~ In "."%char (list_ascii_of_string s).

(** which file is written for a path that ends in a dot and ext, and how *)
Inductive named (path : string) : string -> format -> string -> Prop :=
| named_png : named path "png" Png path
| named_bmp : named path "bmp" Bmp path
| named_tga : named path "tga" Tga path
| named_jpg : named path "jpg" Jpg path
| named_jpeg : named path "jpeg" Jpg path
| named_other ext : ~ In ext ["png"; "bmp"; "tga"; "jpg"; "jpeg"; "hdr"]%string -> named path ext Png (path ++ ".png").

(** the picture is in file p unless p cannot be written; no other file changes *)
Definition written (writable : string -> bool) (p : string) (x : picture) (fs : files) (r : bool * files) : Prop :=
  fst r = writable p /\ snd r p = (if writable p then Some x else fs p) /\ forall q, q <> p -> snd r q = fs q.

(** what is seen in a picture at a row and a column *)
Definition shown (x : picture) (row column c : nat) : option nat :=
  if (row <? height x) && (column <? width x) && (c <? channels x) then nth_error (rows x) ((row * width x + column) * channels x + c) else None.
(** element (i, j, c) of a tensor of shape (w, h, ch) *)
Definition element (im : image nat) (h ch i j c : nat) : option nat := nth_error (pixels im) ((i * h + j) * ch + c).

(** m is the largest, the smallest element *)
Definition largest (l : list R) (m : R) : Prop := In m l /\ forall x, In x l -> (x <= m)%R.
Definition smallest (l : list R) (m : R) : Prop := In m l /\ forall x, In x l -> (m <= x)%R.
