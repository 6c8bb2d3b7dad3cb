(** What the MNIST files contain, independently of the code that reads them. *)
From Coq Require Import List Arith.
Import ListNotations.

(** an image: 28 rows of 28 pixels *)
Definition image (im : list (list nat)) : Prop := length im = 28 /\ Forall (fun row => length row = 28) im.

(** a file of images: a header of 16 bytes, then the images row by row *)
Definition image_file (header : list nat) (images : list (list (list nat))) : list nat := header ++ concat (map (@concat nat) images).

(** pixel at row r, column c of image i *)
Definition pixel (images : list (list (list nat))) (i r c : nat) : nat := nth c (nth r (nth i images []) []) 0.

(** a file of labels: a header of 8 bytes, then one byte per image *)
Definition label_file (header labels : list nat) : list nat := header ++ labels.

(** element (i, j) of the one-hot encoding *)
Definition one_hot (labels : list nat) (i j : nat) : nat := if nth i labels 0 =? j then 1 else 0.

(** the element at row i, column j of a matrix with n columns, and at (i, r, c) of a tensor of images *)
Definition at2 (n : nat) (d : list nat) (i j : nat) : nat := nth (i * n + j) d 0.
Definition at3 (d : list nat) (i r c : nat) : nat := nth ((i * 28 + r) * 28 + c) d 0.
