(** Model of the loading of the MNIST files (include/dataset.hpp:27-68; lines 98-139, fashion_mnist::load_data, are the same code
    under another default path).  A file is the list of its bytes; a tensor of bytes is its shape and its elements.

    Simplifications: sizes are unbounded naturals; where the code subtracts a header size larger than the file (unsigned wrap-around,
    then an iterator past the end, or a tensor of about 2^64 rows) the outcome is UB. *)
From Coq Require Import List Arith Lia Bool PeanoNat.
From Verif Require Import ListBase TensorModel.
Import ListNotations.

(** dataset.hpp:34-42 load_binary: None is a file that cannot be opened; a release build goes on with no bytes *)
Definition load_binary (dbg : bool) (f : option (list nat)) : outcome (list nat) :=
  match f with
  | Some bytes => Ok bytes
  | None => if dbg then Abort else Ok []
  end.

(** dataset.hpp:44-51 extract_image: the tensor has room for samples * 784 bytes; std::copy copies all bytes after the header *)
Definition extract_image (bytes : list nat) : outcome (list nat * list nat) :=
  if length bytes <? 16 then UB
  else
    let samples := (length bytes - 16) / 784 in
    let body := skipn 16 bytes in
    let room := prod [samples; 28; 28] in
    if room <? length body then UB
    else Ok ([samples; 28; 28], body ++ repeat 0 (room - length body)).

(** dataset.hpp:59-60 the loop; utils/view.hpp:49-54 operator[] gives a pointer to the row, which the label is added to *)
Fixpoint set_labels (ans : list nat) (idx : nat) (labels : list nat) : outcome (list nat) :=
  match labels with
  | [] => Ok ans
  | l :: labels' =>
      let p := idx * 10 + l in
      if p <? length ans then set_labels (upd ans p 1) (S idx) labels' else UB
  end.

(** dataset.hpp:53-62 extract_label *)
Definition extract_label (bytes : list nat) : outcome (list nat * list nat) :=
  if length bytes <? 8 then UB
  else
    let samples := length bytes - 8 in
    obind (set_labels (repeat 0 (prod [samples; 10])) 0 (skipn 8 bytes)) (fun d => Ok ([samples; 10], d)).

(** dataset.hpp:64-67: the four files of a directory, in the order of the result.  (The order in which the arguments of make_tuple
    are evaluated is not fixed; it only matters for which of two failures comes first.) *)
Record mnist := Mnist { x_train : list nat * list nat; y_train : list nat * list nat; x_test : list nat * list nat; y_test : list nat * list nat }.
Definition load_data (dbg : bool) (train_images train_labels test_images test_labels : option (list nat)) : outcome mnist :=
  obind (obind (load_binary dbg train_images) extract_image) (fun xt =>
  obind (obind (load_binary dbg train_labels) extract_label) (fun yt =>
  obind (obind (load_binary dbg test_images) extract_image) (fun xe =>
  obind (obind (load_binary dbg test_labels) extract_label) (fun ye => Ok (Mnist xt yt xe ye))))).
