(** Model of the image input and output, include/utils/imageio.hpp:12-99.

    A tensor of bytes or numbers is a shape and its elements.  The routines of stb are given by what they promise: the writers read
    width * height * channels elements, row by row, and store a picture; stbi_load of a png gives back that picture (png is lossless);
    stbir_resize_uint8 reads and writes width * height * channels bytes.  A file that cannot be written makes a writer return 0.

    Simplifications: extents are below 2^31; numbers other than bytes are real numbers; an exception and a failed better_assert both are
    [Abort].  The values stbir_resize_uint8 computes are arbitrary. *)
From Coq Require Import List Arith Bool PeanoNat ZArith Reals String Ascii.
From Verif Require Import ListBase TensorModel.
Import ListNotations.
Local Open Scope nat_scope.

Record image (A : Type) := Image { ishape : list nat; pixels : list A }.
Arguments Image {A}. Arguments ishape {A}. Arguments pixels {A}.

Inductive format := Png | Bmp | Tga | Jpg | Hdr.
(** the contents of a file: how it is encoded, width, height, channels, rows of pixels *)
Record picture := Picture { coded : format; width : nat; height : nat; channels : nat; rows : list nat }.
Definition files := string -> option picture.
Definition store (p : string) (x : picture) (fs : files) : files := fun q => if String.eqb p q then Some x else fs q.

(** stbi_write_png and its like for bytes; stbi_write_hdr reads floats, four bytes each.  writable: the file can be opened *)
Definition stbi_write (writable : string -> bool) (f : format) (path : string) (w h ch : nat) (data : list nat) (fs : files) : outcome (bool * files) :=
  let need := (match f with Hdr => 4 | _ => 1 end) * (w * h * ch) in
  if need <=? List.length data then
    if writable path then Ok (true, store path (Picture f w h ch (firstn need data)) fs) else Ok (false, fs)
  else UB.

(** std::string::find_last_of( '.' ) and substr: substr( npos ) throws *)
Fixpoint find_last_of (c : ascii) (s : string) : option nat :=
  match s with
  | EmptyString => None
  | String d t => match find_last_of c t with Some i => Some (S i) | None => if Ascii.eqb c d then Some 0 else None end
  end.
Definition substr (s : string) (from : option nat) : outcome string :=
  match from with Some i => Ok (substring i (String.length s - i) s) | None => Abort end.

(** 42-80 for tensors of bytes *)
Definition direct_imwrite (writable : string -> bool) (path : string) (im : image nat) (fs : files) : outcome (bool * files) :=
  match ishape im with
  | [w; h] | [w; h; _] =>
      let ch := match ishape im with [_; _; c] => c | _ => 1 end in
      if (ch =? 1) || (ch =? 3) || (ch =? 4) then
        obind (substr path (find_last_of "."%char path)) (fun ext =>
        let '(full_path, ext) := if String.eqb ext "" then ((path ++ ".png")%string, ".png"%string) else (path, ext) in
        let write f p := stbi_write writable f p w h ch (pixels im) fs in
        if String.eqb ext ".png" then write Png full_path
        else if String.eqb ext ".bmp" then write Bmp full_path
        else if String.eqb ext ".tga" then write Tga full_path
        else if String.eqb ext ".jpg" || String.eqb ext ".jpeg" then write Jpg full_path
        else if String.eqb ext ".hdr" then write Hdr full_path
        else write Png (full_path ++ ".png")%string)
      else Abort
  | _ => Abort
  end.

(** double to std::uint8_t: undefined if the truncated value does not fit *)
Definition to_uint8 (x : R) : outcome nat :=
  if Rlt_dec (-1) x then if Rlt_dec x 256 then Ok (Z.to_nat (Int_part x)) else UB else UB.

(** tensor.tcc:1002-1037 amax, amin: they start from std::numeric_limits<T>::min(), which is positive for floating-point numbers, and
    std::numeric_limits<T>::max(); an empty tensor fails an assertion *)
Definition amax (least : R) (l : list R) : outcome R := match l with [] => Abort | _ => Ok (fold_left (fun ans x => Rmax x ans) l least) end.
Definition amin (greatest : R) (l : list R) : outcome R := match l with [] => Abort | _ => Ok (fold_left (fun ans x => Rmin x ans) l greatest) end.

(** 95 *)
Definition scale (mx mn x : R) : outcome nat := to_uint8 (255 * (x - mn) / (mx - mn + / 10000000000))%R.
Fixpoint scale_all (mx mn : R) (l : list R) : outcome (list nat) :=
  match l with
  | [] => Ok []
  | x :: l => obind (scale mx mn x) (fun v => obind (scale_all mx mn l) (fun vs => Ok (v :: vs)))
  end.

(** 82-97 for numbers; for bytes it is direct_imwrite; least and greatest as above *)
Definition imwrite (least greatest : R) (writable : string -> bool) (path : string) (im : image R) (fs : files) : outcome (bool * files) :=
  obind (amax least (pixels im)) (fun mx =>
  obind (amin greatest (pixels im)) (fun mn =>
  obind (scale_all mx mn (pixels im)) (fun bytes =>
  direct_imwrite writable path (Image (ishape im) bytes) fs))).

(** 29-39; decode is what stbi_load makes of files that are not png *)
Definition imread (decode : picture -> option (nat * nat * nat * list nat)) (path : string) (fs : files) : image nat :=
  match fs path with
  | None => Image [] []
  | Some p =>
      match match coded p with Png => Some (width p, height p, channels p, rows p) | _ => decode p end with
      | None => Image [] []
      | Some (w, h, ch, data) => Image [w; h; ch] (firstn (w * h * ch) data)
      end
  end.

(** 12-27; pixel gives the bytes stbir_resize_uint8 computes *)
Definition stbir_resize (pixel : nat -> nat) (input : list nat) (in_w in_h : nat) (output : list nat) (out_w out_h ch : nat) : outcome (list nat) :=
  if (in_w * in_h * ch <=? List.length input) && (out_w * out_h * ch <=? List.length output) then
    Ok (tab (out_w * out_h * ch) pixel ++ skipn (out_w * out_h * ch) output)
  else UB.
Definition imresize (pixel : nat -> nat) (im : image nat) (out : list nat) : outcome (image nat) :=
  let ans := repeat 0 (prod out) in
  match ishape im, out with
  | [w; h; c], [ow; oh; oc] => if c =? oc then obind (stbir_resize pixel (pixels im) w h ans ow oh c) (fun d => Ok (Image out d)) else Abort
  | [w; h], ow :: oh :: _ => obind (stbir_resize pixel (pixels im) w h ans ow oh 2) (fun d => Ok (Image out d))
  | _, _ => UB
  end.
