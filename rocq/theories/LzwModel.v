(** Model of the LZW codec in include/utils/lzw.hpp.

    Bytes are [N] values below 256 (the bit pattern of the C++ [char]); [char] is taken to be signed, as on x86.
    Codes are [N]; the C++ type is std::uint32_t, and truncation to 32 bits is written where a shift could overflow.
    Everything is parameterised by [dms], the dictionary limit; the shipped value is [shipped_dms] = 2^20 (lzw.hpp:28). *)
From Coq Require Import List NArith Bool.
Import ListNotations.
Local Open Scope N_scope.

(** lzw.hpp:28 [const CodeType dms {1024 * 1024}] *)
Definition shipped_dms : N := 1024 * 1024.

(** lzw.hpp:36-39 [MetaCode::Eof = 1u << CHAR_BIT] *)
Definition eof_code : N := 256.

(** truncation to std::uint32_t (CodeType, lzw.hpp:21) *)
Definition u32 (x : N) : N := x mod 2 ^ 32.

(** conversion to (unsigned) char, used by every [static_cast<char>] / assignment to [unsigned char] *)
Definition u8 (x : N) : N := x mod 256.

(** in-place write [v[i] = a] for i in range; the identity when i is out of range (callers test the range first) *)
Fixpoint upd {A} (l : list A) (i : nat) (a : A) : list A :=
  match l, i with
  | [], _ => []
  | _ :: t, O => a :: t
  | x :: t, S j => x :: upd t j a
  end.

(** [v[i]], [None] when out of range (undefined behaviour for std::vector::operator[]) *)
Definition at_ {A} (l : list A) (i : N) : option A := nth_error l (N.to_nat i).

Definition size_ {A} (l : list A) : N := N.of_nat (length l).

(** lzw.hpp:79 signed order of chars: the code of the one-byte string c is c - CHAR_MIN, i.e. (b + 128) mod 256
    for the bit pattern b.  Also used for the signed comparison [c < vn[ci].c] (lzw.hpp:125,137). *)
Definition initial_code (b : N) : N := if b <? 128 then b + 128 else b - 128.

(** the byte whose initial code is k (k < 256): the loop variable of lzw.hpp:96-99 and 491-492 *)
Definition initial_byte (k : N) : N := if k <? 128 then k + 128 else k - 128.

(** all bytes in the order of lzw.hpp:77,96,491: c = CHAR_MIN .. CHAR_MAX *)
Definition all_bytes : list N := map (fun n => initial_byte (N.of_nat n)) (seq 0 256).

(** lzw.hpp:409-419 required_bits: number of shifts until zero, at least 1.  [N.size] is the number of binary digits;
    the C++ loop gives 1 for n = 0. *)
Definition required_bits (n : N) : nat := if n =? 0 then 1%nat else N.to_nat (N.size n).

Section Codec.
Variable dms : N.

(* ------------------------------------------------------------------ encoder dictionary *)

(** lzw.hpp:50-65 EncoderDictionary::Node *)
Record node := mkNode { first_ : N; ch_ : N; left_ : N; right_ : N }.

(** lzw.hpp:57 Node(char c) *)
Definition new_node (c : N) : node := mkNode dms c dms dms.

(** lzw.hpp:90-103 EncoderDictionary::reset: 256 one-byte nodes and a dummy for Eof *)
Definition reset_nodes : list node := map new_node all_bytes ++ [new_node 0].

(** outcome of the search loop of lzw.hpp:124-152 *)
Inductive walk_res :=
| WFound (ci : N)     (* line 151 *)
| WLeft (ci : N)      (* line 127: missing left link of node ci *)
| WRight (ci : N)     (* line 139: missing right link of node ci *)
| WOob                (* vn[ci] out of range *)
| WFuel.              (* did not finish within the given number of steps *)

(** lzw.hpp:124-152, the [while (true)] over the child search tree *)
Fixpoint walk (fuel : nat) (vn : list node) (ci c : N) : walk_res :=
  match fuel with
  | O => WFuel
  | S fuel' =>
    match at_ vn ci with
    | None => WOob
    | Some nd =>
      if initial_code c <? initial_code (ch_ nd) then
        if left_ nd =? dms then WLeft ci else walk fuel' vn (left_ nd) c
      else if initial_code (ch_ nd) <? initial_code c then
        if right_ nd =? dms then WRight ci else walk fuel' vn (right_ nd) c
      else WFound ci
    end
  end.

(** lzw.hpp:112-161 search_and_insert.  [None] = undefined behaviour (or a search that does not terminate).
    Returns the new table and the returned code. *)
Definition search_and_insert (vn : list node) (i c : N) : option (list node * N) :=
  if i =? dms then Some (vn, initial_code c)                                     (* 114-117, 168-171 *)
  else match at_ vn i with
  | None => None
  | Some nd =>
    let vn_size := size_ vn in
    if first_ nd =? dms then                                                     (* 154-157 *)
      Some (upd vn (N.to_nat i) (mkNode vn_size (ch_ nd) (left_ nd) (right_ nd)) ++ [new_node c], dms)
    else match walk (length vn) vn (first_ nd) c with
    | WFound ci => Some (vn, ci)
    | WLeft ci =>
      match at_ vn ci with
      | Some n1 => Some (upd vn (N.to_nat ci) (mkNode (first_ n1) (ch_ n1) vn_size (right_ n1)) ++ [new_node c], dms)
      | None => None
      end
    | WRight ci =>
      match at_ vn ci with
      | Some n1 => Some (upd vn (N.to_nat ci) (mkNode (first_ n1) (ch_ n1) (left_ n1) vn_size) ++ [new_node c], dms)
      | None => None
      end
    | WOob => None
    | WFuel => None
    end
  end.

(* ------------------------------------------------------------------ bit writer *)

(** lzw.hpp:209-303 CodeWriter (with its ByteCache lo, 192-204); [w_os] is what was put so far, in order *)
Record writer := mkWriter { w_os : list N; w_bits : nat; w_used : nat; w_data : N }.

(** lzw.hpp:215 *)
Definition writer_init : writer := mkWriter [] 9 0 0.

(** lzw.hpp:282-294, the [while (remaining_bits != 0)] loop; [fuel] bounds the iterations (remaining_bits suffices) *)
Fixpoint write_loop (fuel : nat) (os : list N) (k : N) (rem : nat) : list N * nat * N :=
  match fuel with
  | O => (os, O, 0)
  | S fuel' =>
    if Nat.eqb rem 0 then (os, O, 0)
    else if Nat.leb 8 rem then write_loop fuel' (os ++ [u8 k]) (N.shiftr k 8) (rem - 8)
    else (os, rem, u8 k)
  end.

(** lzw.hpp:268-297 CodeWriter::write (the stream is assumed to accept every byte) *)
Definition write (w : writer) (k : N) : writer :=
  if Nat.eqb (w_used w) 0 then
    let '(os, used, data) := write_loop (w_bits w) (w_os w) k (w_bits w) in
    mkWriter os (w_bits w) used data
  else
    let byte := u8 (N.lor (w_data w) (u32 (N.shiftl k (N.of_nat (w_used w))))) in
    let '(os, used, data) :=
      write_loop (w_bits w) (w_os w ++ [byte]) (N.shiftr k (N.of_nat (8 - w_used w))) (w_bits w - (8 - w_used w)) in
    mkWriter os (w_bits w) used data.

(** lzw.hpp:223-232 ~CodeWriter: writes Eof, flushes the incomplete byte *)
Definition writer_finish (w : writer) : list N :=
  let w' := write w eof_code in
  if Nat.eqb (w_used w') 0 then w_os w' else w_os w' ++ [w_data w'].

Definition set_bits (w : writer) (b : nat) : writer := mkWriter (w_os w) b (w_used w) (w_data w).

(** local variables of compress, lzw.hpp:431-433 *)
Record enc := mkEnc { e_vn : list node; e_w : writer; e_i : N }.

Definition enc_init : enc := mkEnc reset_nodes writer_init dms.

(** lzw.hpp:437-464, one iteration of the loop over input characters *)
Definition enc_step (e : enc) (c : N) : option enc :=
  let full := size_ (e_vn e) =? dms in                                           (* 440 *)
  let vn0 := if full then reset_nodes else e_vn e in                             (* 442 *)
  match search_and_insert vn0 (e_i e) c with
  | None => None
  | Some (vn1, r) =>
    let '(w1, i1) :=
      if r =? dms then                                                           (* 448 *)
        let w := write (e_w e) (e_i e) in                                        (* 450 *)
        (if Nat.ltb (w_bits w) (required_bits (size_ vn1 - 1)) then set_bits w (S (w_bits w)) else w,  (* 453-456 *)
         initial_code c)                                                         (* 451 *)
      else (e_w e, r) in
    Some (mkEnc vn1 (if full then set_bits w1 9 else w1) i1)                     (* 459-463 *)
  end.

Fixpoint enc_loop (e : enc) (s : list N) : option enc :=
  match s with
  | [] => Some e
  | c :: t => match enc_step e c with Some e' => enc_loop e' t | None => None end
  end.

(** lzw.hpp:428-470 compress: the bytes written, [None] if it runs into undefined behaviour *)
Definition compress (s : list N) : option (list N) :=
  match enc_loop enc_init s with
  | None => None
  | Some e =>
    let w := if e_i e =? dms then e_w e else write (e_w e) (e_i e) in            (* 466-469 *)
    Some (writer_finish w)
  end.

(* ------------------------------------------------------------------ bit reader *)

(** lzw.hpp:308-402 CodeReader; [r_is] is what is left in the stream, [r_good] is is.good() *)
Record reader := mkReader { r_is : list N; r_bits : nat; r_used : nat; r_data : N; r_good : bool; r_feofmc : bool }.

(** lzw.hpp:314 *)
Definition reader_init (is : list N) : reader := mkReader is 9 0 0 true false.

(** lzw.hpp:364-377; returns (k, rest of stream, used, data, whether every get succeeded) *)
Fixpoint read_loop (is : list N) (rem off : nat) (k : N) : N * list N * nat * N * bool :=
  if Nat.eqb rem 0 then (k, is, O, 0, true)
  else match is with
  | [] => (k, [], O, 0, false)
  | t :: is' =>
    if Nat.leb 8 rem then read_loop is' (rem - 8) (off + 8) (N.lor k (u32 (N.shiftl t (N.of_nat off))))
    else (N.lor k (u32 (N.shiftl (N.land t (N.ones (N.of_nat rem))) (N.of_nat off))),
          is', (8 - rem)%nat, N.shiftr t (N.of_nat rem), true)
  end.

(** lzw.hpp:352-386 CodeReader::read; returns the code, the returned flag and the new reader.
    A stream that went bad stays bad. *)
Definition read (r : reader) : N * bool * reader :=
  let '(k, is', used, data, ok) := read_loop (r_is r) (r_bits r - r_used r) (r_used r) (r_data r) in
  let good := r_good r && ok in
  if k =? eof_code then (k, false, mkReader is' (r_bits r) used data good true)
  else (k, good, mkReader is' (r_bits r) used data good (r_feofmc r)).

Definition r_set_bits (r : reader) (b : nat) : reader :=
  mkReader (r_is r) b (r_used r) (r_data r) (r_good r) (r_feofmc r).

(* ------------------------------------------------------------------ decoder *)

(** lzw.hpp:483-496 reset_dictionary: entries (code of the prefix, last byte) *)
Definition reset_dict : list (N * N) := map (fun c => (dms, c)) all_bytes ++ [(0, 0)].

Inductive rebuilt :=
| RStr (s : list N)   (* the string, already reversed *)
| ROob                (* dictionary[k] out of range *)
| RFuel.              (* the chain did not end within the given number of steps *)

(** lzw.hpp:506-512: follow the prefix chain; [acc] is the reversed [s] *)
Fixpoint rebuild (fuel : nat) (d : list (N * N)) (k : N) (acc : list N) : rebuilt :=
  if k =? dms then RStr acc
  else match fuel with
  | O => RFuel
  | S fuel' =>
    match at_ d k with
    | None => ROob
    | Some (p, c) => rebuild fuel' d p (c :: acc)
    end
  end.

(** result of decompress: what it returned (0 or -1; in a debug build the -1 cases abort in better_assert first),
    and everything written to the output stream *)
Inductive dres :=
| DDone (out : list N)        (* return 0, line 570 *)
| DBadCode (out : list N)     (* return -1, line 542: code larger than the dictionary *)
| DCorrupted (out : list N)   (* return -1, line 567: stream ended without the end marker *)
| DUb (out : list N)          (* undefined behaviour: dictionary index out of range or front() of an empty string *)
| DLoop (out : list N)        (* a prefix chain that does not end *)
| DFuel (out : list N).       (* more iterations than the fuel allows; excluded by theorem *)

(** either the next state (dictionary, reader, i, output so far) or the final result *)
Inductive dstep :=
| Cont (d : list (N * N)) (r : reader) (i : N) (out : list N)
| Stop (res : dres).

(** lzw.hpp:520-562: one iteration of the main loop; on [break] also 564-570.  [out] is what was written so far. *)
Definition dec_step (d : list (N * N)) (r : reader) (i : N) (out : list N) : dstep :=
  let full := size_ d =? dms in
  let d := if full then reset_dict else d in                                     (* 523-527 *)
  let r := if full then r_set_bits r 9 else r in
  let r := if Nat.ltb (r_bits r) (required_bits (size_ d)) then r_set_bits r (S (r_bits r)) else r in  (* 529-532 *)
  let '(k, ok, r) := read r in                                                   (* 534 *)
  if negb ok then Stop (if r_feofmc r then DDone out else DCorrupted out)        (* 536, 564-570 *)
  else if size_ d <? k then Stop (DBadCode out)                                  (* 539-543 *)
  else if k =? size_ d then                                                      (* 547-551 *)
    match rebuild (S (length d)) d i [] with
    | RStr (f :: _) =>
      let d' := d ++ [(i, f)] in
      match rebuild (S (length d')) d' k [] with
      | RStr s => Cont d' r k (out ++ s)
      | ROob => Stop (DUb out)
      | RFuel => Stop (DLoop out)
      end
    | RStr [] => Stop (DUb out)                                                  (* front() of an empty vector *)
    | ROob => Stop (DUb out)
    | RFuel => Stop (DLoop out)
    end
  else                                                                           (* 552-558 *)
    match rebuild (S (length d)) d k [] with
    | RStr (f :: s') => Cont (if i =? dms then d else d ++ [(i, f)]) r k (out ++ f :: s')
    | RStr [] => Stop (DUb out)                                                  (* front() of an empty vector *)
    | ROob => Stop (DUb out)
    | RFuel => Stop (DLoop out)
    end.

(** lzw.hpp:520-570: the [while (true)] loop *)
Fixpoint dec_loop (fuel : nat) (d : list (N * N)) (r : reader) (i : N) (out : list N) : dres :=
  match fuel with
  | O => DFuel out
  | S fuel' =>
    match dec_step d r i out with
    | Cont d' r' i' out' => dec_loop fuel' d' r' i' out'
    | Stop res => res
    end
  end.

(** lzw.hpp:478-571 decompress.  Every successful iteration consumes at least one byte, so length+1 iterations suffice
    (theorem [decompress_terminates]). *)
Definition decompress (is : list N) : dres :=
  dec_loop (S (length is)) reset_dict (reader_init is) dms [].

End Codec.
