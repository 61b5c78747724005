(** Model of object files: DMI/src/{BOIO.h,BOIO.cc}.
    The file is a list of bytes.  The C library is modelled by [fread]: a request for
    zero bytes returns 0 items; a short read takes what is there, stores it, and sets the
    end-of-file flag.  Other I/O errors (ferror), and a stack overflow caused by a large
    variable-length array, are not modelled. *)
From Verif Require Import Base Bytes_Model.
Local Open Scope Z_scope.

Notation block := (list Z) (only parsing).

(** BOIO.h:123-126: the header is two ints *)
Definition enc_hdr (tid : Z) (n : nat) : list Z := enc_i32 tid ++ enc_i32 (Z.of_nat n).

(** the loop of BOIO.cc:202-206: fwrite of an empty block returns 0, so it throws there;
    bytes written so far, and the bytes counted (None if it threw) *)
Fixpoint write_blocks (bs : list block) : list Z * option nat :=
  match bs with
  | [] => ([], Some 0%nat)
  | [] :: _ => ([], None)
  | b :: bs' => let (l, r) := write_blocks bs' in (b ++ l, option_map (fun k => length b + k)%nat r)
  end.
(** BOIO.cc:181-209, write of an object with type [tid] and blocks [bs].  An empty array of
    sizes makes fwrite return 0, too.  The returned count leaves out the size array. *)
Definition boio_write (tid : Z) (bs : list block) : list Z * option nat :=
  match bs with
  | [] => (enc_hdr tid 0, None)
  | _ =>
    let (l, r) := write_blocks bs in
    (enc_hdr tid (length bs) ++ enc_u64s (map (fun b => Z.of_nat (length b)) bs) ++ l, option_map (fun k => 8 + k)%nat r)
  end.

(** the reader: BOIO.h:129-140.  [rd_rem]: the bytes after the file position. *)
Record reader := { rd_file : list Z; rd_rem : list Z; rd_eof : bool; rd_have : bool; rd_hdr : list Z }.

(** BOIO.cc:58-79; the header struct is uninitialised: [h0] *)
Definition boio_open (file h0 : list Z) : reader :=
  {| rd_file := file; rd_rem := file; rd_eof := false; rd_have := false; rd_hdr := h0 |}.
(** BOIO.cc:107-111 (fseek, 101-105, likewise): have_header is not reset *)
Definition boio_rewind (r : reader) : reader :=
  {| rd_file := rd_file r; rd_rem := rd_file r; rd_eof := false; rd_have := rd_have r; rd_hdr := rd_hdr r |}.

(** fread(p,n,1,fp): whether 1 was returned, the bytes stored at p, bytes left, feof *)
Definition fread (n : nat) (rem : list Z) (eof : bool) : bool * list Z * list Z * bool :=
  if Nat.eqb n 0 then (false, [], rem, eof)
  else if Nat.leb n (length rem) then (true, firstn n rem, skipn n rem, eof)
  else (false, rem, [], true).

Definition hdr_tid (h : list Z) : Z := dec_i32 (firstn 4 h).
Definition hdr_n (h : list Z) : Z := dec_i32 (firstn 4 (skipn 4 h)).

(** BOIO.cc:156-176 *)
Definition boio_nextType (r : reader) : Z * reader :=
  if rd_have r then (hdr_tid (rd_hdr r), r) else
  let h1 := [0;0;0;0] ++ skipn 4 (rd_hdr r) in
  if rd_eof r then (0, {| rd_file := rd_file r; rd_rem := rd_rem r; rd_eof := true; rd_have := true; rd_hdr := h1 |})
  else
    let '(ok, got, rem, eof) := fread 8 (rd_rem r) (rd_eof r) in
    let h2 := got ++ skipn (length got) h1 in
    let r' := {| rd_file := rd_file r; rd_rem := rem; rd_eof := eof; rd_have := true; rd_hdr := h2 |} in
    if ok then (hdr_tid h2, r') else (0, r').

(** outcome of readAny before the object is built: end of file, exception, undefined
    behaviour, or a type and the blocks for DynamicTypeManager::construct *)
Inductive rout := REof | RThrow | RUB | RObj (tid : Z) (bs : list block).

(** BOIO.cc:138-147 *)
Fixpoint read_blocks (sizes : list Z) (rem : list Z) (eof : bool) : option (list block) * list Z * bool :=
  match sizes with
  | [] => (Some [], rem, eof)
  | n :: ns =>
    let '(ok, got, rem1, eof1) := fread (Z.to_nat n) rem eof in
    if ok then
      let '(o, rem2, eof2) := read_blocks ns rem1 eof1 in
      (option_map (cons got) o, rem2, eof2)
    else (None, rem1, eof1)
  end.
(** BOIO.cc:122-149 (construct itself: Ser_Model) *)
Definition boio_readAny (r : reader) : rout * reader :=
  let (tid, r1) := boio_nextType r in
  if tid =? 0 then (REof, r1) else
  let n := hdr_n (rd_hdr r1) in
  let mk rem eof := {| rd_file := rd_file r1; rd_rem := rem; rd_eof := eof; rd_have := false; rd_hdr := rd_hdr r1 |} in
  if n <? 0 then (RUB, mk (rd_rem r1) (rd_eof r1)) else
  let '(ok, got, rem, eof) := fread (8 * Z.to_nat n) (rd_rem r1) (rd_eof r1) in
  if negb ok then (RThrow, mk rem eof) else
  let '(o, rem2, eof2) := read_blocks (dec_u64s (Z.to_nat n) got) rem eof in
  match o with
  | Some bs => (RObj tid bs, mk rem2 eof2)
  | None => (RThrow, mk rem2 eof2)
  end.
