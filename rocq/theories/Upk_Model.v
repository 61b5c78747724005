(** Packer.h: unpacking arbitrary bytes, with the 64-bit arithmetic of the code.

    [Pack_Model] uses unbounded sizes and gives an element exactly its bytes.  Here an element is
    unpacked from a pointer and a declared size, as in the code; memory is the bytes from the
    pointer to the end of the allocated block, and reading beyond is undefined behaviour.
    Not modelled: alignment; an allocation that fails for sizes below 2^62 (it throws). *)
From Verif Require Import Base Bytes_Model.
Local Open Scope Z_scope.

(** size_t *)
Definition W64 (z : Z) : Z := z mod 2 ^ 64.
Notation zlen l := (Z.of_nat (length l)).

Record upk (T : Type) := {
  up_bin : nat;                       (* ElemPacker::binary() *)
  up_raw : list Z -> T;               (* what the bytes of a binary element mean *)
  up_un : list Z -> Z -> res T        (* ElemPacker::unpack(val,pointer,size) *)
}.
Arguments up_bin {T}. Arguments up_raw {T}. Arguments up_un {T}.

(** reading [n] bytes at a pointer *)
Definition readn (mem : list Z) (n : Z) : res (list Z) :=
  if n <=? zlen mem then Ok (firstn (Z.to_nat n) mem) else UB.

(** Packer.h:381-384: [string::assign(const char*,size_t)]; it throws length_error (or bad_alloc)
    before reading for sizes no string can have *)
Definition up_string : upk (list Z) :=
  {| up_bin := 0; up_raw := fun b => b; up_un := fun mem sz => if 2 ^ 62 <=? sz then Err else readn mem sz |}.
(** HIID.cc:240-252: [resize] throws before anything is read *)
Definition up_hiid : upk (list Z) :=
  {| up_bin := 0; up_raw := fun b => b;
     up_un := fun mem sz => if negb (sz mod 4 =? 0) then Err else if 2 ^ 62 <=? sz then Err
                            else bind (readn mem sz) (fun b => Ok (dec_i32s (Z.to_nat (sz / 4)) b)) |}.
(** Packer.h:351-355 *)
Definition up_fixed (k : nat) : upk (list Z) :=
  {| up_bin := k; up_raw := fun b => b; up_un := fun mem sz => if sz =? Z.of_nat k then readn mem sz else Err |}.

(** Packer.h:427-458, SeqPacker::unpack: the loop.  [sz0] is the code's counter; the data pointer is
    always [sz0] bytes from the start of the block. *)
Fixpoint useq_loop {T} (p : upk T) (n : nat) (szs mem : list Z) (sz sz0 : Z) : res (list T * Z) :=
  match n with
  | O => Ok ([], sz0)
  | S n' =>
      let s1 := if Nat.eqb (up_bin p) 0 then hd 0 szs else Z.of_nat (up_bin p) in
      let sz0' := W64 (sz0 + s1) in
      if sz <? sz0' then Err else
      let data := skipn (Z.to_nat sz0) mem in
      bind (if Nat.eqb (up_bin p) 0 then up_un p data s1
            else bind (readn data s1) (fun b => Ok (up_raw p b))) (fun v =>
      bind (useq_loop p n' (tl szs) mem sz sz0') (fun '(vs, e) => Ok (v :: vs, e)))
  end.
(** Packer.h:427-437 and 457.  [seq.reserve(n)] throws length_error for 2^60 elements or more of a
    variable-length type (they have at least 8 bytes each); the size table is read as a whole. *)
Definition useq {T} (p : upk T) (mem : list Z) (sz : Z) : res (list T) :=
  if sz <? 8 then Err else
  bind (readn mem 8) (fun h =>
  let n := dec_u64 h in
  let t := if Nat.eqb (up_bin p) 0 then n else 0 in
  let sz0 := W64 (8 * (1 + t)) in
  if sz <? sz0 then Err else
  if 2 ^ 60 <=? t then Err else
  bind (readn mem (8 * (1 + t))) (fun tb =>
  bind (useq_loop p (Z.to_nat n) (dec_u64s (Z.to_nat t) (skipn 8 tb)) mem sz sz0) (fun '(vs, e) =>
  if sz =? e then Ok vs else Err))).
Definition up_vector {T} (p : upk T) : upk (list T) :=
  {| up_bin := 0; up_raw := fun _ => []; up_un := useq p |}.
