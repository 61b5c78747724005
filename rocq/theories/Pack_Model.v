(** Model of the packing templates of DMI/src/Packer.h.
    A packer moves objects to and from raw memory.  [nleft] is the caller's count
    of the space left in the destination.  Blocks are lists of bytes; the two
    separate pointers [hdr] and [data] of the code advance over the size table and
    over the data that follows it.  size_t arithmetic is unbounded here (the code
    wraps at 2^64). *)
From Verif Require Import Base Bytes_Model Hiid_Model.
Local Open Scope Z_scope.

(** An element packer (template argument ElemPacker; Packer.h:42-76).
    [ep_bin] is [binary()]: 0, or the fixed size of a type that is copied bitwise,
    in which case [ep_raw]/[ep_unraw] are that bitwise copy (memcpy). *)
Record epacker (T : Type) := {
  ep_bin : nat;
  ep_raw : T -> list Z;
  ep_unraw : list Z -> T;
  ep_pack : T -> nat -> res (list Z * nat);
  ep_unpack : list Z -> res T;
  ep_size : T -> nat
}.
Arguments ep_bin {T}. Arguments ep_raw {T}. Arguments ep_unraw {T}.
Arguments ep_pack {T}. Arguments ep_unpack {T}. Arguments ep_size {T}.

(** Packer.h:373-391, Packer<string>; a string is its list of characters *)
Definition str_pack (s : list Z) (nleft : nat) : res (list Z * nat) :=
  if Nat.ltb nleft (length s) then Err else Ok (s, (nleft - length s)%nat).
Definition string_packer : epacker (list Z) :=
  {| ep_bin := 0; ep_raw := fun s => s; ep_unraw := fun s => s;
     ep_pack := str_pack; ep_unpack := fun b => Ok b; ep_size := fun s => length s |}.

(** Packer.h:268-293 (generic Packer calling the members of HIID, HIID.cc:226-252) *)
Definition hiid_packer : epacker (list Z) :=
  {| ep_bin := 0; ep_raw := fun s => s; ep_unraw := fun s => s;
     ep_pack := fun x nleft => match hiid_pack x nleft with
                               | Ok (b, _, nl) => Ok (b, nl) | Err => Err | UB => UB end;
     ep_unpack := fun b => hiid_unpack b (length b);
     ep_size := hiid_packSize |}.

(** Packer.h:340-369, BinPacker: a fixed-size type of [k] bytes, represented by them *)
Definition bin_packer (k : nat) : epacker (list Z) :=
  {| ep_bin := k; ep_raw := fun s => s; ep_unraw := fun s => s;
     ep_pack := fun x nleft => if Nat.ltb nleft k then Err else Ok (x, (nleft - k)%nat);
     ep_unpack := fun b => if Nat.eqb (length b) k then Ok b else Err;
     ep_size := fun _ => k |}.

(** one element: Packer.h:411-419 (also 499-518, 615-622).
    Result: size written to the size table, bytes, space left. *)
Definition pack1 {T} (p : epacker T) (x : T) (nleft : nat) : res (list Z * nat) :=
  if Nat.eqb (ep_bin p) 0 then ep_pack p x nleft
  else if Nat.ltb nleft (ep_bin p) then Err
  else Ok (ep_raw p x, (nleft - ep_bin p)%nat).

(** the loop of Packer.h:409-422: (size table, data, space left) *)
Fixpoint pack_elems {T} (p : epacker T) (xs : list T) (nleft : nat) : res (list Z * list Z * nat) :=
  match xs with
  | [] => Ok ([], [], nleft)
  | x :: r =>
      bind (pack1 p x nleft) (fun '(b, nl) =>
      bind (pack_elems p r nl) (fun '(szs, d, nl') =>
      Ok ((if Nat.eqb (ep_bin p) 0 then Z.of_nat (length b) :: szs else szs), b ++ d, nl')))
  end.

(** entries in the size table for [n] elements *)
Definition tab {T} (p : epacker T) (n : nat) : nat := if Nat.eqb (ep_bin p) 0 then n else 0%nat.

(** Packer.h:397-424, SeqPacker::pack.  The element count is stored before the
    space check: with fewer than 8 bytes this writes past the buffer. *)
Definition seq_pack {T} (p : epacker T) (xs : list T) (nleft : nat) : res (list Z * nat) :=
  if Nat.ltb nleft 8 then UB else
  let sz := (8 * (1 + tab p (length xs)))%nat in
  if Nat.ltb nleft sz then Err else
  bind (pack_elems p xs (nleft - sz)) (fun '(szs, d, nl) =>
  Ok (enc_u64 (Z.of_nat (length xs)) ++ enc_u64s szs ++ d, nl)).

(** Packer.h:427-458: the loop of SeqPacker::unpack.  [szs] is the rest of the size
    table, [data] the memory from the data pointer on (its length is sz-sz0). *)
Fixpoint unpack_elems {T} (p : epacker T) (n : nat) (szs data : list Z) : res (list T * list Z) :=
  match n with
  | O => Ok ([], data)
  | S n' =>
      let s1 := if Nat.eqb (ep_bin p) 0 then Z.to_nat (hd 0 szs) else ep_bin p in
      if Nat.ltb (length data) s1 then Err else
      bind (if Nat.eqb (ep_bin p) 0 then ep_unpack p (firstn s1 data)
            else Ok (ep_unraw p (firstn s1 data))) (fun v =>
      bind (unpack_elems p n' (tl szs) (skipn s1 data)) (fun '(vs, d) => Ok (v :: vs, d)))
  end.

Definition seq_unpack {T} (p : epacker T) (block : list Z) : res (list T) :=
  if Nat.ltb (length block) 8 then Err else
  let n := Z.to_nat (dec_u64 (firstn 8 block)) in
  let sz0 := (8 * (1 + tab p n))%nat in
  if Nat.ltb (length block) sz0 then Err else
  let szs := dec_u64s (tab p n) (skipn 8 block) in
  bind (unpack_elems p n szs (skipn sz0 block)) (fun '(vs, d) =>
  if Nat.eqb (length d) 0 then Ok vs else Err).

(** Packer.h:461-472 *)
Definition seq_packSize {T} (p : epacker T) (xs : list T) : nat :=
  if Nat.eqb (ep_bin p) 0
  then (fold_right (fun x a => ep_size p x + a) 0 xs + (1 + length xs) * 8)%nat
  else (8 + ep_bin p * length xs)%nat.

(** Packer.h:701-703: Packer<vector<T> > is SeqPacker<vector<T> > *)
Definition vector_packer {T} (p : epacker T) : epacker (list T) :=
  {| ep_bin := 0; ep_raw := fun _ => []; ep_unraw := fun _ => [];
     ep_pack := seq_pack p; ep_unpack := seq_unpack p; ep_size := seq_packSize p |}.

(** ** Arrays of variable-length elements: Packer.h:594-626 *)
Definition arr_pack {T} (p : epacker T) (xs : list T) (nleft : nat) : res (list Z * nat) :=
  let sz := (8 * (1 + tab p (length xs)))%nat in
  if Nat.ltb nleft sz then Err else
  if Nat.eqb (ep_bin p) 0 then
    bind (pack_elems p xs (nleft - sz)) (fun '(szs, d, nl) =>
    Ok (enc_u64 (Z.of_nat (length xs)) ++ enc_u64s szs ++ d, nl))
  else
    let el := (ep_bin p * length xs)%nat in
    if Nat.ltb (nleft - sz) el then Err else
    Ok (enc_u64 (Z.of_nat (length xs)) ++ flat_map (ep_raw p) xs, (nleft - sz - el)%nat).

(** reads [n] elements of [k] bytes each: the effect of [memcpy(arr,src,k*n)] *)
Fixpoint raw_array {T} (p : epacker T) (n : nat) (src : list Z) : list T :=
  match n with
  | O => []
  | S n' => ep_unraw p (firstn (ep_bin p) src) :: raw_array p n' (skipn (ep_bin p) src)
  end.

(** Packer.h:629-659, ArrayPacker::unpack into an array of [n] elements.  The binary
    branch copies from [block], not from [data] (line 645). *)
Definition arr_unpack {T} (p : epacker T) (n : nat) (block : list Z) : res (list T) :=
  if Nat.ltb (length block) 8 then Err else
  if negb (Z.of_nat n =? dec_u64 (firstn 8 block)) then Err else
  let sz0 := (8 * (1 + tab p n))%nat in
  if Nat.ltb (length block) sz0 then Err else
  if Nat.eqb (ep_bin p) 0 then
    bind (unpack_elems p n (dec_u64s n (skipn 8 block)) (skipn sz0 block)) (fun '(vs, d) =>
    if Nat.eqb (length d) 0 then Ok vs else Err)
  else if Nat.ltb (length block) (sz0 + ep_bin p * n) then Err
  else if negb (Nat.eqb (length block) (sz0 + ep_bin p * n)) then Err
  else Ok (raw_array p n block).

(** Packer.h:676-689, ArrayPacker::allocate ((int) truncation of the count not
    modelled: counts are below 2^31 in every block an array was packed into) *)
Definition arr_allocate {T} (p : epacker T) (block : list Z) : res (list T) :=
  if Nat.ltb (length block) 8 then Err else
  arr_unpack p (Z.to_nat (dec_u64 (firstn 8 block))) block.

(** Packer.h:662-673 *)
Definition arr_packSize {T} (p : epacker T) (xs : list T) : nat := seq_packSize p xs.

(** ** Maps: Packer.h:485-521.  A map is the list of its (key,value) pairs in
    iteration order. *)
Fixpoint map_pack_elems {K V} (pk : epacker K) (pv : epacker V) (m : list (K * V)) (nleft : nat)
  : res (list Z * list Z * nat) :=
  match m with
  | [] => Ok ([], [], nleft)
  | (k, v) :: r =>
      bind (pack1 pk k nleft) (fun '(b1, nl1) =>
      bind (pack1 pv v nl1) (fun '(b2, nl2) =>
      bind (map_pack_elems pk pv r nl2) (fun '(szs, d, nl) =>
      Ok ((if Nat.eqb (ep_bin pk) 0 then [Z.of_nat (length b1)] else []) ++
          (if Nat.eqb (ep_bin pv) 0 then [Z.of_nat (length b2)] else []) ++ szs,
          b1 ++ b2 ++ d, nl))))
  end.
Definition map_pack {K V} (pk : epacker K) (pv : epacker V) (m : list (K * V)) (nleft : nat)
  : res (list Z * nat) :=
  if Nat.ltb nleft 8 then UB else
  let sz := (8 * (1 + tab pk (length m) + tab pv (length m)))%nat in
  if Nat.ltb nleft sz then Err else
  bind (map_pack_elems pk pv m (nleft - sz)) (fun '(szs, d, nl) =>
  Ok (enc_u64 (Z.of_nat (length m)) ++ enc_u64s szs ++ d, nl)).

(** [mp\[key\] = v] on the list of pairs *)
Fixpoint map_set {K V} (eqb : K -> K -> bool) (m : list (K * V)) (k : K) (v : V) : list (K * V) :=
  match m with
  | [] => [(k, v)]
  | (k', v') :: r => if eqb k k' then (k, v) :: r else (k', v') :: map_set eqb r k v
  end.

(** Packer.h:524-568: the loop of MapPacker::unpack.  [sz0] and [sz] are the code's
    counters.  Values of variable length add the size of the KEY to sz0 (line 561). *)
Fixpoint map_unpack_elems {K V} (eqb : K -> K -> bool) (pk : epacker K) (pv : epacker V)
    (n : nat) (sz sz0 : nat) (szs data : list Z) (m : list (K * V)) : res (list (K * V) * nat) :=
  match n with
  | O => Ok (m, sz0)
  | S n' =>
      let kb := Nat.eqb (ep_bin pk) 0 in
      let vb := Nat.eqb (ep_bin pv) 0 in
      let s1 := if kb then Z.to_nat (hd 0 szs) else ep_bin pk in
      let szs1 := if kb then tl szs else szs in
      let sz1 := (sz0 + s1)%nat in
      if Nat.ltb sz sz1 then Err else
      if Nat.ltb (length data) s1 then UB else
      bind (if kb then ep_unpack pk (firstn s1 data) else Ok (ep_unraw pk (firstn s1 data))) (fun k =>
      let data1 := skipn s1 data in
      let s2 := if vb then Z.to_nat (hd 0 szs1) else ep_bin pv in
      let szs2 := if vb then tl szs1 else szs1 in
      let sz2 := (sz1 + (if vb then s1 else s2))%nat in
      if Nat.ltb sz sz2 then Err else
      if Nat.ltb (length data1) s2 then UB else
      bind (if vb then ep_unpack pv (firstn s2 data1) else Ok (ep_unraw pv (firstn s2 data1))) (fun v =>
      map_unpack_elems eqb pk pv n' sz sz2 szs2 (skipn s2 data1) (map_set eqb m k v)))
  end.
Definition map_unpack {K V} (eqb : K -> K -> bool) (pk : epacker K) (pv : epacker V)
    (m : list (K * V)) (block : list Z) : res (list (K * V)) :=
  if Nat.ltb (length block) 8 then Err else
  let n := Z.to_nat (dec_u64 (firstn 8 block)) in
  let sz0 := (8 * (1 + tab pk n + tab pv n))%nat in
  if Nat.ltb (length block) sz0 then Err else
  let szs := dec_u64s (tab pk n + tab pv n) (skipn 8 block) in
  bind (map_unpack_elems eqb pk pv n (length block) sz0 szs (skipn sz0 block) m) (fun '(m', sz0') =>
  if Nat.eqb (length block) sz0' then Ok m' else Err).

(** Packer.h:571-581: the conditional expressions associate so that the value's size
    is dropped: [kb ? kb : ((ksize + vb) ? vb : vsize)] *)
Definition map_packSize {K V} (pk : epacker K) (pv : epacker V) (m : list (K * V)) : nat :=
  (fold_right (fun e a =>
     (if negb (Nat.eqb (ep_bin pk) 0) then ep_bin pk
      else if negb (Nat.eqb (ep_size pk (fst e) + ep_bin pv) 0) then ep_bin pv
      else ep_size pv (snd e)) + a) 0 m
   + 8 * (1 + tab pk (length m) + tab pv (length m)))%nat.
