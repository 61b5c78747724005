(** Model of object serialisation: DMI/src/{BObj.h,DynamicTypeManager.cc,BlockSet.cc,
    Record.cc,List.cc,Vec.cc,NumArray.cc} and OCTOPUSSY/src/Message.cc.

    A block is its list of bytes, a BlockSet the list of its blocks (reference
    counting, sharing and locking of blocks are not modelled here).  Records and
    dynamic Vecs unpack their contents lazily: [OPacked bs] is a field or element still
    held as blocks.  int arithmetic is unbounded; where the code computes an offset in
    size_t from a negative int, the wrap-around to a huge value is modelled by the
    comparison it makes fail. *)
From Verif Require Import Base Bytes_Model Hiid_Model Pack_Model.
Local Open Scope Z_scope.

Notation block := (list Z) (only parsing).

(** the four serialisable container classes *)
Inductive cls := KVec | KArr | KRec | KList.

(** What the registries know (DynamicTypeManager.h, TypeInfo.h:131-152).
    [te_class]: type ids of classes derived from Vec, NumArray, Record or List that
    inherit toBlock/fromBlock (e.g. every MEQ Record subclass); [te_hiid]: TpDMIHIID;
    [te_bin]: registered binary structs and their sizes; [te_vec]: TpDMIVec. *)
Record tenv := {
  te_class : Z -> option cls;
  te_hiid : Z;
  te_bin : Z -> option nat;
  te_vec : Z
}.

(** sizes of the numeric types, TypeId.h:90-108 (x86-64): ids -32 (bool) to -47 (dcomplex) *)
Definition num_size (t : Z) : option nat :=
  if (-47 <=? t) && (t <=? -32)
  then nth_error [1;1;1;2;2;4;4;8;8;8;8;4;8;16;8;16]%nat (Z.to_nat (-32 - t))
  else None.
Definition Tpstring : Z := -48.

(** TypeInfo::find(tid).category with the element size where there is one
    (TypeId.h:50-60, TypeInfo.h:155-156) *)
Inductive cat := CBin (k : nat) | CString | CHiid | CDyn | COther.
Definition category (e : tenv) (t : Z) : cat :=
  match num_size t with
  | Some k => CBin k
  | None => if t =? Tpstring then CString
            else if t =? te_hiid e then CHiid
            else match te_bin e t with
                 | Some k => CBin k
                 | None => match te_class e t with Some _ => CDyn | None => COther end
                 end
  end.

(** Objects.  The first argument of each object is its class (objectType()).
    [ONull] and [OPacked] occur only as contents of a container: an empty reference, and
    an object still in blocks (Record::Field::bset_, Vec::Element::bset). *)
Inductive obj : Type :=
| ONull
| OPacked (bs : list block)
| OVec0 (tid : Z)                                                  (* uninitialised Vec *)
| OVecBin (tid ty : Z) (scalar : bool) (n : nat) (data : list Z)     (* numeric/binary *)
| OVecStr (tid : Z) (scalar : bool) (l : list (list Z))             (* of string *)
| OVecHiid (tid ty : Z) (scalar : bool) (l : list (list Z))         (* of HIID; ty = TpDMIHIID *)
| OVecDyn (tid ty : Z) (scalar : bool) (elems : list obj)
| OArr0 (tid : Z)                                                  (* empty NumArray *)
| OArrNum (tid ty : Z) (shape : list Z) (data : list Z)
| OArrStr (tid : Z) (shape : list Z) (l : list (list Z))
| ORec (tid : Z) (fields : list (list Z * obj))    (* in iteration order of the hash map *)
| OList (tid : Z) (items : list obj).

(** ** Storing *)

(** BObj.h:97-110, fillHeader *)
Definition hdr (tid : Z) (bc : nat) : list Z := enc_i32 tid ++ enc_i32 (Z.of_nat bc).

(** Vec.cc:135-136, 448: the size is stored as -1 for a scalar (whose mysize_ is 1) *)
Definition szfield (scalar : bool) (n : nat) : Z := if scalar then - Z.of_nat n else Z.of_nat n.

(** the bytes an ArrayPacker produces into a block of exactly packSize bytes,
    Vec.cc:441-446 *)
Definition arr_bytes {T} (p : epacker T) (l : list T) : list Z :=
  match arr_pack p l (arr_packSize p l) with Ok (b, _) => b | _ => [] end.

(** NumArray.cc:474-476 (same in init): the data start on a multiple of 8 *)
Definition arr_offset (rank : nat) : nat := ((16 + 4 * rank + 7) / 8 * 8)%nat.
Definition pad (rank : nat) : list Z := repeat 0 (arr_offset rank - (16 + 4 * rank)).

(** counts of blocks of a list of block lists *)
Definition counts (bss : list (list block)) : list Z := map (fun bs => Z.of_nat (length bs)) bss.

(** toBlock of all classes: List.cc:211-248, Record.cc:274-310 with Field::toBlock 98-107,
    Vec.cc:408-510, NumArray.cc:525-575.  Result: the blocks appended to the set; the
    return value is their number.  Padding bytes of array blocks are zero here
    (unspecified in the code, never read). *)
Fixpoint toBlock (o : obj) : list block :=
  match o with
  | ONull => []
  | OPacked bs => bs
  | OVec0 tid => [hdr tid 1 ++ enc_i32s [0; 0]]
  | OVecBin tid ty sc n data => [hdr tid 1 ++ enc_i32s [ty; szfield sc n] ++ data]
  | OVecStr tid sc l =>
      [hdr tid 1 ++ enc_i32s [Tpstring; szfield sc (length l)] ++ arr_bytes string_packer l]
  | OVecHiid tid ty sc l =>
      [hdr tid 1 ++ enc_i32s [ty; szfield sc (length l)] ++ arr_bytes hiid_packer l]
  | OVecDyn tid ty sc es =>
      let bss := map toBlock es in
      (hdr tid (1 + length (concat bss)) ++ enc_i32s [ty; szfield sc (length es)] ++ enc_i32s (counts bss))
      :: concat bss
  | OArr0 tid => [hdr tid 1 ++ enc_i32s [0; 0]]
  | OArrNum tid ty shape data =>
      [hdr tid 1 ++ enc_i32s [ty; Z.of_nat (length shape)] ++ enc_i32s shape ++ pad (length shape) ++ data]
  | OArrStr tid shape l =>
      [hdr tid 1 ++ enc_i32s [Tpstring; Z.of_nat (length shape)] ++ enc_i32s shape
       ++ enc_i32s (map (fun s => Z.of_nat (length s)) l) ++ concat l]
  | ORec tid fs =>
      let bss := map (fun f => toBlock (snd f)) fs in
      (hdr tid (1 + length (concat bss)) ++ enc_i32 (Z.of_nat (length fs))
       ++ flat_map (fun f => enc_i32s [Z.of_nat (hiid_packSize (fst f));
                                       Z.of_nat (length (toBlock (snd f)))]) fs
       ++ flat_map (fun f => enc_i32s (fst f)) fs)
      :: concat bss
  | OList tid items =>
      let bss := map toBlock items in
      (hdr tid (1 + length (concat bss)) ++ enc_i32 (Z.of_nat (length items)) ++ enc_i32s (counts bss))
      :: concat bss
  end.

(** ** Rebuilding *)

(** Outcome of a rebuilding step: the object and the blocks left in the set; an
    exception (with the blocks left in the set at that point); undefined behaviour. *)
Inductive pres (A : Type) : Type :=
| POk (a : A) (rest : list block)
| PErr (rest : list block)
| PUB.
Arguments POk {A}. Arguments PErr {A}. Arguments PUB {A}.

(** the [i]-th 32-bit word of a block *)
Definition word (i : nat) (b : block) : Z := dec_i32 (firstn 4 (skipn (4 * i) b)).

(** BlockSet.cc:33-42, popMove, for each of a list of counts (Vec.cc:366-384).
    A negative count makes cursize grow without adding blocks: the set is corrupt. *)
Fixpoint take_counts (cs : list Z) (r : list block) : pres (list obj) :=
  match cs with
  | [] => POk [] r
  | c :: cs' =>
      if c =? 0 then
        match take_counts cs' r with POk os r' => POk (ONull :: os) r' | PErr r' => PErr r' | PUB => PUB end
      else if c <? 0 then PUB
      else if Z.of_nat (length r) <? c then PErr r
      else match take_counts cs' (skipn (Z.to_nat c) r) with
           | POk os r' => POk (OPacked (firstn (Z.to_nat c) r) :: os) r'
           | PErr r' => PErr r' | PUB => PUB end
  end.
Definition zsum (cs : list Z) : Z := fold_right Z.add 0 cs.

(** Vec.cc:304-393 with the header block [b] already popped, [r] the remaining set.
    BObj::checkHeader (BObj.h:112-116) reads the header before the size is checked. *)
Definition vec_from (e : tenv) (t : Z) (b : block) (r : list block) : pres obj :=
  let hsize := Z.of_nat (length b) in
  if hsize <? 8 then PUB else
  if negb (word 0 b =? t) then PErr r else
  let bc := word 1 b in
  if hsize <? 16 then PErr r else
  let ty := word 2 b in
  let sc := word 3 b =? -1 in
  let n := if sc then 1 else word 3 b in
  if ty =? 0 then POk (OVec0 t) r else
  match category e ty with
  | CBin k =>
      if negb (hsize =? 16 + Z.of_nat k * n) then PErr r else
      if negb (bc =? 1) then PErr r else
      POk (OVecBin t ty sc (Z.to_nat n) (skipn 16 b)) r
  | CString =>
      match arr_allocate string_packer (skipn 16 b) with
      | Ok l => if negb (Z.of_nat (length l) =? n) then PErr r else
                if negb (bc =? 1) then PErr r else POk (OVecStr t sc l) r
      | Err => PErr r | UB => PUB end
  | CHiid =>
      match arr_allocate hiid_packer (skipn 16 b) with
      | Ok l => if negb (Z.of_nat (length l) =? n) then PErr r else
                if negb (bc =? 1) then PErr r else POk (OVecHiid t ty sc l) r
      | Err => PErr r | UB => PUB end
  | CDyn =>
      if negb (hsize =? 16 + 4 * n) then PErr r else
      let cs := dec_i32s (Z.to_nat n) (skipn 16 b) in
      match take_counts cs r with
      | POk os r' => if negb (1 + zsum cs =? bc) then PErr r' else POk (OVecDyn t ty sc os) r'
      | PErr r' => PErr r' | PUB => PUB end
  | COther => PErr r
  end.

(** product of the dimensions, NumArray.cc:470-473 *)
Definition zprod (l : list Z) : Z := fold_right Z.mul 1 l.

(** NumArray.cc:489-505: copies [lens] strings out of the character data.
    [None]: ran out of space ("malformed data block"). *)
Fixpoint split_strings (lens chars : list Z) : option (list (list Z) * list Z) :=
  match lens with
  | [] => Some ([], chars)
  | c :: cs => if Z.of_nat (length chars) <? c then None else
               match split_strings cs (skipn (Z.to_nat c) chars) with
               | Some (l, d) => Some (firstn (Z.to_nat c) chars :: l, d) | None => None end
  end.
(** an array of unsigned ints *)
Fixpoint dec_u32s (n : nat) (bs : list Z) : list Z :=
  match n with O => [] | S n' => le_val (firstn 4 bs) :: dec_u32s n' (skipn 4 bs) end.

(** NumArray.cc:438-522.  The check at line 463 only covers (2+rank) ints, so the shape
    may be read past the end of the block.  Overflow of the size product is not
    modelled; a negative rank is a large unsigned one. *)
Definition arr_from (e : tenv) (t : Z) (b : block) (r : list block) : pres obj :=
  let hsize := Z.of_nat (length b) in
  if hsize <? 16 then PErr r else
  if negb (word 0 b =? t) then PErr r else
  if negb (word 1 b =? 1) then PErr r else
  let ty := word 2 b in
  let rank := word 3 b in
  if ty =? 0 then (if (rank =? 0) && (hsize =? 16) then POk (OArr0 t) r else PErr r) else
  let num := match num_size ty with Some k => Some k | None => None end in
  if match num with Some _ => false | None => negb (ty =? Tpstring) end then PErr r else
  if (rank <? 1) || (10 <? rank) then PErr r else
  if hsize <? (2 + rank) * 4 then PErr r else
  if hsize <? 16 + 4 * rank then PUB else
  let k := Z.to_nat rank in
  let shape := dec_i32s k (skipn 16 b) in
  match num with
  | Some el => if hsize =? Z.of_nat (arr_offset k) + zprod shape * Z.of_nat el
               then POk (OArrNum t ty shape (skipn (arr_offset k) b)) r else PErr r
  | None =>
      let n := zprod shape in
      if hsize <? 16 + 4 * rank + 4 * n then PErr r else
      let lens := dec_u32s (Z.to_nat n) (skipn (16 + 4 * k) b) in
      match split_strings lens (skipn (16 + 4 * k + 4 * Z.to_nat n) b) with
      | Some (l, []) => POk (OArrStr t shape l) r
      | _ => PErr r end
  end.

(** [fields\[id\]] followed by assignment of the content, on the hash map kept as a list *)
Fixpoint field_set (fs : list (list Z * obj)) (id : list Z) (o : obj) : list (list Z * obj) :=
  match fs with
  | [] => [(id, o)]
  | (id', o') :: r => if hiid_eqb id id' then (id', o) :: r else (id', o') :: field_set r id o
  end.

(** the loop of Record.cc:246-265 with Field::fromBlock (88-96).  [i] = field number,
    [off] = off_hids, [nref] the running count.  A negative block count copies the whole
    remaining set into the field and pops nothing.  A negative id size becomes a huge
    size_t, on which HIID::unpack throws (bad block size or vector::resize). *)
Fixpoint rec_fields (b : block) (n i : nat) (off : Z) (nref : Z) (fs : list (list Z * obj))
    (r : list block) : pres (list (list Z * obj) * Z) :=
  match n with
  | O => POk (fs, nref) r
  | S n' =>
      let idsize := word (3 + 2 * i) b in
      let bc := word (4 + 2 * i) b in
      if Z.of_nat (length b) <? off + idsize then PErr r else
      if idsize <? 0 then PErr r else
      match hiid_unpack (skipn (Z.to_nat off) b) (Z.to_nat idsize) with
      | Err => PErr r | UB => PUB
      | Ok id =>
          if bc =? 0 then rec_fields b n' (S i) (off + idsize) nref (field_set fs id ONull) r
          else if bc <? 0 then
            rec_fields b n' (S i) (off + idsize) (nref + bc) (field_set fs id (OPacked r)) r
          else if Z.of_nat (length r) <? bc then PErr r
          else rec_fields b n' (S i) (off + idsize) (nref + bc)
                 (field_set fs id (OPacked (firstn (Z.to_nat bc) r))) (skipn (Z.to_nat bc) r)
      end
  end.

(** Record.cc:226-271; validateContent() of subclasses is not modelled *)
Definition rec_from (t : Z) (b : block) (r : list block) : pres obj :=
  let hsize := Z.of_nat (length b) in
  if hsize <? 12 then PErr r else
  if negb (word 0 b =? t) then PErr r else
  let bc := word 1 b in
  let nf := word 2 b in
  let off := 12 + 8 * nf in
  if off <? 0 then PErr r else
  if hsize <? off then PErr r else
  match rec_fields b (Z.to_nat nf) 0 off 1 [] r with
  | POk (fs, nref) r' => if negb (nref =? bc) then PErr r' else POk (ORec t fs) r'
  | PErr r' => PErr r' | PUB => PUB
  end.

(** the object put in place of an item that failed to unpack, List.cc:185-194
    (the text of the exception is not modelled) *)
Definition error_item (e : tenv) : obj := OVecStr (te_vec e) true [[101;114;114;111;114]].

(** the loop of List.cc:171-203; [rec] is DynamicTypeManager::construct(0,set) *)
Fixpoint list_items (e : tenv) (rec : list block -> pres obj) (cs : list Z) (r : list block)
  : pres (list obj) :=
  match cs with
  | [] => POk [] r
  | c :: cs' =>
      if c =? 0 then
        match list_items e rec cs' r with
        | POk os r' => POk (ONull :: os) r' | PErr r' => PErr r' | PUB => PUB end
      else match r with
      | [] => PErr r
      | _ :: _ =>
        let go (o : obj) (r1 : list block) :=
          if negb (Z.of_nat (length r) - Z.of_nat (length r1) =? c) then PErr r1 else
          match list_items e rec cs' r1 with
          | POk os r' => POk (o :: os) r' | PErr r' => PErr r' | PUB => PUB end in
        match rec r with
        | POk o r1 => go o r1
        | PErr r1 => go (error_item e) r1
        | PUB => PUB
        end
      end
  end.

(** List.cc:153-209 *)
Definition list_from (e : tenv) (rec : list block -> pres obj) (t : Z) (b : block) (r : list block)
  : pres obj :=
  let hsize := Z.of_nat (length b) in
  if hsize <? 12 then PErr r else
  if negb (word 0 b =? t) then PErr r else
  let bc := word 1 b in
  let n := word 2 b in
  if negb (hsize =? 12 + 4 * n) then PErr r else
  let cs := dec_i32s (Z.to_nat n) (skipn 12 b) in
  match list_items e rec cs r with
  | POk os r' => if negb (1 + zsum cs =? bc) then PErr r' else POk (OList t os) r'
  | PErr r' => PErr r' | PUB => PUB
  end.

(** default construction, DynamicTypeManager.cc:60-75 *)
Definition default_obj (k : cls) (t : Z) : obj :=
  match k with KVec => OVec0 t | KArr => OArr0 t | KRec => ORec t [] | KList => OList t [] end.

(** DynamicTypeManager.cc:33-47.  [fuel] bounds the nesting depth of Lists (the only
    class that unpacks its contents at once); see [construct]. *)
Fixpoint construct_f (fuel : nat) (e : tenv) (tid : Z) (set : list block) : pres obj :=
  match set with
  | [] => match te_class e tid with Some k => POk (default_obj k tid) [] | None => PErr [] end
  | b :: r =>
      if (tid =? 0) && Nat.ltb (length b) 4 then PUB else
      let t := if tid =? 0 then word 0 b else tid in
      match te_class e t with
      | None => PErr set
      | Some KVec => vec_from e t b r
      | Some KArr => arr_from e t b r
      | Some KRec => rec_from t b r
      | Some KList =>
          match fuel with
          | O => PUB
          | S f => list_from e (construct_f f e 0) t b r
          end
      end
  end.
(** every nested List pops at least its header block, so the depth is below the number
    of blocks (theorem [construct_depth]) *)
Definition construct (e : tenv) (tid : Z) (set : list block) : pres obj :=
  construct_f (S (length set)) e tid set.

(** ** Messages, OCTOPUSSY/src/Message.h:270-316; the forwarder is not stored, latency
    statistics are compiled out (latsize 0). *)
Record msgobj := {
  mg_pri : Z; mg_state : Z; mg_flags : Z; mg_hops : Z;
  mg_id : list Z; mg_from : list Z; mg_to : list Z;
  mg_block : option block;
  mg_payload : option obj
}.

(** objectType() *)
Definition type_of (o : obj) : Z :=
  match o with
  | ONull | OPacked _ => 0
  | OVec0 t | OVecBin t _ _ _ _ | OVecStr t _ _ | OVecHiid t _ _ _ | OVecDyn t _ _ _
  | OArr0 t | OArrNum t _ _ _ | OArrStr t _ _ | ORec t _ | OList t _ => t
  end.

(** a C++ short *)
Definition enc_i16 (z : Z) : list Z := le_bytes 2 z.
Definition dec_i16 (bs : list Z) : Z := to_signed 2 (le_val bs).

(** Message.cc:222-269.  The pad byte of the header struct (after has_block) is 0 here. *)
Definition msg_toBlock (tmsg : Z) (m : msgobj) : list block :=
  let pl := match mg_payload m with Some o => toBlock o | None => [] end in
  let bl := match mg_block m with Some b => [b] | None => [] end in
  (hdr tmsg (1 + length bl + length pl)
   ++ enc_i32s [mg_pri m; mg_state m; mg_flags m;
                Z.of_nat (hiid_packSize (mg_id m)); Z.of_nat (hiid_packSize (mg_from m));
                Z.of_nat (hiid_packSize (mg_to m)); 0]
   ++ enc_i16 (mg_hops m)
   ++ [match mg_block m with Some _ => 1 | None => 0 end; 0]
   ++ enc_i32 (match mg_payload m with Some o => type_of o | None => 0 end)
   ++ enc_i32s (mg_id m) ++ enc_i32s (mg_from m) ++ enc_i32s (mg_to m))
  :: bl ++ pl.

(** HIID::unpack at an offset in the header block; throws on a negative size, as above *)
Definition unpack_at (b : block) (off sz : Z) : res (list Z) :=
  if sz <? 0 then Err else hiid_unpack (skipn (Z.to_nat off) b) (Z.to_nat sz).

(** Message.cc:171-219.  [set.pop(block_)] on an empty set is undefined; the header
    is read (checkHeader) before its size is checked. *)
Definition msg_fromBlock (e : tenv) (tmsg : Z) (set : list block) : pres msgobj :=
  match set with
  | [] => PUB
  | b :: r =>
    let hsize := Z.of_nat (length b) in
    if hsize <? 8 then PUB else
    if negb (word 0 b =? tmsg) then PErr r else
    let ebc := word 1 b in
    if hsize <? 44 then PErr r else
    let idsize := word 5 b in let fromsize := word 6 b in
    let tosize := word 7 b in let latsize := word 8 b in
    if negb (hsize =? 44 + idsize + fromsize + tosize + latsize) then PErr r else
    match bind (unpack_at b 44 idsize) (fun id =>
          bind (unpack_at b (44 + idsize) fromsize) (fun from =>
          bind (unpack_at b (44 + idsize + fromsize) tosize) (fun to => Ok (id, from, to)))) with
    | Ok (id, from, to) =>
      let has_block := negb (nth 38 b 0 =? 0) in
      let ptype := word 10 b in
      match (if has_block then match r with [] => None | d :: r' => Some (Some d, r') end
             else Some (None, r)) with
      | None => PUB
      | Some (dat, r1) =>
        let mk pl := {| mg_pri := word 2 b; mg_state := word 3 b; mg_flags := word 4 b;
                        mg_hops := dec_i16 (firstn 2 (skipn 36 b));
                        mg_id := id; mg_from := from; mg_to := to;
                        mg_block := dat; mg_payload := pl |} in
        let n1 := 1 + (if has_block then 1 else 0) in
        if ptype =? 0 then
          (if negb (ebc =? n1) then PErr r1 else POk (mk None) r1)
        else match construct e ptype r1 with
             | POk o r2 =>
                 if negb (ebc =? n1 + (Z.of_nat (length r1) - Z.of_nat (length r2))) then PErr r2
                 else POk (mk (Some o)) r2
             | PErr r2 => PErr r2
             | PUB => PUB
             end
      end
    | UB => PUB
    | Err => PErr r
    end
  end.
