(** Model of OCTOPUSSY/src/Subscriptions.cc, Subscriptions.h.
    A MsgAddress is a HIID (OCTOPUSSY/src/MsgAddress.h), so both components of a
    subscription are HIIDs.  Of a Message only its id and its sender are read. *)
From Verif Require Import Base Bytes_Model Hiid_Model.
Local Open Scope Z_scope.

(** Subscriptions.h:82 *)
Record sub := { s_mask : hiid; s_scope : hiid }.
(** Subscriptions.h:86,95 *)
Record subs := { s_list : list sub; s_pksize : Z }.

Definition pksz (x : hiid) : Z := Z.of_nat (hiid_packSize x).

(** Subscriptions.cc:34-37 *)
Definition subs_init : subs := {| s_list := []; s_pksize := 8 |}.

(** Subscriptions.cc:44-59: the scan.  [None]: fell off the end. *)
Fixpoint add_scan (l : list sub) (id scope : hiid) : option (bool * list sub * Z) :=
  match l with
  | [] => None
  | e :: l' =>
      if hiid_subset id (s_mask e) && hiid_subset scope (s_scope e) then Some (false, l, 0)
      else if hiid_subset (s_mask e) id && hiid_subset (s_scope e) scope then
        Some (true, {| s_mask := id; s_scope := scope |} :: l',
              pksz id - pksz (s_mask e) + pksz scope - pksz (s_scope e))
      else match add_scan l' id scope with
           | None => None
           | Some (r, l'', d) => Some (r, e :: l'', d)
           end
  end.
(** Subscriptions.cc:41-65 *)
Definition subs_add (s : subs) (id scope : hiid) : bool * subs :=
  match add_scan (s_list s) id scope with
  | Some (r, l, d) => (r, {| s_list := l; s_pksize := s_pksize s + d |})
  | None =>
      (true, {| s_list := s_list s ++ [{| s_mask := id; s_scope := scope |}];
                s_pksize := s_pksize s + (pksz id + pksz scope + 2 * 8) |})
  end.

(** Subscriptions.cc:67-83 *)
Fixpoint remove_scan (l : list sub) (id : hiid) : bool * list sub * Z :=
  match l with
  | [] => (false, [], 0)
  | e :: l' =>
      let '(r, l'', d) := remove_scan l' id in
      if hiid_subset (s_mask e) id
      then (true, l'', d + (pksz (s_mask e) + pksz (s_scope e) + 2 * 8))
      else (r, e :: l'', d)
  end.
Definition subs_remove (s : subs) (id : hiid) : bool * subs :=
  let '(r, l, d) := remove_scan (s_list s) id in
  (r, {| s_list := l; s_pksize := s_pksize s - d |}).

(** Subscriptions.cc:85-89 *)
Definition subs_clear (s : subs) : subs := {| s_list := []; s_pksize := 8 |}.

(** Subscriptions.cc:91-97 *)
Definition subs_merge (s other : subs) : bool * subs :=
  fold_left (fun acc e => let '(r, s') := subs_add (snd acc) (s_mask e) (s_scope e) in
                          (fst acc || r, s'))
            (s_list other) (false, s).

(** Subscriptions.cc:99-105 *)
Definition subs_matches (s : subs) (msgid from : hiid) : bool :=
  existsb (fun e => hiid_matches msgid (s_mask e) && hiid_matches from (s_scope e)) (s_list s).

(** Subscriptions.cc:118-125: packs the elements; returns sizes, data, nleft. *)
Fixpoint pack_elems (l : list sub) (nleft : nat) : res (list Z * list Z * nat) :=
  match l with
  | [] => Ok ([], [], nleft)
  | e :: l' =>
      bind (hiid_pack (s_mask e) nleft) (fun '(b1, sz1, n1) =>
      bind (hiid_pack (s_scope e) n1) (fun '(b2, sz2, n2) =>
      bind (pack_elems l' n2) (fun '(hdr, data, n3) =>
      Ok (Z.of_nat sz1 :: Z.of_nat sz2 :: hdr, b1 ++ b2 ++ data, n3))))
  end.
(** Subscriptions.cc:107-128.  Returns (bytes, return value, nleft). *)
Definition subs_pack (s : subs) (nleft : nat) : res (list Z * Z * nat) :=
  let hdrsize := (8 * (1 + 2 * length (s_list s)))%nat in
  if negb (Z.of_nat hdrsize <=? s_pksize s) then Err
  else if Nat.ltb nleft hdrsize then Err
  else bind (pack_elems (s_list s) (nleft - hdrsize)) (fun '(hdr, data, n) =>
       let total := Z.of_nat hdrsize + fold_right Z.add 0 hdr in
       if negb (total =? s_pksize s) then Err
       else Ok (enc_u64 (Z.of_nat (length (s_list s))) ++ enc_u64s hdr ++ data, total, n)).

(** Subscriptions.cc:140-149.  [hdr]: sizes still to be read; [data]: bytes from
    the data pointer to the end of the block; [chk]: chksize (size_t, wraps). *)
Fixpoint unpack_elems (n : nat) (sz chk : Z) (hdr data : list Z) : res (list sub * Z) :=
  match n with
  | O => Ok ([], chk)
  | S n' =>
      let sz1 := dec_u64 (firstn 8 hdr) in
      let sz2 := dec_u64 (firstn 8 (skipn 8 hdr)) in
      let chk' := (chk + (sz1 + sz2)) mod 2 ^ 64 in
      if sz <? chk' then Err
      else
        (* HIID::unpack: size not a multiple of 4 throws; a size beyond the
           block reads out of bounds; max_size is 2^61-1 atoms *)
        let up d z := if negb (z mod 4 =? 0) then Err
                      else if 2 ^ 63 <=? z then Err
                      else if Z.of_nat (length d) <? z then UB
                      else hiid_unpack d (Z.to_nat z) in
        bind (up data sz1) (fun m =>
        let data1 := skipn (Z.to_nat sz1) data in
        bind (up data1 sz2) (fun sc =>
        let data2 := skipn (Z.to_nat sz2) data1 in
        bind (unpack_elems n' sz chk' (skipn 16 hdr) data2) (fun '(l, c) =>
        Ok ({| s_mask := m; s_scope := sc |} :: l, c))))
  end.
(** Subscriptions.cc:130-151, for a block of exactly [sz = length block] bytes.
    The state left behind by a throw is not modelled.  [n] is an int, and the
    int expression [1+2*n] must not overflow (UB otherwise). *)
Definition subs_unpack (block : list Z) : res subs :=
  let sz := Z.of_nat (length block) in
  if sz <? 8 then Err
  else
    let n := to_signed 4 (dec_u64 (firstn 8 block) mod 2 ^ 32) in
    if negb (i32_ok (1 + 2 * n)) then UB
    else
      let chk := (8 * (1 + 2 * n)) mod 2 ^ 64 in
      if sz <? chk then Err
      else bind (unpack_elems (Z.to_nat n) sz chk (skipn 8 block) (skipn (Z.to_nat chk) block))
             (fun '(l, c) =>
              if negb (sz =? c) then Err
              else Ok {| s_list := l; s_pksize := sz |}).

Inductive subs_op :=
| SubAdd (id scope : hiid)
| SubRemove (id : hiid)
| SubClear
| SubMerge (other : subs).
Definition subs_step (s : subs) (o : subs_op) : subs :=
  match o with
  | SubAdd id scope => snd (subs_add s id scope)
  | SubRemove id => snd (subs_remove s id)
  | SubClear => subs_clear s
  | SubMerge other => snd (subs_merge s other)
  end.
