(** Model of hierarchical identifiers.
    DMI/src/AtomicID.h, DMI/src/HIID.h, DMI/src/HIID.cc.
    An AtomicID wraps one int (AtomicID.h:157); a HIID is a vector of them. *)
From Verif Require Import Base Bytes_Model.
Local Open Scope Z_scope.

Notation aid := Z (only parsing).
Notation hiid := (list Z) (only parsing).

(** AtomicID.h:168-174 *)
Definition AidNull : aid := 0.
Definition AidAny : aid := -1.
Definition AidWildcard : aid := -2.
Definition AidSlash : aid := -3.
Definition AidRange : aid := -4.
Definition AidEmpty : aid := -5.
Definition AidHash : aid := -6.

(** AtomicID.h:270-279 *)
Definition isAny (a : aid) : bool := a =? AidAny.
Definition isWildcard (a : aid) : bool := a =? AidWildcard.

(** AtomicID.h:282-285 *)
Definition aid_index (a : aid) : Z := if 0 <=? a then a else -1.

(** AtomicID.h:288-293 *)
Definition aid_matches (a b : aid) : bool :=
  isAny a || isWildcard a || isAny b || isWildcard b || (a =? b).

(** HIID.cc:56-75, without the [this==&other] shortcut (see [hiid_matches_self]) *)
Fixpoint hiid_matches (x y : hiid) : bool :=
  match x, y with
  | a :: x', b :: y' =>
      if isWildcard a || isWildcard b then true
      else if negb (aid_matches a b) then false
      else hiid_matches x' y'
  | _, _ =>
      (match x with [] => true | a :: _ => isWildcard a end) &&
      (match y with [] => true | b :: _ => isWildcard b end)
  end.

(** HIID.cc:78-97, without the [this==&other] shortcut *)
Fixpoint hiid_subset (x y : hiid) : bool :=
  match x, y with
  | a :: x', b :: y' =>
      if isWildcard b then true
      else if isWildcard a || (isAny a && negb (isAny b)) || negb (aid_matches a b)
      then false
      else hiid_subset x' y'
  | _, _ =>
      (match x with [] => true | _ :: _ => false end) &&
      (match y with [] => true | b :: _ => isWildcard b end)
  end.

(** HIID.cc:58-59 and 80-81: when both operands are the same object the result
    is [true] at once.  [same] says whether they are the same object. *)
Definition hiid_matches_obj (same : bool) (x y : hiid) : bool :=
  if same then true else hiid_matches x y.
Definition hiid_subset_obj (same : bool) (x y : hiid) : bool :=
  if same then true else hiid_subset x y.

(** HIID.h:369-378 (add / operator|) *)
Definition hiid_add (x y : hiid) : hiid := x ++ y.

(** HIID.h:387-390 *)
Definition hiid_prefixedBy (x y : hiid) : bool := hiid_matches x (y ++ [AidWildcard]).

(** HIID.cc:256-268: sizes equal and memcmp of the atoms is 0 *)
Definition hiid_eqb (x y : hiid) : bool :=
  if Nat.eqb (length x) (length y)
  then forallb (fun p => fst p =? snd p) (combine x y)
  else false.

(** HIID.cc:271-289 *)
Fixpoint hiid_ltb (x y : hiid) : bool :=
  match x, y with
  | a :: x', b :: y' =>
      if a <? b then true else if a >? b then false else hiid_ltb x' y'
  | _, [] => false
  | [], _ :: _ => true
  end.

(** HIID.h:447-450 *)
Definition hiid_packSize (x : hiid) : nat := 4 * length x.

(** HIID.cc:226-237.  Returns (bytes written, return value, new nleft). *)
Definition hiid_pack (x : hiid) (nleft : nat) : res (list Z * nat * nat) :=
  let sz := (4 * length x)%nat in
  if Nat.ltb nleft sz then Err
  else Ok (enc_i32s x, sz, (nleft - sz)%nat).

(** HIID.cc:240-252.  [block] is the memory pointed to; reading past its end is UB. *)
Definition hiid_unpack (block : list Z) (sz : nat) : res hiid :=
  if negb (Nat.eqb (sz mod 4) 0) then Err
  else if Nat.ltb (length block) sz then UB
  else Ok (dec_i32s (sz / 4) block).

(** HIID.h:436-443 *)
Fixpoint findFirstSlash (x : hiid) : option nat :=
  match x with
  | [] => None
  | a :: x' => if a =? AidSlash then Some O else option_map S (findFirstSlash x')
  end.

(** HIID.h:393-406 *)
Definition pop_front (x : hiid) (n : nat) : hiid :=
  if Nat.leb (length x) n then [] else skipn n x.

(** HIID.cc:125-155.  Returns (returned sub-id, remaining *this). *)
Definition splitAtSlash (x : hiid) : hiid * hiid :=
  match findFirstSlash x with
  | None => (x, [])
  | Some pos => (firstn pos x, pop_front x (pos + 1))
  end.

(** HIID.h:421-433 *)
Fixpoint leadSlashes (x : hiid) : nat :=
  match x with
  | a :: x' => if a =? AidSlash then S (leadSlashes x') else O
  | [] => O
  end.
Definition popLeadSlashes (x : hiid) : nat * hiid :=
  let n := leadSlashes x in (n, pop_front x n).

(** HIID.cc:101-110 *)
Definition popLeadIndex (x : hiid) : Z * hiid :=
  match x with
  | [] => (0, x)
  | a :: _ => let ret := aid_index a in
      if ret <? 0 then (0, x) else (ret, pop_front x 1)
  end.

(** HIID.cc:113-122 *)
Definition popTrailIndex (x : hiid) : Z * hiid :=
  match x with
  | [] => (0, x)
  | _ => let ret := aid_index (last x 0) in
      if ret <? 0 then (0, x) else (ret, removelast x)
  end.

(** memmove of [n] bytes from offset [src] to offset [dst] inside [m] *)
Definition memmove (m : list Z) (dst src n : nat) : list Z :=
  firstn dst m ++ firstn n (skipn src m) ++ skipn (dst + n) m.

(** HIID.h:408-419.  [resize] value-initialises new atoms to AtomicID(0); the
    memmove length at line 414 is [sz0], a count of atoms used as a count of
    bytes. *)
Definition push_front (x : hiid) (a : aid) (n : nat) : hiid :=
  if Nat.eqb n 0 then x
  else
    let sz0 := length x in
    let m := enc_i32s (x ++ repeat 0 n) in
    let m' := memmove m (4 * n) 0 sz0 in
    repeat a n ++ skipn n (dec_i32s (sz0 + n) m').

(** HIID.cc:45-53.  Iterator arithmetic outside [begin,end] is UB. *)
Definition subId (x : hiid) (first last : Z) : res hiid :=
  let n := Z.of_nat (length x) in
  let i1 := if 0 <=? first then first else n - first in
  let i2 := if 0 <=? last then last + 1 else n - (last + 1) in
  if (i1 >? n) || (i2 >? n) then UB
  else if i1 >=? i2 then Ok []
  else Ok (firstn (Z.to_nat (i2 - i1)) (skipn (Z.to_nat i1) x)).
