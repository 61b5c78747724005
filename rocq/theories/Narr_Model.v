(** Model of DMI/src/NumArray.cc: addressing of elements and slices (get, parseHIID).
    Offsets are in elements from the start of the data; int arithmetic is unbounded.
    Arrays of rank 1 or more. *)
From Verif Require Import Base Hiid_Model.
Local Open Scope Z_scope.

(** what get makes the caller see: one element, a subarray (offset, shape, strides), or the
    whole array *)
Inductive got := GElem (off : Z) | GSub (off : Z) (shape stride : list Z) | GWhole.

(** NumArray.cc:699-705, the loop from the last axis to the first: offset and stride *)
Definition elem_offset (shape which : list Z) : Z :=
  fst (fold_right (fun nw acc => let '(n, w) := nw in (fst acc + w * snd acc, snd acc * n)) (0, 1) (combine shape which)).

Fixpoint set_nth {A} (n : nat) (x : A) (l : list A) : list A :=
  match l, n with [], _ => [] | _ :: l', O => x :: l' | y :: l', S n' => y :: set_nth n' x l' end.

(** state of the loop of NumArray.cc:790-854: start, end, increment and keep flag per axis *)
Record axis := { ax_st : Z; ax_end : Z; ax_incr : Z; ax_keep : bool }.
Record pstate := { ps_ax : list axis; ps_nraxes : nat; ps_nr : nat; ps_had : bool }.
Definition dflt (n : Z) : axis := {| ax_st := 0; ax_end := n; ax_incr := 1; ax_keep := false |}.
Definition get_ax (p : pstate) : axis := nth (ps_nraxes p) (ps_ax p) (dflt 0).
Definition put_ax (p : pstate) (a : axis) : pstate :=
  {| ps_ax := set_nth (ps_nraxes p) a (ps_ax p); ps_nraxes := ps_nraxes p; ps_nr := ps_nr p; ps_had := ps_had p |}.
Definition keep_ax (a : axis) : axis := {| ax_st := ax_st a; ax_end := ax_end a; ax_incr := ax_incr a; ax_keep := true |}.

(** NumArray.cc:792-853, one id.  AssertMsg throws (TimBase/src/Debug.h:370). *)
Definition parse_step (shape : list Z) (p : pstate) (i : Z) : res pstate :=
  if i =? AidRange then
    if ps_had p then Err
    else let p' := put_ax p (keep_ax (get_ax p)) in
         Ok {| ps_ax := ps_ax p'; ps_nraxes := ps_nraxes p; ps_nr := S (ps_nr p); ps_had := true |}
  else
    let p1 := if ps_had p then p else {| ps_ax := ps_ax p; ps_nraxes := S (ps_nraxes p); ps_nr := 0; ps_had := false |} in
    if negb (ps_had p) && negb (Nat.ltb (ps_nraxes p1) (length shape)) then Err else
    let p2 := {| ps_ax := ps_ax p1; ps_nraxes := ps_nraxes p1; ps_nr := ps_nr p1; ps_had := false |} in
    let a := get_ax p2 in
    if i <? 0 then
      if (i =? AidWildcard) || (i =? AidEmpty) then Ok (put_ax p2 (keep_ax a)) else Err
    else match ps_nr p2 with
      | 0%nat =>
        if negb (i <? nth (ps_nraxes p2) shape 0) then Err
        else Ok (put_ax p2 {| ax_st := i; ax_end := i + 1; ax_incr := ax_incr a; ax_keep := ax_keep a |})
      | 1%nat =>
        if negb (ax_st a <? i + 1) then Err
        else Ok (put_ax p2 {| ax_st := ax_st a; ax_end := i + 1; ax_incr := ax_incr a; ax_keep := true |})
      | 2%nat =>
        if negb (0 <? i) then Err
        else Ok (put_ax p2 {| ax_st := ax_st a; ax_end := ax_end a; ax_incr := i; ax_keep := ax_keep a |})
      | _ => Err
      end.
Fixpoint parse_loop (shape : list Z) (p : pstate) (id : list Z) : res pstate :=
  match id with [] => Ok p | i :: id' => bind (parse_step shape p i) (fun p' => parse_loop shape p' id') end.
(** NumArray.cc:764-864 *)
Definition parseHIID (shape : list Z) (id : list Z) : res (list axis) :=
  bind (parse_loop shape {| ps_ax := map dflt shape; ps_nraxes := 0; ps_nr := 0; ps_had := negb (Nat.eqb (length id) 0) |} id)
    (fun p => if ps_had p then Err else Ok (ps_ax p)).

(** NumArray.cc:731-747, the loop from the last axis to the first: offset, stride, and shape
    and strides of the subarray *)
Definition sub_of (shape : list Z) (axs : list axis) : Z * Z * list Z * list Z :=
  fold_right (fun na acc => let '(n, a) := na in let '(off, stride, ss, sd) := acc in
    (off + ax_st a * stride, stride * n,
     (if ax_keep a then Z.quot (ax_end a - ax_st a) (ax_incr a) :: ss else ss),
     (if ax_keep a then ax_incr a * stride :: sd else sd))) (0, 1, [], []) (combine shape axs).

(** NumArray.cc:656-760.  The one-element special case for a caller asking for scalars
    (749-753) addresses the same element. *)
Definition na_get (shape : list Z) (id : list Z) : res got :=
  if Nat.eqb (length id) (length shape) && forallb (fun i => 0 <=? i) id then
    if forallb (fun nw => negb (fst nw <=? snd nw)) (combine shape id) then Ok (GElem (elem_offset shape id)) else Err
  else if Nat.eqb (length id) 0 then Ok GWhole
  else bind (parseHIID shape id) (fun axs => let '(off, _, ss, sd) := sub_of shape axs in Ok (GSub off ss sd)).
(** an element of a subarray with strides (blitz) *)
Definition sub_elem (off : Z) (stride js : list Z) : Z :=
  off + fold_right Z.add 0 (map (fun sj => fst sj * snd sj) (combine stride js)).
