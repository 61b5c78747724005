(** Model of DMI/src/{List.h,List.cc}: the index operations of a List.
    An item is the object its reference points to ([None]: an invalid reference); sharing,
    copy-on-write and deep copies are the subject of Ref_Model.  References in the list are
    locked or not, but every operation here unlocks them first. *)
From Verif Require Import Base.
Local Open Scope Z_scope.

Section L.
Context {V : Type}.
Notation item := (option V).

(** the reference given to put: its object, and whether it is locked *)
Record aref := { a_obj : item; a_locked : bool }.

(** the loops over iterators: [n] steps to go up to 0, at most [len] steps possible;
    result: what is left of [n], and the steps done *)
Fixpoint walk_up (n : Z) (len steps : nat) : Z * nat :=
  if n <? 0 then match len with O => (n, steps) | S l => walk_up (n + 1) l (S steps) end else (n, steps).
Fixpoint walk_down (n : Z) (len steps : nat) : Z * nat :=
  if 0 <? n then match len with O => (n, steps) | S l => walk_down (n - 1) l (S steps) end else (n, steps).

(** List.cc:88-112.  An iterator is its distance from begin(). *)
Definition applyIndex (n : Z) (inserting : bool) (l : list item) : res nat :=
  if n <? 0 then
    let '(n', s) := walk_up (if inserting then n + 1 else n) (length l) 0 in
    if negb (n' =? 0) then Err else Ok (length l - s)%nat
  else
    let '(n', s) := walk_down n (length l) 0 in
    if negb (n' =? 0) || (negb inserting && Nat.eqb s (length l)) then Err else Ok s.

(** List.cc:57-82, walking forward: fails as soon as it stands at the end.  Stepping from
    end() of an empty list is undefined. *)
Fixpoint walk_const (n : Z) (rest : nat) (pos : nat) : res nat :=
  if 0 <? n then
    match rest with
    | O => UB
    | S O => Err
    | S r => walk_const (n - 1) r (S pos)
    end
  else Ok pos.
Definition applyIndexConst (n : Z) (l : list item) : res nat :=
  if n <? 0 then
    let '(n', s) := walk_up (n + 1) (length l) 0 in
    if negb (n' =? 0) then Err else Ok (length l - s)%nat
  else walk_const n (length l) 0.

(** List.cc:149-153: dereferencing end() is undefined *)
Definition l_get (n : Z) (l : list item) : res item :=
  bind (applyIndexConst n l) (fun p => match nth_error l p with Some v => Ok v | None => UB end).

(** outcome of put: whether it threw, the list, and the argument *)
Record pres := { p_ok : bool; p_list : list item; p_ref : aref }.
Definition nullref : aref := {| a_obj := None; a_locked := false |}.

(** List.cc:114-128, with CountedRefBase.cc:125-134, 178-192.  When replacing, the old
    object is detached before the transfer of a locked reference is refused. *)
Definition l_put (n : Z) (r : aref) (replace xfer : bool) (l : list item) : pres :=
  match applyIndex n (negb replace) l with
  | Ok p =>
    let set v := firstn p l ++ v :: skipn (S p) l in
    let ins v := firstn p l ++ v :: skipn p l in
    let blocked := xfer && a_locked r && match a_obj r with Some _ => true | None => false end in
    let r' := if xfer then nullref else r in
    if replace then
      if blocked then {| p_ok := false; p_list := set None; p_ref := r |}
      else {| p_ok := true; p_list := set (a_obj r); p_ref := match a_obj r with Some _ => r' | None => r end |}
    else
      if blocked then {| p_ok := false; p_list := l; p_ref := r |}
      else {| p_ok := true; p_list := ins (a_obj r); p_ref := match a_obj r with Some _ => r' | None => r end |}
  | _ => {| p_ok := false; p_list := l; p_ref := r |}
  end.
(** List.h:187-206 *)
Definition l_insert n r xfer l := l_put n r false xfer l.
Definition l_replace n r xfer l := l_put n r true xfer l.
Definition l_addFront r xfer l := l_put 0 r false xfer l.
Definition l_addBack r xfer l := l_put (-1) r false xfer l.

(** List.cc:138-147 *)
Definition l_remove (n : Z) (l : list item) : res (item * list item) :=
  bind (applyIndex n false l) (fun p =>
    match nth_error l p with Some v => Ok (v, firstn p l ++ skipn (S p) l) | None => UB end).

(** List.cc:130-136 for two different lists *)
Definition l_append (other l : list item) : list item := fold_left (fun acc v => acc ++ [v]) other l.
(** ... and one turn of its loop when a list is appended to itself: [pos] is the iterator *)
Definition append_self_step (s : list item * nat) : option (list item * nat) :=
  match nth_error (fst s) (snd s) with
  | None => None
  | Some v => Some (fst s ++ [v], S (snd s))
  end.

(** List.cc:275-297, access by id: 0 at one past the end, otherwise as get.  The index is
    the AtomicID's number, names included, and those are negative. *)
Definition l_get_id (id : list Z) (l : list item) : res (option item) :=
  match id with
  | [n] => if n =? Z.of_nat (length l) then Ok None else bind (l_get n l) (fun v => Ok (Some v))
  | _ => Err
  end.
End L.
Arguments aref : clear implicits.
Arguments pres : clear implicits.
