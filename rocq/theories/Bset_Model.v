(** Model of DMI/src/{BlockSet.h,BlockSet.cc}.
    A block is its bytes; every reference in the set is taken to be valid (pushNew leaves
    an invalid one, which must be attached before any other use).
    The cursor is a std::list iterator: it stays on its element when others are added or
    erased, and end() stays end().  It is therefore recorded by the number of elements
    from it to the end of the list. *)
From Verif Require Import Base.
Local Open Scope Z_scope.

Notation block := (list Z) (only parsing).
(** BlockSet.h:231-245: refs, cursize, cursor_iter, cursor_offset *)
Inductive cursor := CNone | CAt (togo off : nat).
Record bset := { blocks : list block; cursize : Z; cur : cursor }.

(** BlockSet.h:48-50 *)
Definition bs_empty : bset := {| blocks := []; cursize := 0; cur := CNone |}.

(** push_back: the end() iterator stays end() *)
Definition cur_back (c : cursor) (n : nat) : cursor :=
  match c with CAt (S d) off => CAt (S d + n) off | _ => c end.
(** pop_front of [n] elements: an iterator to a removed element becomes invalid *)
Definition cur_front (c : cursor) (len n : nat) : cursor :=
  match c with CAt d off => if Nat.ltb (len - n) d then CNone else c | CNone => CNone end.

(** BlockSet.h:82-83 *)
Definition bs_clear (s : bset) : bset := {| blocks := []; cursize := 0; cur := cur_front (cur s) (length (blocks s)) (length (blocks s)) |}.
(** BlockSet.h:118-122, 136-141 *)
Definition bs_push (s : bset) (b : block) : bset :=
  {| blocks := blocks s ++ [b]; cursize := cursize s + 1; cur := cur_back (cur s) 1 |}.
(** BlockSet.h:147-152 *)
Definition bs_pushFront (s : bset) (b : block) : bset :=
  {| blocks := b :: blocks s; cursize := cursize s + 1; cur := cur s |}.
(** BlockSet.h:97-113; front() of an empty list is undefined *)
Definition bs_pop (s : bset) : res (block * bset) :=
  match blocks s with
  | [] => UB
  | b :: l => Ok (b, {| blocks := l; cursize := cursize s - 1; cur := cur_front (cur s) (length (blocks s)) 1 |})
  end.
(** BlockSet.cc:33-42, outset another set *)
Definition bs_popMove (s out : bset) (count : Z) : res (bset * bset) :=
  if cursize s <? count then Err else
  let n := Z.to_nat count in
  if Nat.ltb (length (blocks s)) n then UB else
  Ok ({| blocks := skipn n (blocks s); cursize := cursize s - count; cur := cur_front (cur s) (length (blocks s)) n |},
      {| blocks := blocks out ++ firstn n (blocks s); cursize := cursize out + Z.of_nat n; cur := cur_back (cur out) n |}).
(** BlockSet.cc:46-55, for another set (given itself as argument, the loop runs behind the
    end of a list it keeps growing and does not return) *)
Definition bs_pushCopy (s other : bset) : bset :=
  {| blocks := blocks s ++ blocks other; cursize := cursize s + cursize other; cur := cur_back (cur s) (length (blocks other)) |}.
(** BlockSet.h:158-163 *)
Definition bs_copyAll (s out : bset) : bset := bs_pushCopy (bs_clear out) s.

(** BlockSet.cc:66-75 *)
Definition bs_initCursor (s : bset) : nat * bset :=
  (fold_left (fun t b => (t + length b)%nat) (blocks s) 0%nat,
   {| blocks := blocks s; cursize := cursize s; cur := CAt (length (blocks s)) 0 |}).

(** the list from the cursor on *)
Definition ahead (s : bset) (d : nat) : list block := skipn (length (blocks s) - d) (blocks s).
(** the loop of getCursorData, BlockSet.cc:80-95: [l] = blocks from the cursor on.  Result:
    the data (if any), and the new cursor *)
Fixpoint cursor_loop (l : list block) (off n : nat) : option block * cursor :=
  match l with
  | [] => (None, CAt 0 off)
  | b :: l' =>
    if Nat.eqb (length b - off) 0 then cursor_loop l' 0 n
    else let k := Nat.min n (length b - off) in (Some (firstn k (skipn off b)), CAt (length l) (off + k))
  end.
(** BlockSet.cc:78-97: the data pointer and the size returned are given by the bytes; null is [None] *)
Definition bs_getCursorData (s : bset) (n : nat) : res (option block * bset) :=
  match cur s with
  | CNone => UB
  | CAt d off =>
      let (r, c) := cursor_loop (ahead s d) off n in
      Ok (r, {| blocks := blocks s; cursize := cursize s; cur := c |})
  end.
(** first loop of flushToCursor, BlockSet.cc:103-107 *)
Fixpoint advance (l : list block) (off : nat) : cursor :=
  match l with
  | [] => CAt 0 off
  | b :: l' => if Nat.leb (length b) off then advance l' 0 else CAt (length l) off
  end.
(** BlockSet.cc:100-111.  cursize is not changed. *)
Definition bs_flushToCursor (s : bset) : res (Z * bset) :=
  match cur s with
  | CNone => UB
  | CAt d off =>
      match advance (ahead s d) off with
      | CAt d' off' => Ok (cursize s, {| blocks := skipn (length (blocks s) - d') (blocks s); cursize := cursize s; cur := CAt d' off' |})
      | CNone => UB
      end
  end.
