(** MEQ/src/Vells.h, Vells.cc: shapes, strides, iterators and element-wise arithmetic.

    The element type [V] is a parameter (double or dcomplex, and int for flags); the functions
    applied to elements are parameters too.  An array is its shape and its elements in row-major
    order.  Copy-on-write of the storage and the element type checks of getStorage are not modelled:
    arrays are values.  Extents and offsets are unbounded integers instead of int. *)
From Verif Require Import Base.
Local Open Scope Z_scope.

(** Axis.h:46 *)
Definition MaxAxis : nat := 8.
Notation shape := (list Z) (only parsing).
Definition product (s : shape) : Z := fold_right Z.mul 1 s.
(** Vells.h:340-341 *)
Definition extent (s : shape) (k : nat) : Z := nth k s 1.

(** ** Strides (Vells.cc:322-413) *)
(** Vells.cc:324-336: the stride and the new flag *)
Definition normalAxis (total : Z) (deg : bool) : Z * bool := if deg then (total, false) else (0, false).
(** Vells.cc:338-348 *)
Definition degenerateAxis (total : Z) (deg : bool) : Z * bool := if deg then (0, true) else (- total, true).

(** one axis: the loop over the shapes, Vells.cc:393-408; [sts] is (tot[j],deg[j]) *)
Fixpoint cs_axis (szs : list Z) (sts : list (Z * bool)) (sz0 : Z) : res (Z * list Z * list (Z * bool)) :=
  match szs, sts with
  | sz :: szs', (tot, deg) :: sts' =>
      let big := 1 <? sz in
      if big && negb (sz0 =? 1) && negb (sz =? sz0) then Err else
      let sz0' := if big && (sz0 =? 1) then sz else sz0 in
      let '(st, deg') := if big then normalAxis tot deg else degenerateAxis tot deg in
      bind (cs_axis szs' sts' sz0') (fun '(o, rest, s') => Ok (o, st :: rest, (tot * sz, deg') :: s'))
  | _, _ => Ok (sz0, [], [])
  end.
(** the loop over the axes, last axis first, Vells.cc:388-412.  Per axis: output extent, strides. *)
Fixpoint cs_loop (dims : list nat) (shapes : list shape) (sts : list (Z * bool)) : res (list (Z * list Z)) :=
  match dims with
  | [] => Ok []
  | k :: dims' =>
      bind (cs_axis (map (fun s => extent s k) shapes) sts 1) (fun '(o, st, sts') =>
      bind (cs_loop dims' shapes sts') (fun r => Ok ((o, st) :: r)))
  end.
Definition ranks (shapes : list shape) : nat := fold_right (fun s n => Nat.max (length s) n) 0%nat shapes.
(** Vells.cc:370-413: output shape, and per shape the strides, fastest axis first.  The stride arrays
    have room for [MaxAxis] axes. *)
Definition computeStrides (shapes : list shape) : res (shape * list (list Z)) :=
  let rnk := ranks shapes in
  if Nat.ltb MaxAxis rnk then UB else
  bind (cs_loop (rev (seq 0 rnk)) shapes (map (fun _ => (1, true)) shapes)) (fun r =>
  Ok (rev (map fst r), map (fun j => map (fun row => nth j (snd row) 0) r) (seq 0 (length shapes)))).

(** ** Iteration (Vells.h:640-762) *)
(** Vells.h:746-762, DimCounter::incr: counters fastest axis first; [None] when finished, otherwise the
    number of dimensions incremented *)
Fixpoint dc_incr (sh c : list Z) : list Z * option nat :=
  match sh, c with
  | s :: sh', x :: c' =>
      if s <=? x + 1 then let (c2, r) := dc_incr sh' c' in (0 :: c2, option_map S r)
      else ((x + 1) :: c', Some 1%nat)
  | _, _ => ([], None)
  end.
(** Vells.h:673-679, ConstStridedIterator::incr *)
Definition it_incr (strides : list Z) (n : nat) (ptr : Z) : Z := ptr + fold_right Z.add 0 (firstn n strides).

(** a strided iterator: strides, position and the number of elements that may be read *)
Notation iter := (list Z * Z * Z)%type.
Definition it_ok (i : iter) : bool := let '(_, p, n) := i in (0 <=? p) && (p <? n).
Definition it_next (n : nat) (i : iter) : iter := let '(st, p, len) := i in (st, it_incr st n p, len).
Definition it_pos (i : iter) : Z := let '(_, p, _) := i in p.
(** The loop all implementations share (e.g. Vells.cc:948-954): dereference every iterator, increment
    the counter, stop or advance.  [fuel] is the number of elements of the output: one more and the
    output pointer leaves the array.  Result: positions dereferenced at each turn. *)
Fixpoint walk (fuel : nat) (sh c : list Z) (its : list iter) : res (list (list Z)) :=
  match fuel with
  | O => UB
  | S f =>
      if forallb it_ok its then
        match dc_incr sh c with
        | (_, None) => Ok [map it_pos its]
        | (c', Some n) => bind (walk f sh c' (map (it_next n) its)) (fun r => Ok (map it_pos its :: r))
        end
      else UB
  end.
(** DimCounter::init, Vells.h:709-724: dimensions reversed, counters zero *)
Definition run (out : shape) (its : list iter) : res (list (list Z)) :=
  walk (Z.to_nat (product out)) (rev out) (map (fun _ => 0) out) its.

Section Vells.
Context {V : Type}.
Record vells := { v_shape : shape; v_data : list V; v_flags : option (shape * list Z) }.
Definition nelements (v : vells) : Z := Z.of_nat (length (v_data v)).
(** Vells.h:347-351 *)
Definition isScalar (v : vells) : bool := nelements v =? 1.
Definition plain (s : shape) (d : list V) : vells := {| v_shape := s; v_data := d; v_flags := None |}.

Variable dv : V.
Definition get (d : list V) (p : Z) : V := nth (Z.to_nat p) d dv.
Definition getf (d : list Z) (p : Z) : Z := nth (Z.to_nat p) d 0.

(** *** Binary functions, Vells.cc:415-439 and 934-957 (tryReference, 230-249, always answers no) *)
Definition binary (op : V -> V -> V) (a b : vells) : res vells :=
  bind (computeStrides [v_shape a; v_shape b]) (fun '(out, st) =>
  if isScalar a && isScalar b then Ok (plain out [op (get (v_data a) 0) (get (v_data b) 0)]) else
  bind (run out [(nth 0 st [], 0, nelements a); (nth 1 st [], 0, nelements b)]) (fun r =>
  Ok (plain out (map (fun p => op (get (v_data a) (nth 0 p 0)) (get (v_data b) (nth 1 p 0))) r)))).

(** *** In-place operators, Vells.cc:441-471 and 1071-1091 *)
(** canApplyInPlace (without the type test): strides of the argument, [None] when not applicable *)
Fixpoint cip_loop (dims : list nat) (ours other : shape) (total : Z) (deg : bool) : res (option (list Z)) :=
  match dims with
  | [] => Ok (Some [])
  | k :: dims' =>
      let sz_ours := extent ours k in
      let sz_other := extent other k in
      if sz_other =? 1 then
        let (st, deg') := degenerateAxis total deg in
        bind (cip_loop dims' ours other (total * sz_other) deg') (fun r => Ok (option_map (cons st) r))
      else if sz_ours =? sz_other then
        let (st, deg') := normalAxis total deg in
        bind (cip_loop dims' ours other (total * sz_other) deg') (fun r => Ok (option_map (cons st) r))
      else if sz_ours =? 1 then Ok None
      else Err
  end.
(** a real array cannot take a complex argument in place *)
Variable narrower : vells -> vells -> bool.
Definition canApplyInPlace (a b : vells) : res (option (list Z)) :=
  if narrower a b || Nat.ltb (length (v_shape a)) (length (v_shape b)) then Ok None else
  if Nat.ltb MaxAxis (length (v_shape a)) then UB else
  cip_loop (rev (seq 0 (length (v_shape a)))) (v_shape a) (v_shape b) 1 true.
(** Vells.h:948-957 with Vells.cc:1071-1091: [a OPER= b].  Applied in place the flags stay; otherwise
    the array is assigned the result, flags included. *)
Definition inplace (op : V -> V -> V) (a b : vells) : res vells :=
  bind (canApplyInPlace a b) (fun r =>
  match r with
  | None => binary op a b
  | Some st =>
      if isScalar a && isScalar b
      then Ok {| v_shape := v_shape a; v_data := [op (get (v_data a) 0) (get (v_data b) 0)]; v_flags := v_flags a |} else
      bind (run (v_shape a) [(st, 0, nelements b)]) (fun r =>
      Ok {| v_shape := v_shape a;
            v_data := map (fun xp => op (fst xp) (get (v_data b) (nth 0 (snd xp) 0))) (combine (v_data a) r);
            v_flags := v_flags a |})
  end).

(** *** Addition and multiplication, Vells.h:912-939 and 962-992, with their shortcuts *)
Variables (zero one : V) (veqb : V -> V -> bool).
Definition isNull (v : vells) : bool := match v_data v with [] => true | _ => isScalar v && veqb (get (v_data v) 0) zero end.
Definition isUnity (v : vells) : bool := isScalar v && veqb (get (v_data v) 0) one.
(** Vells.cc:78-81: the default Vells is a scalar zero *)
Definition nullVells : vells := plain [1] [zero].
Variables add mul : V -> V -> V.
Definition vadd (a b : vells) : res vells :=
  if isNull a then Ok b else if isNull b then Ok a else binary add a b.
Definition vmul (a b : vells) : res vells :=
  if isNull a || isNull b then Ok nullVells else if isUnity a then Ok b else if isUnity b then Ok a else binary mul a b.
Definition vadd_inplace (a b : vells) : res vells :=
  if isNull b then Ok a else if isNull a then Ok b else
  bind (canApplyInPlace a b) (fun r => match r with Some _ => inplace add a b | None => vadd a b end).
Definition vmul_inplace (a b : vells) : res vells :=
  if isNull a || isNull b then Ok nullVells else if isUnity a then Ok b else if isUnity b then Ok a else
  bind (canApplyInPlace a b) (fun r => match r with Some _ => inplace mul a b | None => vmul a b end).

(** *** Reductions, Vells.cc:796-828: accumulated value and number of elements.  Without flags (or
    with an empty mask) the elements of the array; with flags those positions of the joint shape that
    are not flagged. *)
Definition reduce (step : V -> V -> V) (init : V) (x : vells) (mask : Z) : res (V * Z) :=
  match (if mask =? 0 then None else v_flags x) with
  | None => Ok (fold_left step (v_data x) init, nelements x)
  | Some (fs, fd) =>
      bind (computeStrides [v_shape x; fs]) (fun '(out, st) =>
      bind (run out [(nth 0 st [], 0, nelements x); (nth 1 st [], 0, Z.of_nat (length fd))]) (fun r =>
      let sel := filter (fun p => Z.land (getf fd (nth 1 p 0)) mask =? 0) r in
      Ok (fold_left (fun y p => step y (get (v_data x) (nth 0 p 0))) sel init, Z.of_nat (length sel))))
  end.
(** [times n v]: the renormalisation [y0 * n] (Vells.cc:885) or [pow(y0,n)] (897) *)
Variable times : Z -> V -> V.
Definition reduceWS (step : V -> V -> V) (init : V) (x : vells) (full : shape) (mask : Z) : res V :=
  bind (reduce step init x mask) (fun '(y, _) => Ok (times (product full / nelements x) y)).
(** Vells.cc:861-867; [over y n] divides *)
Variable over : V -> Z -> V.
Definition mean (x : vells) (mask : Z) : res V :=
  bind (reduce add zero x mask) (fun '(y, n) => Ok (if n =? 0 then zero else over y n)).
(** Vells.cc:899-921 *)
Definition nelementsWS (x : vells) (full : shape) (mask : Z) : res Z :=
  match (if mask =? 0 then None else v_flags x) with
  | None => Ok (product full)
  | Some (fs, fd) =>
      bind (reduce (fun y _ => y) dv x mask) (fun '(_, nel) =>
      Ok (fold_left (fun n k => if (1 <? extent full k) && (extent (v_shape x) k =? 1) && (extent fs k =? 1) then n * extent full k else n)
            (seq 0 (length full)) nel))
  end.

(** *** replaceFlaggedValues, Vells.h:502-530 *)
Definition replaceFlagged (x : vells) (fs : shape) (fd : list Z) (value : V) (mask : Z) : res vells :=
  bind (computeStrides [v_shape x; fs]) (fun '(out, st) =>
  if negb (if list_eq_dec Z.eq_dec (v_shape x) out then true else false) then Err else
  bind (run out [(nth 1 st [], 0, Z.of_nat (length fd))]) (fun r =>
  Ok {| v_shape := v_shape x;
        v_data := map (fun xp => if Z.land (getf fd (nth 0 (snd xp) 0)) mask =? 0 then fst xp else value) (combine (v_data x) r);
        v_flags := v_flags x |})).
(** *** binary min and max with flags, Vells.cc:1136-1178, Vells.h:446-459; [sel] is min or max *)
Definition flagsOf (v : vells) : shape * list Z := match v_flags v with Some f => f | None => ([1], [0]) end.
Definition binaryWF (sel : V -> V -> V) (a b : vells) (ma mb : Z) : res vells :=
  let fa := flagsOf a in let fb := flagsOf b in
  bind (computeStrides [v_shape a; v_shape b; fst fa; fst fb]) (fun '(out, st) =>
  bind (run out [(nth 0 st [], 0, nelements a); (nth 1 st [], 0, nelements b);
                 (nth 2 st [], 0, Z.of_nat (length (snd fa))); (nth 3 st [], 0, Z.of_nat (length (snd fb)))]) (fun r =>
  Ok (plain out (map (fun p =>
    let x := get (v_data a) (nth 0 p 0) in let y := get (v_data b) (nth 1 p 0) in
    let bad_a := negb (Z.land (getf (snd fa) (nth 2 p 0)) ma =? 0) in
    let bad_b := negb (Z.land (getf (snd fb) (nth 3 p 0)) mb =? 0) in
    if bad_a then (if bad_b then x else y) else (if bad_b then x else sel x y)) r)))).

(** *** unary operators: Vells.cc:671-680 write FUNC(element) for every element; the flag operator
    (691-698) applies the operator to the new, uninitialised array instead of the argument *)
Definition unary (f : V -> V) (x : vells) : vells := plain (v_shape x) (map f (v_data x)).
End Vells.
Arguments vells : clear implicits.

(** operator ~ on flags: [fresh] is what happens to be in the memory of the new array *)
Definition flagNot (fresh : nat -> list Z) (x : vells Z) : vells Z :=
  plain (v_shape x) (map Z.lnot (fresh (length (v_data x)))).

(** Vells.cc:1106-1126: [|=] on flags *)
Definition flagOr (a b : vells Z) : res (vells Z) := inplace 0 (fun _ _ => false) Z.lor a b.
(** Vells.h:122-123: an int with all bits set *)
Definition VellsFullFlagMask : Z := -1.
(** Vells.cc:57-75: [flags0 |= flags1 & fm] *)
Definition mergeFlags (flags0 : option (vells Z)) (flags1 : vells Z) (fm : Z) : res (option (vells Z)) :=
  if fm =? 0 then Ok flags0 else
  let masked := unary (fun f => Z.land f fm) flags1 in
  match flags0 with
  | Some f0 => bind (flagOr f0 (if fm =? VellsFullFlagMask then flags1 else masked)) (fun r => Ok (Some r))
  | None => Ok (Some (if fm =? VellsFullFlagMask then flags1 else masked))
  end.
