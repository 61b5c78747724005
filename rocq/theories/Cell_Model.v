(** Model of Meq::Cells (MEQ/src/Cells.h, MEQ/src/Cells.cc).

    Simplified: the domain is the model of Dom_Model; locking is left out; the
    subrecords Grid, CellSize and Segments are one optional field per axis,
    because the code always sets the three together. *)
From Verif Require Import Base Flt_Model Dom_Model.

Section Cells.
Variable A : arith.
Notation vec := (list (num A)).

(** A blitz vector that refers to memory owned by a record: the extent of the
    view and the data that is really there (seg_start_, seg_end_, Cells.h:271-272). *)
Record view := { v_size : nat; v_data : list Z }.
Definition whole (l : list Z) : view := {| v_size := length l; v_data := l |}.
(** element access: outside the data is undefined behaviour *)
Definition v_get (v : view) (i : nat) : res Z :=
  match nth_error (v_data v) i with
  | Some z => if i <? v_size v then Ok z else UB
  | None => UB
  end.

(** grid_, cell_size_, seg_start_, seg_end_ of one axis (Cells.h:269-272) and
    the fields of the subrecords for this axis. *)
Record axis := { x_grid : vec; x_size : vec; x_ss : view; x_se : view;
                 x_fld : option (vec * vec * list Z * list Z) }.
Definition no_axis : axis :=
  {| x_grid := []; x_size := []; x_ss := whole []; x_se := whole []; x_fld := None |}.

(** domain_, shape_, defined_ (Cells.h:265-268) *)
Record cells := { c_dom : option (domain A); c_shape : list Z; c_def : list bool; c_ax : list axis }.

(** Cells::Cells (), Cells.cc:35-39 *)
Definition cells_new : cells :=
  {| c_dom := None; c_shape := []; c_def := []; c_ax := repeat no_axis MaxAxis |}.

Definition axis_of (c : cells) (i : nat) : axis := nth i (c_ax c) no_axis.

(** isDefined, ncells, Cells.h:104-112 *)
Definition c_isDefined (c : cells) (i : nat) : bool := nth i (c_def c) false.
Definition ncells (c : cells) (i : nat) : Z :=
  if c_isDefined c i then nth i (c_shape c) 0%Z else 0%Z.
Definition center (c : cells) i : vec := x_grid (axis_of c i).
Definition cellSize (c : cells) i : vec := x_size (axis_of c i).
Definition numSegments (c : cells) i : nat := v_size (x_ss (axis_of c i)).
Definition rank (c : cells) : nat := length (c_shape c).

Fixpoint put {T} (l : list T) (i : nat) (x : T) : list T :=
  match l, i with
  | [], _ => []
  | _ :: r, 0 => x :: r
  | y :: r, S j => y :: put r j x
  end.

(** Cells::setAxisShape, Cells.cc:215-232 *)
Definition setAxisShape (c : cells) (i : nat) (n : Z) : cells :=
  let sz := length (c_shape c) in
  let shp := if sz <=? i then c_shape c ++ repeat 1%Z (S i - sz) else c_shape c in
  let dfd := if sz <=? i then firstn sz (c_def c) ++ repeat false (S i - sz) else c_def c in
  {| c_dom := c_dom c;
     c_shape := put shp i (if (n =? 0)%Z then 1%Z else n);
     c_def := put dfd i (negb (n =? 0)%Z);
     c_ax := c_ax c |}.

Definition set_axis (c : cells) (i : nat) (x : axis) : cells :=
  {| c_dom := c_dom c; c_shape := c_shape c; c_def := c_def c; c_ax := put (c_ax c) i x |}.

(** Cells::recomputeSegments, Cells.cc:318-370, for two or more points.  The
    loop of 345-363: [i] the index of the next point, [xp] the point before it,
    [st]/[en] the current segment. *)
Fixpoint seg_loop (eps : num A) (i : nat) (xp : num A) (rest : list (num A * num A))
                  (st en : nat) (dx0 h0 : num A) (in_segment : bool) : list (nat * nat) :=
  match rest with
  | [] => [(st, en)]
  | (x, h1) :: r =>
      let dx := nsub A x xp in
      if (in_segment && nltb A eps (nabs A (nsub A dx dx0))) || nltb A eps (nabs A (nsub A h1 h0))
      then (st, en) :: seg_loop eps (S i) x r i i dx0 h1 false
      else seg_loop eps (S i) x r st i dx h0 true
  end.

(** the tolerance, Cells.cc:337 *)
Definition epsilon (x : vec) : num A :=
  nmul A (nabs A (nsub A (hd (n0 A) x) (last x (n0 A)))) (n1em10 A).

Definition segments (x h : vec) : list (Z * Z) :=
  match x, h with
  | x0 :: x', h0 :: h' =>
      match x' with
      | [] => [(0, 0)%Z]                                            (* 325-330 *)
      | _ => map (fun p => (Z.of_nat (fst p), Z.of_nat (snd p)))
               (seg_loop (epsilon x) 1 x0 (combine x' h') 0 0 (n0 A) h0 false)
      end
  | _, _ => [(0, -1)%Z]                                             (* no points *)
  end.

(** Store grid, sizes and segments of an axis: setNumCells (234-253),
    setNumSegments (304-316), setRecVector (618-625) and the assignments in the
    setCells functions.  With no cells the arrays are freed but the fields of
    the Grid and CellSize subrecords stay; the new segment vectors are stored
    all the same. *)
Definition store (c : cells) (i : nat) (g h : vec) (s : list (Z * Z)) : cells :=
  let ss := map fst s in let se := map snd s in
  let c' := setAxisShape c i (Z.of_nat (length g)) in
  let old := x_fld (axis_of c i) in
  let fld := match g, old with
             | _ :: _, _ => Some (g, h, ss, se)
             | [], Some (g0, h0, _, _) => Some (g0, h0, ss, se)
             | [], None => None
             end in
  set_axis c' i {| x_grid := g; x_size := h; x_ss := whole ss; x_se := whole se; x_fld := fld |}.

(** Cells::setCells (int,const LoVec_double&,const LoVec_double&), Cells.cc:255-265;
    the sizes must match (259), the axis must be legal (237). *)
Definition setCells (c : cells) (i : Z) (cen size : vec) : res cells :=
  if (i <? 0)%Z || (Z.of_nat MaxAxis <=? i)%Z || negb (length cen =? length size) then Err
  else Ok (store c (Z.to_nat i) cen size (segments cen size)).

(** Cells::setCells (int,double,double,int,double), Cells.cc:278-290: [num]
    equal cells covering [x0,x1]; [size] None stands for a negative argument. *)
Definition regular_grid (x0 x1 : num A) (n : nat) : vec :=
  let step := ndiv A (nsub A x1 x0) (nofZ A (Z.of_nat n)) in
  map (fun i => nadd A (nadd A x0 (ndiv A step (nofZ A 2))) (nmul A step (nofZ A (Z.of_nat i)))) (seq 0 n).
Definition regular_size (x0 x1 : num A) (n : nat) (size : option (num A)) : vec :=
  let step := ndiv A (nsub A x1 x0) (nofZ A (Z.of_nat n)) in
  repeat (match size with Some s => s | None => step end) n.
Definition setCells_regular (c : cells) (i : Z) (x0 x1 : num A) (n : nat) (size : option (num A)) : res cells :=
  if (i <? 0)%Z || (Z.of_nat MaxAxis <=? i)%Z then Err
  else Ok (store c (Z.to_nat i) (regular_grid x0 x1 n) (regular_size x0 x1 n size)
             [(0%Z, (Z.of_nat n - 1)%Z)]).

(** Cells::recomputeDomain, Cells.cc:373-391 *)
Definition half (h : num A) : num A := ndiv A h (nofZ A 2).
Definition dom_step (c : cells) (d : domain A) (i : nat) : domain A :=
  if (ncells c i =? 0)%Z then d
  else define A d i (nsub A (hd (n0 A) (center c i)) (half (hd (n0 A) (cellSize c i))))
                    (nadd A (last (center c i) (n0 A)) (half (last (cellSize c i) (n0 A)))).
Definition recomputeDomain (c : cells) : cells :=
  {| c_dom := Some (fold_left (dom_step c) (seq 0 MaxAxis) (dom_new A));
     c_shape := c_shape c; c_def := c_def c; c_ax := c_ax c |}.

(** Cells::validateContent, Cells.cc:394-463, the way a copy (clone, Cells.h:90-91)
    or a received Cells is built.  The segment vectors are given the shape of
    the grid (435-436), not their own.  A copy shares the domain; a received
    Cells has its domain rebuilt first (Dom_Model.clone). *)
Definition load_axis (d : domain A) (c : res cells) (p : nat * axis) : res cells :=
  bind c (fun c =>
  match x_fld (snd p) with
  | None => Ok c
  | Some (g, h, ss, se) =>
      if negb (Dom_Model.isDefined A d (fst p)) then Err                  (* 424 *)
      else if negb (length h =? length g) then Err                        (* 433 *)
      else if negb (length ss =? length se) then Err                      (* 437 *)
      else Ok (set_axis (setAxisShape c (fst p) (Z.of_nat (length g))) (fst p)
                 {| x_grid := g; x_size := h;
                    x_ss := {| v_size := length g; v_data := ss |};
                    x_se := {| v_size := length g; v_data := se |};
                    x_fld := Some (g, h, ss, se) |})
  end).
Definition clone_cells (c : cells) : res cells :=
  match c_dom c with
  | Some d =>
      fold_left (load_axis d) (combine (seq 0 MaxAxis) (c_ax c))
        (Ok {| c_dom := Some d; c_shape := []; c_def := []; c_ax := repeat no_axis MaxAxis |})
  | None =>                                                               (* 444-452 *)
      if existsb (fun x => match x_fld x with Some _ => true | None => false end) (c_ax c) then Err
      else Ok (fold_left (fun c i => setAxisShape c i 0) (seq 0 MaxAxis) cells_new)
  end.

(** Integration and upsampling of one axis, Cells.cc:176-189 and 190-207. *)
Definition lower (g h : vec) (i : nat) : num A :=
  nsub A (nth i g (n0 A)) (half (nth i h (n0 A))).
Definition upper (g h : vec) (i : nat) : num A :=
  nadd A (nth i g (n0 A)) (half (nth i h (n0 A))).
Definition integrate (g h : vec) (k : nat) : vec * vec :=
  let cell i1 := let a := lower g h (i1 * k) in let b := upper g h (i1 * k + (k - 1)) in
                 (ndiv A (nadd A a b) (nofZ A 2), nsub A b a) in
  let l := map cell (seq 0 (length g / k)) in (map fst l, map snd l).
Fixpoint subcells (x1 sz : num A) (j : nat) : vec :=
  match j with 0 => [] | S j' => x1 :: subcells (nadd A x1 sz) sz j' end.
Definition upsample (g h : vec) (k : nat) : vec * vec :=
  let cell i0 := let a := lower g h i0 in let b := upper g h i0 in
                 let sz := ndiv A (nsub A b a) (nofZ A (Z.of_nat k)) in
                 (subcells (nadd A a (half sz)) sz k, repeat sz k) in
  let l := map cell (seq 0 (length g)) in (concat (map fst l), concat (map snd l)).

(** CellsOperations, Cells.h:45-50; any other value falls through all
    branches of Cells.cc:166-207 and leaves the axis as it is (uninitialised). *)
Inductive op := op_none | op_set (n : Z) | op_integrate (k : Z) | op_upsample (k : Z).

(** SET_NCELLS is mapped to one of the others, Cells.cc:146-161 *)
Definition map_set (np : nat) (o : op) : res op :=
  match o with
  | op_set n =>
      if (n =? Z.of_nat np)%Z then Ok op_none
      else if (Z.of_nat np <? n)%Z then
        if (n mod Z.of_nat np =? 0)%Z then Ok (op_upsample (n / Z.of_nat np)) else Err
      else if (n =? 0)%Z then UB                        (* np%0 *)
      else if (Z.rem (Z.of_nat np) n =? 0)%Z then Ok (op_integrate (Z.quot (Z.of_nat np) n)) else Err
  | _ => Ok o
  end.

(** One axis of Cells::Cells (const Cells&,const int[],const int[]), Cells.cc:132-213.
    Factors that are not positive divide by zero or make arrays of negative
    size: undefined behaviour.  With fewer points than the factor, INTEGRATE
    sets up no cells and then recomputes the segments of the freed vectors. *)
Definition resample_axis (other : cells) (c : res cells) (p : nat * op) : res cells :=
  bind c (fun c =>
  let i := fst p in
  let g := center other i in let h := cellSize other i in
  if (ncells other i =? 0)%Z then Ok (setAxisShape c i 0)
  else bind (map_set (length g) (snd p)) (fun o =>
  match o with
  | op_none =>
      (* 166-174; copying more elements than there are is undefined *)
      if negb (v_size (x_ss (axis_of other i)) <=? length (v_data (x_ss (axis_of other i)))) then UB else
      Ok (set_axis (setAxisShape c i (Z.of_nat (length g))) i
           {| x_grid := g; x_size := h; x_ss := x_ss (axis_of other i); x_se := x_se (axis_of other i);
              x_fld := Some (g, h, v_data (x_ss (axis_of other i)), v_data (x_se (axis_of other i))) |})
  | op_integrate k => if (k <=? 0)%Z then UB
      else let (g', h') := integrate g h (Z.to_nat k) in Ok (store c i g' h' (segments g' h'))
  | op_upsample k => if (k <=? 0)%Z then UB
      else let (g', h') := upsample g h (Z.to_nat k) in Ok (store c i g' h' (segments g' h'))
  | op_set _ => UB
  end)).
(** The domain must be valid (Cells.h:116-117); shape_ gets the rank of the other
    cells first (136-137). *)
Definition resample (other : cells) (ops : list op) : res cells :=
  match c_dom other with
  | None => Err
  | Some d =>
      fold_left (resample_axis other) (combine (seq 0 MaxAxis) ops)
        (Ok {| c_dom := Some d; c_shape := repeat 0%Z (rank other); c_def := c_def other;
               c_ax := repeat no_axis MaxAxis |})
  end.

(** Cells::compare, Cells.cc:539-553 *)
Definition z_list_eqb := fix eqb (a b : list Z) : bool :=
  match a, b with
  | [], [] => true
  | x :: a', y :: b' => (x =? y)%Z && eqb a' b'
  | _, _ => false
  end.
Definition compare (a b : cells) : Z :=
  match c_dom a, c_dom b with
  | None, None => 1
  | None, Some _ => 0
  | Some _, None => -1
  | Some da, Some db =>
      if negb (dom_eqb A da db) then -1
      else if negb (z_list_eqb (c_shape a) (c_shape b)) then 1 else 0
  end%Z.

(** Cells::operator==, Cells.cc:556-569: arrays compared elementwise; arrays of
    different lengths are compared by blitz without a check: undefined. *)
Definition vec_eqb (a b : vec) : res bool :=
  if length a =? length b
  then Ok (forallb (fun p => neqb A (fst p) (snd p)) (combine a b))
  else UB.
Definition cells_eqb (a b : cells) : res bool :=
  if negb (compare a b =? 0)%Z then Ok false
  else fold_left (fun r i =>
         bind r (fun t => if negb t then Ok false else
         bind (vec_eqb (center a i) (center b i)) (fun t1 => if negb t1 then Ok false else
         vec_eqb (cellSize a i) (cellSize b i)))) (seq 0 MaxAxis) (Ok true).

(** Cells::superset, Cells.cc:478-536 *)
Inductive ref := r_none | r_a | r_b | r_new (c : cells).
Fixpoint sup_scan (a b : cells) (da db : domain A) (is : list nat) (asup bsup : bool) : option (bool * bool) :=
  match is with
  | [] => Some (asup, bsup)
  | i :: r =>
      let na := ncells a i in let nb := ncells b i in
      if negb (na =? 0)%Z then
        if negb (nb =? 0)%Z then
          if negb (na =? nb)%Z || negb (neqb A (start A da i) (start A db i))
             || negb (neqb A (stop A da i) (stop A db i)) then None
          else sup_scan a b da db r asup bsup
        else sup_scan a b da db r asup false
      else if negb (nb =? 0)%Z then sup_scan a b da db r false bsup
      else sup_scan a b da db r asup bsup
  end.
Definition sup_step (a b : cells) (c : cells) (i : nat) : cells :=
  if c_isDefined a i then store c i (center a i) (cellSize a i) (segments (center a i) (cellSize a i))
  else if c_isDefined b i then store c i (center b i) (cellSize b i) (segments (center b i) (cellSize b i))
  else c.
Definition superset (a b : cells) : ref :=
  match c_dom a, c_dom b with
  | None, _ => r_b
  | Some _, None => r_a
  | Some da, Some db =>
      match sup_scan a b da db (seq 0 (Nat.min (rank a) (rank b))) true true with
      | None => r_none
      | Some (asup, bsup) =>
          if asup && (rank b <=? rank a) then r_a
          else if bsup && (rank a <=? rank b) then r_b
          else r_new (recomputeDomain (fold_left (sup_step a b) (seq 0 (Nat.max (rank a) (rank b))) cells_new))
      end
  end.

End Cells.
