(** Model of VellSet (MEQ/src/VellSet.h, VellSet.cc): shape bookkeeping and fail records.

    Simplified: a Vells is its shape (or an invalid Vells, [None]); element types, data and the
    flags attached to the values are left out, so is the record in which everything is stored
    (its fields appear as the components below). *)
From Verif Require Import Base.

Notation shape := (list nat) (only parsing).
(** an invalid (default constructed) Vells has no shape *)
Definition vells := option (list nat).
(** VariVector::product, TimBase/src/Lorrays-Blitz.h:267-274; Vells::nelements, Vells.h:347 *)
Definition product (s : shape) : nat := fold_right Nat.mul 1 s.
(** Vells::isScalar, MEQ/src/Vells.h:350-351 *)
Definition isScalar (s : shape) : bool := Nat.eqb (product s) 1.

(** std::vector<int>::resize(n): drops the tail or appends zeros *)
Definition resize (s : shape) (n : nat) (x : nat) : shape := firstn n s ++ repeat x (n - length s).

(** the loop of VellSet::adjustShape(LoShape&,const Vells&), VellSet.cc:193-207; the first
    component of the result is "changed" *)
Fixpoint adjust_loop (shp vs : shape) {struct vs} : res (bool * list nat) :=
  match vs, shp with
  | [], _ => Ok (false, shp)
  | v :: vs, s :: shp =>
      if Nat.ltb 1 v then
        if Nat.leb s 1 then bind (adjust_loop shp vs) (fun r => Ok (true, v :: snd r))
        else if Nat.eqb s v then bind (adjust_loop shp vs) (fun r => Ok (fst r, s :: snd r))
        else Err
      else if Nat.eqb s 0 then bind (adjust_loop shp vs) (fun r => Ok (true, 1 :: snd r))
      else bind (adjust_loop shp vs) (fun r => Ok (fst r, s :: snd r))
  | _ :: _, [] => UB
  end.
(** VellSet.cc:178-209 *)
Definition adjust (shp : shape) (v : vells) : res (bool * list nat) :=
  match v with
  | None => Ok (false, shp)
  | Some vs =>
      if isScalar vs then Ok (false, shp)
      else match shp with
           | [] => Ok (true, vs)
           | _ => adjust_loop (if Nat.ltb (length shp) (length vs) then resize shp (length vs) 0 else shp) vs
           end
  end.

(** Vells::isCompatible, MEQ/src/Vells.h:368-377 *)
Fixpoint isCompatible (sub main : shape) : bool :=
  match sub, main with
  | s :: sub, m :: main => (Nat.eqb s 1 || Nat.eqb s m) && isCompatible sub main
  | _, _ => true
  end.

(** A pointer to the weights: clear() does not reset it (VellSet.cc:372-383) *)
Inductive wptr := WNull | WTo (v : vells) | WDangling.
(** [vs_fails]: the list in field "fail", if there is one *)
Record vellset := { vs_shape : list nat; vs_value : option vells; vs_flags : option vells; vs_weights : wptr;
                    vs_pert : list (list vells); vs_is_fail : bool; vs_fails : option (list nat) }.
(** VellSet(nspid,nset), VellSet.cc:76-105; DMI::Vec fills the perturbed values with invalid Vells *)
Definition vset_new (nspid nset : nat) : vellset :=
  {| vs_shape := []; vs_value := None; vs_flags := None; vs_weights := WNull; vs_pert := repeat (repeat None nspid) nset;
     vs_is_fail := false; vs_fails := None |}.
Definition with_shape (s : vellset) (shp : shape) : vellset :=
  {| vs_shape := shp; vs_value := vs_value s; vs_flags := vs_flags s; vs_weights := vs_weights s; vs_pert := vs_pert s;
     vs_is_fail := vs_is_fail s; vs_fails := vs_fails s |}.

(** setShape, VellSet.cc:144-155 *)
Definition setShape (shp : shape) (s : vellset) : res vellset :=
  match vs_shape s with
  | [] => Ok (with_shape s shp)
  | _ => if isCompatible (vs_shape s) shp then Ok (with_shape s shp) else Err
  end.
(** adjustShape(const Vells&), VellSet.cc:211-219 *)
Definition adjustShape (v : vells) (s : vellset) : res vellset :=
  bind (adjust (vs_shape s) v) (fun r => if fst r then setShape (snd r) s else Ok s).

(** setValue 563-573, setDataFlags 500-520, setDataWeights 545-552, setPerturbedValue 575-588,
    clearDataFlags 522-543, clearDataWeights 554-561 *)
Definition setValue (v : vells) (s : vellset) : res vellset :=
  bind (adjustShape v s) (fun s => Ok {| vs_shape := vs_shape s; vs_value := Some v; vs_flags := vs_flags s; vs_weights := vs_weights s; vs_pert := vs_pert s; vs_is_fail := vs_is_fail s; vs_fails := vs_fails s |}).
Definition setDataFlags (v : vells) (s : vellset) : res vellset :=
  bind (adjustShape v s) (fun s => Ok {| vs_shape := vs_shape s; vs_value := vs_value s; vs_flags := Some v; vs_weights := vs_weights s; vs_pert := vs_pert s; vs_is_fail := vs_is_fail s; vs_fails := vs_fails s |}).
Definition setDataWeights (v : vells) (s : vellset) : res vellset :=
  bind (adjustShape v s) (fun s => Ok {| vs_shape := vs_shape s; vs_value := vs_value s; vs_flags := vs_flags s; vs_weights := WTo v; vs_pert := vs_pert s; vs_is_fail := vs_is_fail s; vs_fails := vs_fails s |}).
Fixpoint upd_nth {A} (l : list A) (i : nat) (f : A -> A) : list A :=
  match l, i with [], _ => [] | x :: l, O => f x :: l | x :: l, S i => x :: upd_nth l i f end.
Definition setPerturbedValue (i iset : nat) (v : vells) (s : vellset) : res vellset :=
  match nth_error (vs_pert s) iset with
  | None => UB
  | Some ps =>
      if Nat.leb (length ps) i then UB else
      bind (adjustShape v s) (fun s => Ok {| vs_shape := vs_shape s; vs_value := vs_value s; vs_flags := vs_flags s; vs_weights := vs_weights s;
        vs_pert := upd_nth (vs_pert s) iset (fun ps => upd_nth ps i (fun _ => v)); vs_is_fail := vs_is_fail s; vs_fails := vs_fails s |})
  end.
Definition clearDataFlags (s : vellset) : vellset :=
  {| vs_shape := vs_shape s; vs_value := vs_value s; vs_flags := None; vs_weights := vs_weights s; vs_pert := vs_pert s; vs_is_fail := vs_is_fail s; vs_fails := vs_fails s |}.
Definition clearDataWeights (s : vellset) : vellset :=
  {| vs_shape := vs_shape s; vs_value := vs_value s; vs_flags := vs_flags s; vs_weights := WNull; vs_pert := vs_pert s; vs_is_fail := vs_is_fail s; vs_fails := vs_fails s |}.

(** hasDataWeights, VellSet.h:290-291; dataWeights, VellSet.h:294-295 *)
Definition hasDataWeights (s : vellset) : bool := match vs_weights s with WNull => false | _ => true end.
Definition dataWeights (s : vellset) : res vells := match vs_weights s with WTo v => Ok v | _ => UB end.

(** verifyShape, VellSet.cc:157-176: the Vells looked at, in order *)
Definition opt_list {A} (o : option A) : list A := match o with Some x => [x] | None => [] end.
Definition weights_list (w : wptr) : list vells := match w with WTo v => [v] | _ => [] end.
Definition contents (s : vellset) : list vells := opt_list (vs_value s) ++ opt_list (vs_flags s) ++ weights_list (vs_weights s) ++ concat (vs_pert s).
Fixpoint adjust_all (r : bool * list nat) (l : list vells) : res (bool * list nat) :=
  match l with
  | [] => Ok r
  | v :: l => bind (adjust (snd r) v) (fun r' => adjust_all (fst r || fst r', snd r') l)
  end.
Definition verifyShape (reset : bool) (s : vellset) : res vellset :=
  match vs_weights s with
  | WDangling => UB
  | _ => bind (adjust_all (false, if reset then [] else vs_shape s) (contents s)) (fun r => if fst r then setShape (snd r) s else Ok s)
  end.

(** clear, VellSet.cc:372-383: everything except pweights_, whose target is gone *)
Definition clear (s : vellset) : vellset :=
  {| vs_shape := []; vs_value := None; vs_flags := None; vs_weights := match vs_weights s with WNull => WNull | _ => WDangling end;
     vs_pert := []; vs_is_fail := false; vs_fails := None |}.
(** addFail, VellSet.cc:591-623; a fail is a number, the argument a fail or a list of fails *)
Inductive failarg := FOne (n : nat) | FList (l : list nat).
Definition addFail (a : failarg) (s : vellset) : vellset :=
  let s := clear s in
  let fs := match vs_fails s, a with
            | None, FList l => l
            | None, FOne n => [] ++ [n]
            | Some fs, FList l => fs ++ l
            | Some fs, FOne n => fs ++ [n]
            end in
  {| vs_shape := vs_shape s; vs_value := vs_value s; vs_flags := vs_flags s; vs_weights := vs_weights s; vs_pert := vs_pert s;
     vs_is_fail := true; vs_fails := Some fs |}.
(** numFails, VellSet.cc:626-629; getFail 632-635 *)
Definition numFails (s : vellset) : nat := match vs_fails s with Some l => length l | None => 0 end.
Definition getFail (s : vellset) (i : nat) : option nat := match vs_fails s with Some l => nth_error l i | None => None end.

(** what a client does to a VellSet: the setters; a call that throws is caught and changes nothing *)
Inductive setter := SValue (v : vells) | SFlags (v : vells) | SWeights (v : vells) | SPert (i iset : nat) (v : vells) | SClearFlags | SClearWeights.
Definition do_set (o : setter) (s : vellset) : res vellset :=
  match o with
  | SValue v => setValue v s
  | SFlags v => setDataFlags v s
  | SWeights v => setDataWeights v s
  | SPert i iset v => setPerturbedValue i iset v s
  | SClearFlags => Ok (clearDataFlags s)
  | SClearWeights => Ok (clearDataWeights s)
  end.
Fixpoint do_sets (l : list setter) (s : vellset) : res vellset :=
  match l with
  | [] => Ok s
  | o :: l => match do_set o s with Ok s' => do_sets l s' | Err => do_sets l s | UB => UB end
  end.

(** Axis::mergeShape, MEQ/src/Axis.h:194-207 *)
Fixpoint merge_loop (shp other : shape) {struct other} : option (list nat) :=
  match other, shp with
  | [], _ => Some shp
  | o :: other, s :: shp =>
      if Nat.eqb o 1 then option_map (cons s) (merge_loop shp other)
      else if Nat.eqb s 1 then option_map (cons o) (merge_loop shp other)
      else if Nat.eqb s o then option_map (cons s) (merge_loop shp other)
      else None
  | _ :: _, [] => None
  end.
Definition mergeShape (shp other : shape) : option (list nat) :=
  merge_loop (if Nat.ltb (length shp) (length other) then resize shp (length other) 1 else shp) other.
