(** Slices through Vells and reductions along axes: MEQ/src/VellsSlicer.{h,cc}, VellsSlicerWithFlags.{h,cc} and
    MeqNodes/src/ReductionFunction.{h,cc} with the nodes built on it (Sum, Product, Mean, Min, Max, NElements, Rms, StdDev).

    Arrays are those of Vel_Model.  A data pointer is an offset counted in elements; pointers into storage that is not there are [UB].
    Ints are unbounded except where a shift count matters.  The writable slicers (VellsSlicer0) differ only in what may be done with a
    slice and are not modelled apart; nor is copy-on-write.  DbgAssert is not checked (release build). *)
From Verif Require Import Base Vel_Model.
Local Open Scope Z_scope.

(** Axis.h:46 *)
Definition axis_in_range (a : Z) : res nat := if 8 <=? a then Err else if a <? 0 then UB else Ok (Z.to_nat a).
Fixpoint set_nth (k : nat) (x : Z) (l : list Z) : list Z :=
  match l, k with [], _ => [] | _ :: l, O => x :: l | y :: l, S k => y :: set_nth k x l end.
(** strides of an array, last axis fastest, and its size: VellsSlicer.cc:43-48 *)
Fixpoint src_strides (s : list Z) : list Z * Z :=
  match s with [] => ([], 1) | n :: s => let (st, sz) := src_strides s in (sz :: st, sz * n) end.

(** ** ConstVellsSlicer0 *)
(** shape and stride of the slice along each slicing axis; shape of what is not sliced; per axis whether it is sliced, and strides *)
Record slicer := { sl_dims : list (Z * Z); sl_ns : list Z; sl_axes : list (bool * Z) }.
(** the loop over the axes, VellsSlicer.cc:57-75: [ns] is ns_shape_, [sd] is sliced_ *)
Fixpoint sl_loop (vs vst : list Z) (axes : list Z) (ns : list Z) (sd : nat -> bool) : res (list (Z * Z) * list Z * (nat -> bool)) :=
  match axes with
  | [] => Ok ([], ns, sd)
  | a :: axes =>
      bind (axis_in_range a) (fun k =>
      let rest d ns sd := bind (sl_loop vs vst axes ns sd) (fun '(ds, ns, sd) => Ok (d :: ds, ns, sd)) in
      if Nat.ltb k (length vs) then
        let d := (nth k vs 0, nth k vst 0) in
        let sd' := fun i => if Nat.eqb i k then true else sd i in
        if Nat.eqb (S k) (length ns) then rest d (firstn k ns) sd'
        else if Nat.ltb k (length ns) then rest d (set_nth k 1 ns) sd'
        else UB
      else rest (1, 1) ns sd)
  end.
(** VellsSlicer.cc:33-82 *)
Definition sl_init (vs : list Z) (axes : list Z) : res slicer :=
  if Nat.ltb (length vs) (length axes) then Err else
  let vst := fst (src_strides vs) in
  bind (sl_loop vs vst axes vs (fun _ => false)) (fun '(ds, ns, sd) =>
  Ok {| sl_dims := ds; sl_ns := ns; sl_axes := combine (map sd (seq 0 (length ns))) vst |}).
(** VellsSlicer.cc:100-116: the pointer, over the axes incremented, fastest first *)
Fixpoint sl_move (axes : list (bool * Z)) (prev_sliced : bool) (p : Z) : Z :=
  match axes with
  | [] => p
  | (sliced, st) :: axes =>
      if sliced then sl_move axes true (if prev_sliced then p else p - st)
      else sl_move axes false (if prev_sliced then p + st else p)
  end.
(** for( ; slicer.valid(); slicer.incr() ) (VellsSlicer.cc:92-119, Vells.h:700-761): where successive slices start.  There are as many
    turns as the counter over the non-sliced axes has values. *)
Fixpoint sl_run (fuel : nat) (sh c : list Z) (axes : list (bool * Z)) (p : Z) : res (list Z) :=
  match fuel with
  | O => UB
  | S f =>
      match dc_incr sh c with
      | (_, None) => Ok [p]
      | (c', Some n) => bind (sl_run f sh c' axes (sl_move (firstn n axes) true p)) (fun r => Ok (p :: r))
      end
  end.
Definition sl_starts (s : slicer) : res (list Z) :=
  sl_run (Z.to_nat (product (sl_ns s))) (rev (sl_ns s)) (map (fun _ => 0) (sl_ns s)) (rev (sl_axes s)) 0.

(** ** ConstVellsSlicerWithFlags0: the same through data and flags together *)
(** shape and stride of the slice in the data; in the flags; the non-sliced shape; per axis whether data are iterated over it and
    their stride; the same for the flags *)
Record slicerWF := { wf_dims : list (Z * Z); wf_fdims : list (Z * Z); wf_ns : list Z; wf_axes : list (bool * Z); wf_faxes : list (bool * Z) }.
Definition pad (s : list Z) (n : nat) : list Z := map (extent s) (seq 0 n).
(** VellsSlicerWithFlags.cc:80-93: [s] is vshape or fshape and [it] iterated_ or flag_iterated_ *)
Definition wf_dim (s st : list Z) (k : nat) : option (Z * Z) :=
  if Nat.ltb k (length s) && (1 <? extent s k) then Some (extent s k, nth k st 0) else None.
Definition off (k : nat) (o : option (Z * Z)) (it : nat -> bool) : nat -> bool :=
  match o with Some _ => fun i => if Nat.eqb i k then false else it i | None => it end.
Definition dim (o : option (Z * Z)) : Z * Z := match o with Some d => d | None => (1, 1) end.
(** VellsSlicerWithFlags.cc:75-97 *)
Fixpoint wf_loop (vs vst fs fst_ : list Z) (axes ns : list Z) (it fit : nat -> bool)
  : res (list (Z * Z) * list (Z * Z) * list Z * (nat -> bool) * (nat -> bool)) :=
  match axes with
  | [] => Ok ([], [], ns, it, fit)
  | a :: axes =>
      bind (axis_in_range a) (fun k =>
      let d := wf_dim vs vst k in let fd := wf_dim fs fst_ k in
      let ns' := match d, fd with None, None => ns | _, _ => set_nth k 1 ns end in
      bind (wf_loop vs vst fs fst_ axes ns' (off k d it) (off k fd fit)) (fun '(ds, fds, ns, it, fit) =>
      Ok (dim d :: ds, dim fd :: fds, ns, it, fit)))
  end.
(** VellsSlicerWithFlags.cc:33-113; without flags the shape of the flags is empty *)
Definition wf_init (vs : list Z) (flags : option (list Z)) (axes : list Z) : res slicerWF :=
  let fs := match flags with Some s => s | None => [] end in
  let rank := Nat.max (length vs) (length fs) in
  if Nat.ltb rank (length axes) then Err else
  let vst := fst (src_strides (pad vs rank)) in
  let fst_ := fst (src_strides (pad fs rank)) in
  let ns := map (fun k => Z.max (extent vs k) (extent fs k)) (seq 0 rank) in
  bind (wf_loop vs vst fs fst_ axes ns (fun k => 1 <? extent vs k) (fun k => 1 <? extent fs k)) (fun '(ds, fds, ns, it, fit) =>
  Ok {| wf_dims := ds; wf_fdims := fds; wf_ns := ns;
        wf_axes := combine (map it (seq 0 rank)) vst; wf_faxes := combine (map fit (seq 0 rank)) fst_ |}).
(** VellsSlicerWithFlags.cc:142-164, for one of the pointers: [n] axes are incremented, fastest first *)
Fixpoint wf_move (axes : list (bool * Z)) (n : nat) (p : Z) : Z :=
  match n, axes with
  | S n, (iterated, st) :: axes =>
      let p := if iterated then match n, axes with S _, (_, st') :: _ => p + st - st' | _, _ => p + st end else p in
      wf_move axes n p
  | _, _ => p
  end.
(** VellsSlicerWithFlags.cc:115-167: [lim] and [flim] are the elements left after the slice, [None] when there are no flags *)
Fixpoint wf_run (fuel : nat) (sh c : list Z) (axes faxes : list (bool * Z)) (lim : Z) (flim : option Z) (p f : Z) : res (list (Z * Z)) :=
  match fuel with
  | O => UB
  | S fuel =>
      if lim <? p then Err else if (match flim with Some l => l <? f | None => false end) then Err else
      match dc_incr sh c with
      | (_, None) => Ok [(p, f)]
      | (c', Some n) => bind (wf_run fuel sh c' axes faxes lim flim (wf_move axes n p) (wf_move faxes n f)) (fun r => Ok ((p, f) :: r))
      end
  end.
(** where successive slices start in data and flags, of [len] and [flen] elements *)
Definition wf_starts (s : slicerWF) (len : Z) (flen : option Z) : res (list (Z * Z)) :=
  wf_run (Z.to_nat (product (wf_ns s))) (rev (wf_ns s)) (map (fun _ => 0) (wf_ns s)) (rev (wf_axes s)) (rev (wf_faxes s))
    (len - product (map fst (wf_dims s))) (option_map (fun l => l - product (map fst (wf_fdims s))) flen) 0 0.

(** ** What a slice looks like *)
Section Slices.
Context {V : Type}.
Variable dv : V.
(** as a blitz array (getArray(), array()): NumArray::make_reference, NumArray.cc:351-375, the element at index [j] *)
Definition view (d : list V) (p : Z) (dims : list (Z * Z)) (j : list Z) : option V :=
  nth_error d (Z.to_nat (p + fold_right Z.add 0 (map (fun '(x, (_, st)) => x * st) (combine j dims)))).
(** as Vells arithmetic sees it: begin<T>() is the start of the slice and end<T>() as many elements further (Vells.h:429-442,
    NumArray.h:404-405), whatever the strides *)
Definition stretch {A} (d : list A) (p : Z) (dims : list (Z * Z)) : list A := firstn (Z.to_nat (product (map fst dims))) (skipn (Z.to_nat p) d).
Definition slice_vells (x : vells V) (s : slicerWF) (pf : Z * Z) : vells V :=
  {| v_shape := map fst (wf_dims s); v_data := stretch (v_data x) (fst pf) (wf_dims s);
     v_flags := option_map (fun '(_, fd) => (map fst (wf_fdims s), stretch fd (snd pf) (wf_fdims s))) (v_flags x) |}.

(** ** ReductionFunction::apply *)
Fixpoint each_slice {A B} (f : A -> res B) (l : list A) : res (list B) :=
  match l with [] => Ok [] | a :: l => bind (f a) (fun b => bind (each_slice f l) (fun r => Ok (b :: r))) end.
(** NumArray.cc:139-143, called by the constructor of Vells.h:273-276: an array has at least one axis *)
Definition can_make (s : list Z) : bool := negb (Nat.eqb (length s) 0).
(** ReductionFunction.cc:89-95 and 105-125; [func] returns the one element of the scalar it computes.  A function whose result is of
    another type than its argument (nelements of a complex array) is not considered. *)
Definition apply (func : vells V -> Z -> res V) (axes : list Z) (x : vells V) (mask : Z) : res (vells V) :=
  bind (wf_init (v_shape x) (option_map fst (v_flags x)) axes) (fun s =>
  bind (wf_starts s (nelements x) (option_map (fun f => Z.of_nat (length (snd f))) (v_flags x))) (fun st =>
  if can_make (wf_ns s) then bind (each_slice (fun pf => func (slice_vells x s pf) mask) st) (fun d => Ok (plain (wf_ns s) d)) else Err)).
(** ReductionFunction.cc:137-143 *)
Definition slice_shape (full ns : list Z) : list Z :=
  map (fun k => if Nat.ltb k (length ns) && (1 <? extent ns k) then 1 else extent full k) (seq 0 (length full)).
(** ReductionFunction.cc:127-157 *)
Definition applyWS (func : vells V -> list Z -> Z -> res V) (axes : list Z) (x : vells V) (full : list Z) (mask : Z) : res (vells V) :=
  bind (wf_init (v_shape x) (option_map fst (v_flags x)) axes) (fun s =>
  apply (fun v m => func v (slice_shape full (wf_ns s)) m) axes x mask).
End Slices.

(** ** The nodes: reduce along axes, or to a single value *)
Section Nodes.
Context {V : Type}.
Variable dv : V.
(** Mean.cc:41-47, Min.cc and Max.cc likewise *)
Definition reduced (func : vells V -> Z -> res V) (axes : list Z) (x : vells V) (mask : Z) : res (vells V) :=
  match axes with [] => bind (func x mask) (fun v => Ok (plain [1] [v])) | _ => apply func axes x mask end.
(** Sum.cc:33-42, Product.cc:33-41, NElements.cc:34-42 *)
Definition reducedWS (func : vells V -> list Z -> Z -> res V) (axes : list Z) (x : vells V) (full : list Z) (mask : Z) : res (vells V) :=
  match axes with [] => bind (func x full mask) (fun v => Ok (plain [1] [v])) | _ => applyWS func axes x full mask end.
(** Rms.cc:38-52 before the square root, with the square [sqr] (an elementwise function, whose result has no flags: Vells.cc:263-276) *)
Definition mean_square (mean : vells V -> Z -> res V) (sqr : V -> V) (axes : list Z) (x : vells V) (mask : Z) : res (vells V) :=
  reduced mean axes (unary sqr x) mask.
End Nodes.

(** ** Flags, ReductionFunction.cc:76-87 and 159-244 *)
(** isAllFlagged: [!( *pflag)&mask] takes the logical not of the flags first *)
Definition isAllFlagged (flags : list Z) (mask : Z) : Z :=
  if existsb (fun f => negb (Z.land (if f =? 0 then 1 else 0) mask =? 0)) flags then 0 else mask.
(** Vells.h:461-491: the new flags, and 1, -1 or 0 *)
Definition whereEq (x : vells Z) (value out_eq out_ne : Z) : vells Z * Z :=
  let hit := existsb (fun f => f =? value) (v_data x) in let miss := existsb (fun f => negb (f =? value)) (v_data x) in
  (plain (v_shape x) (map (fun f => if f =? value then out_eq else out_ne) (v_data x)),
   if hit && negb miss then 1 else if miss && negb hit then -1 else 0).
(** a child's VellSet: whether it is null, and its flags *)
Record rchild := { rc_null : bool; rc_flags : option (vells Z) }.
(** 1<<i for an int *)
Definition bit (i : nat) : res Z := if Nat.ltb i 31 then Ok (2 ^ Z.of_nat i) else UB.
(** ReductionFunction.cc:171-182: [totflagmask] and [flagged] *)
Fixpoint rf_children (i : nat) (masks : list Z) (pvs : list (option rchild)) (tot : Z) (flagged : vells Z) : res (Z * vells Z) :=
  match pvs, masks with
  | [], _ => Ok (tot, flagged)
  | _ :: _, [] => UB
  | vs :: pvs, m :: masks =>
      match (if m =? 0 then None else match vs with Some c => if rc_null c then None else rc_flags c | None => None end) with
      | None => rf_children (S i) masks pvs tot flagged
      | Some fl =>
          bind (bit i) (fun b =>
          let '(vf, r) := whereEq (unary (fun f => Z.land f m) fl) 0 0 b in
          if r =? 1 then rf_children (S i) masks pvs (Z.lor tot m) flagged
          else bind (flagOr flagged vf) (rf_children (S i) masks pvs (Z.lor tot m)))
      end
  end.
(** ReductionFunction.cc:166-195 *)
Definition flags_across (masks : list Z) (pvs : list (option rchild)) (out : option (vells Z)) : res (option (vells Z)) :=
  bind (rf_children 0 masks pvs 0 (plain [1] [0])) (fun '(tot, flagged) =>
  if tot =? 0 then Ok out else
  bind (bit (length pvs)) (fun b =>
  let '(realflags, r) := whereEq flagged (b - 1) tot 0 in
  if r <? 0 then Ok out else
  match out with Some _ => mergeFlags out realflags VellsFullFlagMask | None => Ok (Some realflags) end)).
(** ReductionFunction.cc:197-212, with one child *)
Definition flags_single (mask : Z) (vs : option rchild) (out : option (vells Z)) : res (option (vells Z)) :=
  let tot := match vs with
             | Some c => if mask =? 0 then 0 else match rc_flags c with Some fl => isAllFlagged (v_data fl) mask | None => 0 end
             | None => 0 end in
  if tot =? 0 then Ok out else
  match out with Some _ => mergeFlags out (plain [1] [tot]) tot | None => Ok (Some (plain [1] [tot])) end.
(** ReductionFunction.cc:97-103 and 216-243 *)
Definition flags_along (axes : list Z) (mask : Z) (vs : option rchild) (out : option (vells Z)) : res (option (vells Z)) :=
  match (if mask =? 0 then None else match vs with Some c => rc_flags c | None => None end) with
  | None => Ok out
  | Some fl =>
      bind (sl_init (v_shape fl) axes) (fun s =>
      if can_make (sl_ns s) then
        bind (sl_starts s) (fun st =>
        let d := map (fun p => isAllFlagged (stretch (v_data fl) p (sl_dims s)) mask) st in
        if fold_left Z.lor d 0 =? 0 then Ok out else mergeFlags out (plain (sl_ns s) d) mask)
      else Err)
  end.
(** ReductionFunction::evaluateFlags, ReductionFunction.cc:159-244.  With reduction axes the first child is used: there is none when
    there are no children. *)
Definition evaluateFlags (axes masks : list Z) (pvs : list (option rchild)) (out : option (vells Z)) : res (option (vells Z)) :=
  match axes with
  | [] => match pvs with
          | [] => Ok out
          | [vs] => match masks with m :: _ => flags_single m vs out | [] => UB end
          | _ => flags_across masks pvs out
          end
  | _ => match pvs, masks with vs :: _, m :: _ => flags_along axes m vs out | _, _ => UB end
  end.

(** ** Reduction axes given by the user, ReductionFunction.cc:39-74 and 246-258 *)
Section Axes.
Context {Id : Type}.
(** has_axes_ids_, reduction_axes_ids_, reduction_axes_ *)
Record axes_state := { as_ids_given : bool; as_ids : list Id; as_axes : list Z }.
Inductive axes_field := Indices (l : list Z) | Ids (l : list Id).
Definition as_new : axes_state := {| as_ids_given := false; as_ids := []; as_axes := [] |}.
(** setStateImpl: the state afterwards and whether it threw.  Ids given as strings are converted first, which is not modelled. *)
Definition set_axes (nchildren : nat) (f : option axes_field) (s : axes_state) : axes_state * bool :=
  match f with
  | None => (s, false)
  | Some (Indices l) => ({| as_ids_given := false; as_ids := as_ids s; as_axes := l |}, false)
  | Some (Ids l) =>
      ({| as_ids_given := true; as_ids := l; as_axes := [] |}, negb (Nat.eqb (length l) 0) && Nat.ltb 1 nchildren)
  end.
(** getResult; [axis] is Axis::axis, which throws for an unknown id *)
Definition use_axes (axis : Id -> option Z) (s : axes_state) : res axes_state :=
  if as_ids_given s && negb (Nat.eqb (length (as_ids s)) 0) then
    bind (each_slice (fun i => match axis i with Some a => Ok a | None => Err end) (as_ids s)) (fun l =>
    Ok {| as_ids_given := true; as_ids := as_ids s; as_axes := l |})
  else Ok s.
End Axes.
