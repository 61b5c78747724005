(** MEQ/src/Function.cc: Function::getResult and what it calls: merging solvable parameter ids
    (spids), flags, main value, perturbed values, fails and missing data.

    The values ([V], a Vells), perturbations ([P], a double) and fail records ([F]) are parameters.
    So are evaluate() of the node class (for the request at hand), the two shape checks and equality of
    perturbations.  Flags are the Vells of Vel_Model.  Mutexes, reference counting and the state record
    are left out; the shape of the request ("res_shape", Function.cc:144-152) is left inside [compat]. *)
From Verif Require Import Base Poll_Model Vel_Model.
Local Open Scope Z_scope.

(** ** findSpids, Function.cc:308-366 *)
Definition get_at (a : list Z) (i : nat) : Z := nth i a 0.
Fixpoint put_at (a : list Z) (i : nat) (x : Z) : list Z :=
  match a, i with [], _ => [] | _ :: a, O => x :: a | y :: a, S i => y :: put_at a i x end.
(** lines 348-351: [k] is lastinx - inx *)
Fixpoint copy_le (k : nat) (a : list Z) (inx inxout : nat) (lastspid spid : Z) : list Z * nat * nat * Z :=
  match k with
  | O => (a, inx, inxout, lastspid)
  | S k => let x := get_at a inx in
           if x <=? spid then copy_le k (put_at a inxout x) (S inx) (S inxout) x spid else (a, inx, inxout, lastspid)
  end.
(** lines 345-356: the spids of the child *)
Fixpoint merge_spids (spids : list Z) (a : list Z) (inx lastinx inxout : nat) (lastspid : Z) : list Z * nat * nat :=
  match spids with
  | [] => (a, inx, inxout)
  | spid :: spids =>
      let '(a, inx, inxout, lastspid) := copy_le (lastinx - inx) a inx inxout lastspid spid in
      if spid =? lastspid then merge_spids spids a inx lastinx inxout lastspid
      else merge_spids spids (put_at a inxout spid) inx lastinx (S inxout) lastspid
  end.
(** lines 358-360 *)
Fixpoint copy_rest (k : nat) (a : list Z) (inx inxout : nat) : list Z * nat :=
  match k with
  | O => (a, inxout)
  | S k => copy_rest k (put_at a inxout (get_at a inx)) (S inx) (S inxout)
  end.
(** lines 329-363: the children, given by their spids *)
Fixpoint merge_children (cs : list (list Z)) (a : list Z) (stinx nrspid : nat) : list Z * nat :=
  match cs with
  | [] => (a, nrspid)
  | [] :: cs => merge_children cs a stinx nrspid
  | spids :: cs =>
      let inx := stinx in
      let lastinx := (inx + nrspid)%nat in
      let stinx := (stinx - length spids)%nat in
      let '(a, inx, inxout) := merge_spids spids a inx lastinx stinx (-1) in
      let '(a, inxout) := copy_rest (lastinx - inx) a inx inxout in
      merge_children cs a stinx (inxout - stinx)
  end.
Definition merged_spids (cs : list (list Z)) : list Z :=
  let n := length (concat cs) in
  let '(a, nrspid) := merge_children cs (repeat 0 n) n 0 in
  firstn nrspid a.

Section Function.
Context {V P F : Type}.
Variable exc : F.                                       (* the fail made of an exception *)
Variable isNull : V -> bool.                            (* Vells::isNull *)
Variable compat : V -> bool.                            (* Vells::isCompatible(res_shape), line 188 and 257 *)
Variable accepts : option (vells Z) -> list V -> V -> bool. (* VellSet::adjustShape: may this value join those? *)
Variable pert_eqb : P -> P -> bool.                     (* operator == on double *)
Variable evaluate : list (option V) -> res V.           (* Function::evaluate of the node class *)

(** a perturbation set, VellSet.h:420-424 *)
Record pset := { ps_pert : list P; ps_val : list V }.
(** a VellSet that is not a fail: main value, flags, spids and perturbation sets *)
Record vdata := { d_value : option V; d_flags : option (vells Z); d_spids : list Z; d_psets : list pset }.
Inductive vset := VFail (l : list F) | VData (d : vdata).
Definition no_data : vdata := {| d_value := None; d_flags := None; d_spids := []; d_psets := [] |}.
(** a Result: dimensions and VellSets *)
Record result := { r_dims : list nat; r_vs : list vset }.
Definition tensorRank (r : result) : nat := length (r_dims r).

(** lines 308-336: spids and the number of perturbation sets *)
Definition numPertSets (d : vdata) : nat := length (d_psets d).
Definition findSpids (cs : list (option vdata)) : nat * list Z :=
  let spids := map (fun c => match c with Some d => d_spids d | None => [] end) cs in
  match concat spids with
  | [] => (0%nat, [])
  | _ => (fold_left (fun n c => match c with Some d => Nat.max n (numPertSets d) | None => n end) cs 0%nat, merged_spids spids)
  end.

(** VellSet::isNull, VellSet.h:175-176 *)
Definition vs_isNull (d : vdata) : bool :=
  match d_value d with None => true | Some v => match d_spids d with [] => isNull v | _ => false end end.
(** evaluateFlags, lines 96-101 *)
Fixpoint evaluateFlags (cs : list (option vdata)) (masks : list Z) (out : option (vells Z)) : res (option (vells Z)) :=
  match cs, masks with
  | [], _ => Ok out
  | c :: cs, m :: masks =>
      match c with
      | Some d => match d_flags d with
                  | Some f => if vs_isNull d then evaluateFlags cs masks out else bind (mergeFlags out f m) (evaluateFlags cs masks)
                  | None => evaluateFlags cs masks out
                  end
      | None => evaluateFlags cs masks out
      end
  | _ :: _, [] => UB
  end.

(** VellSet::isDefined, VellSet.h:150-152: the index, if defined, and the new index *)
Definition isDefined (spids : list Z) (spid : Z) (index : nat) : option nat * nat :=
  match nth_error spids index with
  | None => (None, index)
  | Some s => if spid =? s then (Some index, S index) else (None, index)
  end.

(** pert_values[ipert] and pert[ipert], the latter if found[ipert]>=0 *)
Notation row := (list (option V) * option P)%type.
Fixpoint put_opt (l : list (option V)) (i : nat) (x : V) : list (option V) :=
  match l, i with [], _ => [] | _ :: l, O => Some x :: l | y :: l, S i => y :: put_opt l i x end.
(** lines 253-270 for child [ich]; one turn per perturbation set of the output.  npertsets is the maximum
    over the children, so the loop bound max(vs.numPertSets(),npertsets) is npertsets; a child with
    fewer sets is read past the end of pset_. *)
Fixpoint pert_loop (ich inx : nat) (psets : list pset) (rows : list row) : res (list row) :=
  match rows with
  | [] => Ok []
  | (vals, found) :: rows =>
      match psets with
      | [] => UB
      | ps :: psets =>
          match nth_error (ps_val ps) inx, nth_error (ps_pert ps) inx with
          | Some pvv, Some p =>
              if negb (compat pvv) then Err else
              match found with
              | Some q => if pert_eqb q p then bind (pert_loop ich inx psets rows) (fun r => Ok ((put_opt vals ich pvv, Some q) :: r)) else Err
              | None => bind (pert_loop ich inx psets rows) (fun r => Ok ((put_opt vals ich pvv, Some p) :: r))
              end
          | _, _ => UB
          end
      end
  end.
(** lines 245-272 for the children from [ich] on *)
Fixpoint child_loop (ich : nat) (cs : list (option vdata)) (indices : list nat) (spid : Z) (rows : list row) : res (list nat * list row) :=
  match cs, indices with
  | None :: cs, i :: indices =>
      bind (child_loop (S ich) cs indices spid rows) (fun r => Ok (i :: fst r, snd r))
  | Some d :: cs, i :: indices =>
      let (inx, i') := isDefined (d_spids d) spid i in
      bind (match inx with Some k => pert_loop ich k (d_psets d) rows | None => Ok rows end) (fun rows =>
      bind (child_loop (S ich) cs indices spid rows) (fun r => Ok (i' :: fst r, snd r)))
  | _, _ => Ok ([], rows)
  end.
(** lines 275-282: the perturbed values for one spid; [held] is what the VellSet holds already *)
Fixpoint eval_rows (flags : option (vells Z)) (rows : list row) (held : list V) : res (list (P * V)) :=
  match rows with
  | [] => Ok []
  | (vals, found) :: rows =>
      match found with
      | None => Err
      | Some p => bind (evaluate vals) (fun v => if accepts flags held v then bind (eval_rows flags rows (held ++ [v])) (fun r => Ok ((p, v) :: r)) else Err)
      end
  end.
(** lines 232-283 *)
Fixpoint spid_loop (cs : list (option vdata)) (values : list (option V)) (npert : nat) (flags : option (vells Z)) (spids : list Z)
    (indices : list nat) (held : list V) : res (list (list (P * V))) :=
  match spids with
  | [] => Ok []
  | s :: spids =>
      bind (child_loop 0 cs indices s (repeat (values, None) npert)) (fun '(indices, rows) =>
      bind (eval_rows flags rows held) (fun r =>
      bind (spid_loop cs values npert flags spids indices (held ++ map snd r)) (fun rest => Ok (r :: rest))))
  end.
(** the perturbation sets: element [j] of set [k] is what was put there for spid [j] *)
Definition pset_of (rows : list (list (P * V))) (k : nat) : pset :=
  {| ps_pert := flat_map (fun r => match nth_error r k with Some (p, _) => [p] | None => [] end) rows;
     ps_val := flat_map (fun r => match nth_error r k with Some (_, v) => [v] | None => [] end) rows |}.
(** lines 214-283: the VellSet of a plane *)
Definition compute (cs : list (option vdata)) (values : list (option V)) (masks : list Z) : res vdata :=
  let (npert, spids) := findSpids cs in
  bind (evaluateFlags cs masks None) (fun flags =>
  bind (evaluate values) (fun v =>
  if accepts flags [] v then
    bind (spid_loop cs values npert flags spids (map (fun _ => O) cs) [v]) (fun rows =>
    Ok {| d_value := Some v; d_flags := flags; d_spids := spids; d_psets := map (pset_of rows) (seq 0 npert) |})
  else Err)).

(** lines 169-195: what the children contribute to plane [iplane]: VellSets with a value, and fails *)
Fixpoint collect (iplane : nat) (cs : list result) : res (list (option vdata) * list F) :=
  match cs with
  | [] => Ok ([], [])
  | c :: cs =>
      bind (match r_vs c with
            | [] => Ok (None, [])
            | _ => match nth_error (r_vs c) (if Nat.ltb 0 (tensorRank c) then iplane else 0) with
                   | None => UB
                   | Some (VFail l) => Ok (None, l)
                   | Some (VData d) => match d_value d with
                                       | Some v => if compat v then Ok (Some d, []) else Err
                                       | None => Ok (None, [])
                                       end
                   end
            end) (fun '(d, l) =>
      bind (collect iplane cs) (fun '(ds, ls) => Ok (d :: ds, l ++ ls)))
  end.
(** VellSet::addFail, VellSet.cc:591-623, one call per fail: each call clears the VellSet first *)
Definition addFails (l : list F) : vset := match rev l with [] => VData no_data | x :: _ => VFail [x] end.
(** what became of a plane: missing, failed, or neither *)
Inductive fate := Missing | Failed | Fine.
Definition is_missing (f : fate) : bool := match f with Missing => true | _ => false end.
Definition is_failed (f : fate) : bool := match f with Failed => true | _ => false end.
(** lines 160-297 *)
Definition do_plane (allow : bool) (masks : list Z) (cs : list result) (iplane : nat) : res (vset * fate) :=
  bind (collect iplane cs) (fun '(ds, fails) =>
  let nmissing := length (filter (fun d => match d with None => true | _ => false end) ds) in
  if Nat.ltb 0 nmissing && (Nat.eqb nmissing (length cs) || negb allow) then Ok (addFails fails, Missing)
  else match addFails fails with
       | VFail l => Ok (VFail l, Failed)
       | VData _ =>
           match compute ds (map (fun d => match d with Some d => d_value d | None => None end) ds) masks with
           | Ok d => Ok (VData d, Fine)
           | Err => Ok (VFail [exc], Failed)
           | UB => UB
           end
       end).
Fixpoint do_planes (allow : bool) (masks : list Z) (cs : list result) (planes : list nat) : res (list (vset * fate)) :=
  match planes with
  | [] => Ok []
  | p :: planes => bind (do_plane allow masks cs p) (fun x => bind (do_planes allow masks cs planes) (fun r => Ok (x :: r)))
  end.
(** lines 119-138 *)
Fixpoint dims_equal (a b : list nat) : bool :=
  match a, b with [], [] => true | x :: a, y :: b => Nat.eqb x y && dims_equal a b | _, _ => false end.
Fixpoint merge_dims (cs : list result) (out : list nat) : res (list nat) :=
  match cs with
  | [] => Ok out
  | c :: cs =>
      match r_vs c with
      | [] => Err
      | _ => match r_dims c with
             | [] => merge_dims cs out
             | _ => match out with
                    | [] => merge_dims cs (r_dims c)
                    | _ => if dims_equal (r_dims c) out then merge_dims cs out else Err
                    end
             end
      end
  end.
Definition out_dims (cs : list result) : res (list nat) :=
  match cs with
  | [] => Ok []
  | c :: cs => match r_vs c with [] => Err | _ => merge_dims cs (r_dims c) end
  end.
(** Result(dims), Result.cc:43-47 and 222-243: one VellSet means no dimensions *)
Definition num_planes (dims : list nat) : nat := fold_right Nat.mul 1%nat dims.
Definition kept_dims (dims : list nat) : list nat := if Nat.eqb (num_planes dims) 1 then [] else dims.
(** getResult, lines 104-305 *)
Definition getResult (allow : bool) (masks : list Z) (cs : list result) : res (result * Z) :=
  if negb (Nat.eqb (length masks) (length cs)) then Err else
  bind (out_dims cs) (fun dims =>
  bind (do_planes allow masks cs (seq 0 (num_planes dims))) (fun planes =>
  let code := if forallb (fun x => is_failed (snd x)) planes then RES_FAIL
              else if forallb (fun x => is_missing (snd x)) planes then RES_MISSING else 0 in
  Ok ({| r_dims := kept_dims dims; r_vs := map fst planes |}, code))).
End Function.
Arguments pset : clear implicits.
Arguments vdata : clear implicits.
Arguments vset : clear implicits.
Arguments result : clear implicits.
