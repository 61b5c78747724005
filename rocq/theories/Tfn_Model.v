(** MEQ/src/TensorFunction.cc and TensorFunctionPert.cc: nodes that compute a whole tensor from whole
    tensors (LMN, UVW, AzEl, VisPhaseShift and many more; PSVTensor).

    As in Fun_Model the values, perturbations and fails are parameters.  So are the virtual functions
    getResultDims and evaluateTensors of the node class, equality of perturbations and [accepts], which stands for
    VellSet::adjustShape: may this value join those?  Two-level vectors indexed by child and by
    VellSet are kept as one list, child after child, and are split again for evaluateTensors.
    Mutexes and reference counting are left out. *)
From Verif Require Import Base Poll_Model Vel_Model Fun_Model.
Local Open Scope Z_scope.

(** the parts of a list, given their lengths *)
Fixpoint group {A} (sizes : list nat) (l : list A) : list (list A) :=
  match sizes with [] => [] | n :: sizes => firstn n l :: group sizes (skipn n l) end.

Section Tensor.
Context {V P F C : Type}.
Variable isNull : V -> bool.
Variable accepts : option (vells Z) -> list V -> V -> bool.
Variable pert_eqb : P -> P -> bool.
Variable getResultDims : list (list nat) -> res (list nat).
(** evaluateTensors: a list of arguments (pointers) per child; what becomes of the vector "out" *)
Variable evaluateTensors : list (list (option V)) -> res (list V).

(** a Result with its cells *)
Record tresult := { t_res : result V P F; t_cells : option C }.

(** computeResultCells, TensorFunction.cc:40-52 *)
Fixpoint computeResultCells (cs : list tresult) (request : option C) : option C :=
  match cs with
  | [] => request
  | c :: cs => match t_cells c with Some x => Some x | None => computeResultCells cs request end
  end.

(** lines 79-81: the VellSets of one child *)
Fixpoint merge_child (vs : list (vdata V P)) (m : Z) (child_flags : option (vells Z)) : res (option (vells Z)) :=
  match vs with
  | [] => Ok child_flags
  | d :: vs => match d_flags d with
               | Some f => if vs_isNull isNull d then merge_child vs m child_flags else bind (mergeFlags child_flags f m) (merge_child vs m)
               | None => merge_child vs m child_flags
               end
  end.
(** lines 74-88 *)
Fixpoint merge_flags (pvs : list (list (vdata V P))) (masks : list Z) (out : option (vells Z)) : res (option (vells Z)) :=
  match pvs, masks with
  | [], _ => Ok out
  | vs :: pvs, m :: masks =>
      bind (if m =? 0 then Ok None else merge_child vs m None) (fun child_flags =>
      match child_flags with
      | None => merge_flags pvs masks out
      | Some f => match out with
                  | Some o => bind (flagOr o f) (fun o => merge_flags pvs masks (Some o))
                  | None => merge_flags pvs masks (Some f)
                  end
      end)
  | _ :: _, [] => UB
  end.
(** evaluateTensorFlags, lines 60-96: the flags that all outputs get (they have none before, 138-139);
    an empty vector of masks is filled with zeros *)
Definition evaluateTensorFlags (flagmask : list Z) (pvs : list (list (vdata V P))) : res (option (vells Z)) :=
  match flagmask with
  | [] => merge_flags pvs (repeat 0 (length pvs)) None
  | _ => if Nat.eqb (length flagmask) (length pvs) then merge_flags pvs flagmask None else Err
  end.

(** lines 125-130: getValue throws if there is no value, VellSet.h:184-189; a fail has none *)
Fixpoint with_values (vs : list (vset V P F)) : res (list (vdata V P)) :=
  match vs with
  | [] => Ok []
  | VFail _ :: _ => Err
  | VData d :: vs => match d_value d with Some _ => bind (with_values vs) (fun r => Ok (d :: r)) | None => Err end
  end.
(** lines 108-131 *)
Fixpoint collect_children (cs : list tresult) : res (list (list (vdata V P))) :=
  match cs with
  | [] => Ok []
  | c :: cs => bind (with_values (r_vs (t_res c))) (fun vs => bind (collect_children cs) (fun r => Ok (vs :: r)))
  end.

(** resval_vector_[0..nvs_result-1], lines 161-164 and 238-242 *)
Definition outputs (nres : nat) (out : list V) : res (list V) := if Nat.ltb (length out) nres then UB else Ok (firstn nres out).
Definition evaluate_all (sizes : list nat) (nres : nat) (vals : list (option V)) : res (list V) :=
  bind (evaluateTensors (group sizes vals)) (outputs nres).
(** the values that each output VellSet holds already, and one more for each *)
Definition accept_all (flags : option (vells Z)) (held : list (list V)) (vs : list V) : bool :=
  forallb (fun hv => accepts flags (fst hv) (snd hv)) (combine held vs).
Definition hold (held : list (list V)) (vs : list V) : list (list V) := map (fun hv => fst hv ++ [snd hv]) (combine held vs).
(** lines 232-244: the perturbed values for one spid, for all outputs *)
Fixpoint eval_tensor_rows (sizes : list nat) (nres : nat) (flags : option (vells Z)) (rows : list (list (option V) * option P))
    (held : list (list V)) : res (list (P * list V) * list (list V)) :=
  match rows with
  | [] => Ok ([], held)
  | (vals, found) :: rows =>
      match found with
      | None => Err
      | Some p => bind (evaluate_all sizes nres vals) (fun vs =>
                  if accept_all flags held vs
                  then bind (eval_tensor_rows sizes nres flags rows (hold held vs)) (fun '(r, held) => Ok ((p, vs) :: r, held))
                  else Err)
      end
  end.
(** lines 185-245; the loop over children and VellSets, 199-229, is the same as that of Function
    (child_loop of Fun_Model), but for the shape check *)
Fixpoint tensor_spid_loop (all : list (option (vdata V P))) (values : list (option V)) (sizes : list nat) (nres npert : nat)
    (flags : option (vells Z)) (spids : list Z) (indices : list nat) (held : list (list V)) : res (list (list (P * list V))) :=
  match spids with
  | [] => Ok []
  | s :: spids =>
      bind (child_loop (fun _ => true) pert_eqb 0 all indices s (repeat (values, None) npert)) (fun '(indices, rows) =>
      bind (eval_tensor_rows sizes nres flags rows held) (fun '(r, held) =>
      bind (tensor_spid_loop all values sizes nres npert flags spids indices held) (fun rest => Ok (r :: rest))))
  end.
(** what was put into output [j] *)
Definition pick (j : nat) (x : P * list V) : list (P * V) := match nth_error (snd x) j with Some v => [(fst x, v)] | None => [] end.
(** computeTensorResult, lines 98-248 *)
Definition computeTensorResult (flagmask : list Z) (cs : list tresult) : res (result V P F) :=
  bind (collect_children cs) (fun pvs =>
  bind (getResultDims (map (fun c => r_dims (t_res c)) cs)) (fun dims =>
  let nres := num_planes dims in
  let sizes := map (@length _) pvs in
  let values := map d_value (concat pvs) in
  let all := map Some (concat pvs) in
  bind (evaluateTensors (group sizes values)) (fun out =>
  bind (evaluateTensorFlags flagmask pvs) (fun flags =>
  let (npert, spids) := findSpids all in
  bind (outputs nres out) (fun vs =>
  if accept_all flags (repeat [] nres) vs then
    bind (tensor_spid_loop all values sizes nres npert flags spids (map (fun _ => O) all) (map (fun v => [v]) vs)) (fun rows =>
    Ok {| r_dims := kept_dims dims;
          r_vs := map (fun jv => VData {| d_value := Some (snd jv); d_flags := flags; d_spids := spids;
                                          d_psets := map (pset_of (map (flat_map (pick (fst jv))) rows)) (seq 0 npert) |})
                      (combine (seq 0 nres) vs) |})
  else Err))))).
(** TensorFunction::getResult, lines 252-268; the return code is 0 *)
Definition tensor_getResult (flagmask : list Z) (cs : list tresult) (request : option C) : res tresult :=
  bind (computeTensorResult flagmask cs) (fun r => Ok {| t_res := r; t_cells := computeResultCells cs request |}).

(** ** TensorFunctionPert *)
Variable pzero : P.                                  (* 0.0 *)
(** IPTR, TensorFunctionPert.h:61-62 *)
Definition IPTR (nspids maxplanes ichild ispid ielem : nat) : nat := ((ichild * (nspids + 1) + ispid) * maxplanes + ielem)%nat.
(** an assignment to an element of vp_ *)
Fixpoint store {A} (l : list A) (i : nat) (x : A) : res (list A) :=
  match l, i with
  | [], _ => UB
  | _ :: l, O => Ok (x :: l)
  | y :: l, S i => bind (store l i x) (fun l => Ok (y :: l))
  end.
(** TensorFunctionPert.cc:124-125, on the spids from [ispid] on: all_spids[ispid] is read before ispid is
    compared to num_spids_ *)
Fixpoint advance (l : list Z) (spid : Z) (ispid : nat) : res nat :=
  match l with
  | [] => UB
  | s :: l => if s <? spid then advance l spid (S ispid) else Ok ispid
  end.
(** vp_, and perts[] where found_at_child[]>=0 *)
Notation table := (list (option V) * list (option P))%type.
(** lines 119-145, from spid [j] of the VellSet on; the perturbed values are those of set 0 *)
Fixpoint fill_spids (all_spids : list Z) (maxplanes ichild ivs : nat) (psets : list (pset V P)) (spids : list Z) (j ispid : nat) (t : table) : res table :=
  match spids with
  | [] => Ok t
  | spid :: spids =>
      bind (advance (skipn ispid all_spids) spid ispid) (fun ispid =>
      if nth ispid all_spids 0 =? spid then
        match psets with
        | [] => UB
        | ps :: _ =>
            match nth_error (ps_val ps) j, nth_error (ps_pert ps) j with
            | Some v, Some p =>
                bind (store (fst t) (IPTR (length all_spids) maxplanes ichild (ispid + 1) ivs) (Some v)) (fun vp =>
                match nth_error (snd t) ispid with
                | None => UB
                | Some (Some q) => if pert_eqb q p then fill_spids all_spids maxplanes ichild ivs psets spids (S j) ispid (vp, snd t) else Err
                | Some None => bind (store (snd t) ispid (Some p)) (fun perts => fill_spids all_spids maxplanes ichild ivs psets spids (S j) ispid (vp, perts))
                end)
            | _, _ => UB
            end
        end
      else fill_spids all_spids maxplanes ichild ivs psets spids (S j) ispid t)
  end.
(** lines 108-146, from VellSet [ivs] of the child on *)
Fixpoint fill_child (all_spids : list Z) (maxplanes ichild ivs : nat) (vs : list (vset V P F)) (t : table) : res table :=
  match vs with
  | [] => Ok t
  | VFail _ :: _ => Err
  | VData d :: vs =>
      match d_value d with
      | None => Err
      | Some v =>
          bind (store (fst t) (IPTR (length all_spids) maxplanes ichild 0 ivs) (Some v)) (fun vp =>
          bind (fill_spids all_spids maxplanes ichild ivs (d_psets d) (d_spids d) 0 0 (vp, snd t)) (fill_child all_spids maxplanes ichild (S ivs) vs))
      end
  end.
(** lines 101-147, from child [ichild] on *)
Fixpoint fill (all_spids : list Z) (maxplanes ichild : nat) (cs : list tresult) (t : table) : res table :=
  match cs with
  | [] => Ok t
  | c :: cs => bind (fill_child all_spids maxplanes ichild 0 (r_vs (t_res c)) t) (fill all_spids maxplanes (S ichild) cs)
  end.
(** getChildValue, TensorFunctionPert.h:65-78, the variant with "newval" *)
Definition getChildValue (vp : list (option V)) (nspids maxplanes ichild ipert ielem : nat) : res (option V) :=
  match nth_error vp (IPTR nspids maxplanes ichild ipert ielem) with
  | None => UB
  | Some (Some v) => Ok (Some v)
  | Some None => match ipert with
                 | O => Ok None
                 | S _ => match nth_error vp (IPTR nspids maxplanes ichild 0 ielem) with None => UB | Some x => Ok x end
                 end
  end.
Fixpoint each {A B} (f : A -> res B) (l : list A) : res (list B) :=
  match l with [] => Ok [] | x :: l => bind (f x) (fun y => bind (each f l) (fun r => Ok (y :: r))) end.
(** all values a node class may ask for to compute the values of one perturbation *)
Definition arguments (vp : list (option V)) (nspids maxplanes : nat) (nvs : list nat) (ipert : nat) : res (list (list (option V))) :=
  each (fun '(ichild, n) => each (getChildValue vp nspids maxplanes ichild ipert) (seq 0 n)) (combine (seq 0 (length nvs)) nvs).
(** the VellSets of the findSpids call, lines 61-71 *)
Definition vset_data (v : vset V P F) : option (vdata V P) := match v with VData d => Some d | VFail _ => None end.
(** VellSet::verifyShape, VellSet.cc:157-176, and setDataFlags: the values one after another *)
Fixpoint accept_each (flags : option (vells Z)) (held : list (list V)) (rows : list (list V)) : bool :=
  match rows with [] => true | vs :: rows => accept_all flags held vs && accept_each flags (hold held vs) rows end.
(** computeTensorResult, TensorFunctionPert.cc:45-186.  [old] is the number of pointers allocated before
    (nvp_).  The node class sets, for each perturbation, the values that it computes from the arguments
    of that perturbation. *)
Definition computeTensorResultPert (old : nat) (flagmask : list Z) (cs : list tresult) : res (result V P F) :=
  let nvs := map (fun c => length (r_vs (t_res c))) cs in
  let maxplanes := fold_left Nat.max nvs 0%nat in
  let (npertsets, all_spids) := findSpids (map vset_data (flat_map (fun c => r_vs (t_res c)) cs)) in
  if Nat.eqb npertsets 2 then Err else
  let nspids := length all_spids in
  let nvp := (length cs * maxplanes * (1 + nspids))%nat in
  bind (fill all_spids maxplanes 0 cs (repeat None (Nat.max old nvp), repeat None nspids)) (fun '(vp, perts) =>
  bind (getResultDims (map (fun c => r_dims (t_res c)) cs)) (fun dims =>
  let nres := num_planes dims in
  bind (each (fun ipert => bind (arguments vp nspids maxplanes nvs ipert) (fun args => bind (evaluateTensors args) (outputs nres))) (seq 0 (1 + nspids))) (fun rows =>
  bind (collect_children cs) (fun pvs =>
  bind (evaluateTensorFlags flagmask pvs) (fun flags =>
  if accept_each flags (repeat [] nres) rows then
    Ok {| r_dims := kept_dims dims;
          r_vs := map (fun j => VData {| d_value := match rows with r :: _ => nth_error r j | [] => None end; d_flags := flags; d_spids := all_spids;
                                         d_psets := [{| ps_pert := map (fun p => match p with Some p => p | None => pzero end) perts;
                                                        ps_val := flat_map (fun r => match nth_error r j with Some v => [v] | None => [] end) (tl rows) |}] |})
                      (seq 0 nres) |}
  else Err))))).
(** TensorFunctionPert::getResult, TensorFunctionPert.cc:190-206 *)
Definition pert_getResult (old : nat) (flagmask : list Z) (cs : list tresult) (request : option C) : res tresult :=
  bind (computeTensorResultPert old flagmask cs) (fun r => Ok {| t_res := r; t_cells := computeResultCells cs request |}).
End Tensor.
Arguments tresult : clear implicits.
