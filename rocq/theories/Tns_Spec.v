(** What tensors of VellSets should mean: a Result of dimensions [d1,...,dk] has one VellSet per index, in row-major order, and the nodes
    that rearrange them are described by which index of the result comes from which index of the argument. *)
From Verif Require Import Base Poll_Model Vel_Model Fun_Model Tns_Model.

Section Tensors.
Context {V P F : Type}.
Notation tres := (tres V P F).
Notation vset := (vset V P F).

Definition prod (d : list nat) : nat := fold_right Nat.mul 1 d.
(** an index into a tensor of dimensions [d] *)
Definition within (d ix : list nat) : Prop := Forall2 lt ix d.
(** its place in row-major order *)
Fixpoint place (d ix : list nat) : nat :=
  match d, ix with n :: d, i :: ix => i * prod d + place d ix | _, _ => 0 end.
(** the VellSet at this index, if there is one *)
Definition elem (r : tres) (ix : list nat) : option vset := nth_error (t_vs r) (place (t_dims r) ix).
(** One VellSet per index; and a copy of the Result will have the same dimensions: those of tensors of rank 2 and up are in
    the record, a vector has at least two elements. *)
Definition sound (r : tres) : Prop :=
  t_vs r <> [] /\ length (t_vs r) = prod (t_dims r) /\
  t_field r = (if Nat.ltb 1 (length (t_dims r)) then Some (t_dims r) else None) /\
  (length (t_dims r) = 1 -> 1 < length (t_vs r)).

(** ** Slices: a negative number stands for all of the axis *)
Definition sliced (s : Z) : Prop := (s < 0)%Z.
(** the numbers are below the dimensions *)
Definition selects (d : list nat) (sel : list Z) : Prop := Forall2 (fun s n => (s < Z.of_nat n)%Z) sel d.
(** dimensions of the slice: axes after the last sliced one are left out *)
Fixpoint slice_dims (d : list nat) (sel : list Z) : list nat :=
  match d, sel with
  | n :: d, s :: sel =>
      if Z.ltb s 0 then n :: slice_dims d sel
      else match slice_dims d sel with [] => [] | l => 1 :: l end
  | _, _ => []
  end.
(** where the element of the slice comes from *)
Fixpoint source (sel : list Z) (jx : list nat) : list nat :=
  match sel with
  | [] => []
  | s :: sel => (if Z.ltb s 0 then hd 0 jx else Z.to_nat s) :: source sel (tl jx)
  end.
(** all sliced axes but the last have one element only *)
Fixpoint lone_slice (d : list nat) (sel : list Z) : Prop :=
  match d, sel with
  | n :: d, s :: sel => (sliced s -> Exists sliced sel -> n = 1) /\ lone_slice d sel
  | _, _ => True
  end.
(** the index belongs to the slice *)
Definition belongs (sel : list Z) (ix : list nat) : Prop := Forall2 (fun s i => sliced s \/ s = Z.of_nat i) sel ix.
(** [r] is what the slice of [a] should be; one element has no dimensions *)
Definition slice_of (a : tres) (sel : list Z) (r : tres) : Prop :=
  t_dims r = (if Nat.eqb (prod (slice_dims (t_dims a) sel)) 1 then [] else slice_dims (t_dims a) sel) /\
  length (t_vs r) = prod (slice_dims (t_dims a) sel) /\
  forall jx, within (slice_dims (t_dims a) sel) jx ->
    nth_error (t_vs r) (place (slice_dims (t_dims a) sel) jx) = elem a (source sel jx).

(** ** Return codes: a Result all of whose VellSets have failed, or are missing *)
Definition failed (v : vset) : Prop := exists l, v = VFail l.
(** no value and no spids; a fail has none either *)
Definition without_data (v : vset) : Prop := failed v \/ exists d, v = VData d /\ d_value d = None /\ d_spids d = [].
Definition tells_state (l : list vset) (code : Z) : Prop :=
  (code = RES_FAIL <-> Forall failed l) /\
  (code = RES_MISSING <-> Forall without_data l /\ ~ Forall failed l) /\
  (code = RES_FAIL \/ code = RES_MISSING \/ code = 0%Z).
(** the same, where a Result with fails and missing VellSets counts as neither *)
Definition missing (v : vset) : Prop := without_data v /\ ~ failed v.
Definition tells_state_strictly (l : list vset) (code : Z) : Prop :=
  (code = RES_FAIL <-> Forall failed l) /\ (code = RES_MISSING <-> Forall missing l) /\
  (code = RES_FAIL \/ code = RES_MISSING \/ code = 0%Z).

(** ** Composed tensors: child number [c] is the part with first index [c]; scalars stand for tensors of equal elements, and an empty Result for
    one without data *)
Definition part_of (c : tres) (ix : list nat) : option vset :=
  match t_vs c with
  | [] => Some (VData no_data)
  | [v] => Some v
  | _ => elem c ix
  end.

(** the VellSets of the children, one after the other *)
Definition all_vs (cs : list tres) : list vset := concat (map t_vs cs).
(** the children are tensors of dimensions [d], scalars, or without VellSets *)
Definition alike (d : list nat) (cs : list tres) : Prop := Forall (fun c => length (t_vs c) <= 1 \/ (sound c /\ t_dims c = d)) cs.
(** [d] if there is a tensor *)
Definition inner_dims (d : list nat) (cs : list tres) : list nat := if existsb (fun c : tres => Nat.ltb 1 (length (t_vs c))) cs then d else [].

(** ** The conjugate of a VellSet: of its value and its perturbed values; flags, spids and perturbations stay as they are *)
Variable conj : V -> V.
Definition conjugate_of (v v' : vset) : Prop :=
  match v, v' with
  | VFail l, VFail l' => l' = l
  | VData d, VData d' =>
      if d_value d then
        d_value d' = option_map conj (d_value d) /\ d_flags d' = d_flags d /\ d_spids d' = d_spids d /\
        Forall2 (fun p p' => ps_pert p' = ps_pert p /\ Forall2 (fun x y => y = conj x) (ps_val p) (ps_val p')) (d_psets d) (d_psets d')
      else d' = d
  | _, _ => False
  end.
(** a perturbation set has one value per spid *)
Definition tidy (v : vset) : Prop :=
  match v with VFail _ => True | VData d => Forall (fun p => length (ps_val p) = length (d_spids d)) (d_psets d) end.
(** elements [x] of the argument and [y] of the transpose that correspond *)
Definition corresponds (conj_ : bool) (x y : option vset) : Prop :=
  match x, y with
  | Some v, Some v' => if conj_ then conjugate_of v v' else v' = v
  | None, None => True
  | _, _ => False
  end.
End Tensors.
