(** MeqNodes/src/MatrixInvert22.cc: the inverse of a scalar or of a 2x2 matrix.
    VellSets and Results are those of Fun_Model, Vells are those of Ceq_Model
    and Mmul_Model (complex numbers with rational parts, so that a division by zero gives
    some number instead of an infinity).  The code for the perturbed values, lines 158-240, is that of MatrixMultiply
    (Mmul_Model.compute): it is run here once for each of the four VellSets instead of for all of them together, which
    makes a difference only when it ends in an exception.
    [accepts] stands for VellSet::adjustShape as in Fun_Model. *)
From Coq Require Import QArith Qcanon.
From Verif Require Import Base Poll_Model Vel_Model Fun_Model Ceq_Model Mmul_Model.
Close Scope Q_scope. Close Scope Qc_scope. Local Open Scope nat_scope.

(** [1/a], Vells.h:1156-1162 and 941, and [-a], Vells.h:882-887 *)
Definition recip (a : cvells) : res cvells := lift (c_cx a) (binary c0 cdiv (scalar 1%Qc) (c_arr a)).
Definition negate (a : cvells) : cvells :=
  {| c_cx := c_cx a; c_arr := unary (fun z : cplx => ((- fst z)%Qc, (- snd z)%Qc)) (c_arr a) |}.

Section Invert.
Context {F : Type}.
Variable accepts : option (vells Z) -> list cvells -> cvells -> bool.
Variable pert_eqb : Qc -> Qc -> bool.
Notation vdata := (vdata cvells Qc).
Notation vset := (vset cvells Qc F).
Notation result := (result cvells Qc F).

(** lines 72-94: a scalar.  The shapes of the Vells do not change, so that VellSet::adjustShape has no say. *)
Definition invert_pset (ps : pset cvells Qc) : res (pset cvells Qc) :=
  bind (each recip (ps_val ps)) (fun l => Ok {| ps_pert := ps_pert ps; ps_val := l |}).
Definition invert_scalar (d : vdata) : res vdata :=
  match d_value d with
  | None => Err
  | Some v => bind (recip v) (fun v => bind (each invert_pset (d_psets d)) (fun pss =>
              Ok {| d_value := Some v; d_flags := d_flags d; d_spids := d_spids d; d_psets := pss |}))
  end.

(** lines 150-157 and 226-237: element [i] of the inverse of a matrix given row by row; [None] is a null Vells (lines 112, 126).
    The products ad0 and bc0 that are kept (lines 226-231) are those that would be computed again. *)
Definition value_of (o : option cvells) : cvells := match o with Some v => v | None => null_vells end.
Definition inverse_element (i : nat) (pv : list (option cvells)) : res cvells :=
  match pv with
  | [a; b; c; d] =>
      let a := value_of a in let b := value_of b in let c := value_of c in let d := value_of d in
      bind (mult a d) (fun ad => bind (mult b c) (fun bc => bind (minus ad bc) (fun x => bind (recip x) (fun det =>
      let mdet := negate det in
      match i with
      | 0 => mult d det
      | 1 => mult b mdet
      | 2 => mult c mdet
      | _ => mult a det
      end))))
  | _ => UB
  end.

(** lines 106-130: fails, VellSets and flags *)
Fixpoint gather (mask : Z) (vss : list vset) (fails : list F) (vs : list vdata) (flags : option (vells Z)) : res (list F * list vdata * option (vells Z)) :=
  match vss with
  | [] => Ok (fails, vs, flags)
  | v :: vss =>
      let fails := fails ++ fails_of v in
      match fails, v with
      | [], VData d => bind (merge_from d mask flags) (gather mask vss fails (vs ++ [d]))
      | _, _ => gather mask vss fails vs flags
      end
  end.
(** lines 98-241 *)
Definition invert_matrix (mask : Z) (c : result) : res (result * Z) :=
  if negb (Nat.eqb (length (r_vs c)) 4) then Err else
  bind (gather mask (r_vs c) [] [] None) (fun '(fails, vs, flags) =>
  match @addFails cvells Qc F fails with
  | VFail l => Ok (scalar_result (VFail l), RES_FAIL)
  | VData _ =>
      bind (each (fun i => bind (Mmul_Model.compute accepts pert_eqb (inverse_element i) vs flags) (fun d => Ok (VData d))) [0; 1; 2; 3]) (fun vs =>
      Ok ({| r_dims := r_dims c; r_vs := vs |}, 0%Z))
  end).
(** getResult, lines 58-245.  [masks] is flagmask_ (empty at first). *)
Definition getResult (masks : list Z) (cs : list result) : res (result * Z) :=
  match cs with
  | [c] =>
      bind (match masks with [] => Ok VellsFullFlagMask | [m] => Ok m | _ => Err end) (fun mask =>
      match r_dims c with
      | [] => match r_vs c with
              | [VFail l] => Ok (scalar_result (VFail l), RES_FAIL)
              | [VData d] => bind (invert_scalar d) (fun d => Ok (scalar_result (VData d), 0%Z))
              | _ => Err
              end
      | [2; 2] => invert_matrix mask c
      | _ => Err
      end)
  | _ => Err
  end.
End Invert.
