(** MeqNodes/src/MatrixMultiply.cc: the product of any number of scalars, vectors and matrices.

    VellSets and Results are those of Fun_Model, and the parts that this file of the code borrows from Function.cc (as its
    comment on lines 293-295 says) are modelled by the functions of Fun_Model.  Values ([V], a Vells), perturbations ([P]), fail records
    ([F]) and Vells arithmetic are parameters; the end of the file gives them for Vells of complex numbers with
    rational parts.  The flags that a Vells carries itself are left out (VellSet attaches its flags to its values), and so
    are flags that are put on a fail or on a VellSet without a value (lines 105-106).  [accepts] stands for VellSet::adjustShape as in Fun_Model; the
    order in which value and flags are put into the VellSet does not matter to it. *)
From Coq Require Import QArith Qcanon.
From Verif Require Import Base Poll_Model Vel_Model Fun_Model Ceq_Model.
Close Scope Q_scope. Close Scope Qc_scope. Local Open Scope nat_scope.

Section MatrixMultiply.
Context {V P F : Type}.
Variable null : V.                                      (* Vells(), Vells.cc:78-81 *)
Variables isNull isUnity : V -> bool.                   (* Vells.h:313-319 *)
Variables times times_eq plus_eq : V -> V -> res V.     (* operator * (Vells.h:926-939), *= (977-992) and += (963-975) *)
Variable accepts : option (vells Z) -> list V -> V -> bool.
Variable pert_eqb : P -> P -> bool.
Notation vdata := (vdata V P).
Notation vset := (vset V P F).
Notation result := (result V P F).

(** computeSum, lines 39-50: [pv] has the factors alternating *)
Fixpoint computeSum (out : V) (pv : list (option V)) : res V :=
  match pv with
  | pa :: pb :: pv =>
      match pa, pb with
      | Some a, Some b => bind (times a b) (fun p => bind (plus_eq out p) (fun out => computeSum out pv))
      | _, _ => computeSum out pv
      end
  | _ => Ok out
  end.
(** lines 136-137 and 208-209: [valref() *= ...] *)
Definition computeProduct (pv : list (option V)) : res V :=
  match pv with [Some a; Some b] => times_eq a b | _ => UB end.

(** lines 133-138 with 150-212, and lines 333-404: main and perturbed values of the VellSet that is made from [vs].  VellSets without
    a value take part in findSpids but not in the loop over the VellSets (line 369). *)
Definition valued (d : vdata) : option vdata := match d_value d with Some _ => Some d | None => None end.
Definition compute (evaluate : list (option V) -> res V) (vs : list vdata) (flags : option (vells Z)) : res vdata :=
  let values := map d_value vs in
  bind (evaluate values) (fun v =>
  if accepts flags [] v then
    let (npert, spids) := findSpids (map Some vs) in
    bind (spid_loop (fun _ => true) accepts pert_eqb evaluate (map valued vs) values npert flags spids (map (fun _ => 0) vs) [v]) (fun rows =>
    Ok {| d_value := Some v; d_flags := flags; d_spids := spids; d_psets := map (pset_of rows) (seq 0 npert) |})
  else Err).
(** [if( vs.hasDataFlags() ) mergeFlags(flags,vs.dataFlags(),mask)] *)
Definition merge_from (d : vdata) (mask : Z) (flags : option (vells Z)) : res (option (vells Z)) :=
  match d_flags d with Some f => mergeFlags flags f mask | None => Ok flags end.
Definition with_flags (d : vdata) (f : option (vells Z)) : vdata :=
  {| d_value := d_value d; d_flags := f; d_spids := d_spids d; d_psets := d_psets d |}.

(** ** scalarMultiply, lines 53-214 *)
(** [new Result(1)] with one VellSet *)
Definition scalar_result (vs : vset) : result := {| r_dims := []; r_vs := [vs] |}.
(** lines 94-109: the tensor itself, with flags applied *)
Definition unity_plane (s : vdata) (fms fmt : Z) (vs : vset) : res vset :=
  match vs with
  | VFail l => Ok (VFail l)
  | VData d =>
      bind (if vs_isNull isNull d then Ok None else merge_from d fmt None) (fun flags =>
      bind (merge_from s fms flags) (fun flags =>
      match flags with
      | None => Ok (VData d)
      | Some f => match d_value d with
                  | Some v => if accepts (Some f) [] v then Ok (VData (with_flags d (Some f))) else Err
                  | None => Ok (VData (with_flags d (Some f)))
                  end
      end))
  end.
Fixpoint each {A B} (f : A -> res B) (l : list A) : res (list B) :=
  match l with
  | [] => Ok []
  | x :: l => bind (f x) (fun y => bind (each f l) (fun ys => Ok (y :: ys)))
  end.
Definition unity_result (s : vdata) (ten : result) (fms fmt : Z) : res result :=
  if match d_flags s with Some _ => negb (Z.eqb fms 0) | None => false end || negb (Z.eqb fmt VellsFullFlagMask)
  then bind (each (unity_plane s fms fmt) (r_vs ten)) (fun vs => Ok {| r_dims := r_dims ten; r_vs := vs |})
  else Ok ten.
(** lines 121-213: one plane *)
Definition scalar_plane (s : vdata) (ten : result) (fms fmt : Z) (ivs : nat) : res vset :=
  match nth_error (r_vs ten) ivs with
  | None => UB
  | Some (VFail l) => Ok (VFail l)
  | Some (VData t) =>
      match d_value t with
      | None => Ok (VData t)
      | Some _ =>
          bind (if vs_isNull isNull s || vs_isNull isNull t then Ok None
                else bind (merge_from s fms None) (merge_from t fmt)) (fun flags =>
          bind (compute computeProduct [t; s] flags) (fun d => Ok (VData d)))
      end
  end.
Definition no_spids (d : vdata) : bool := match d_spids d with [] => true | _ => false end.
Definition scalarMultiply (sca ten : result) (fms fmt : Z) : res result :=
  if Nat.ltb 2 (tensorRank ten) then Err else
  match r_vs sca with
  | [] => Ok (scalar_result (VData no_data))
  | VFail l :: _ => Ok (scalar_result (VFail l))
  | VData s :: _ =>
      match d_value s with
      | None => Ok (scalar_result (VData no_data))
      | Some sv =>
          if no_spids s && isNull sv then Ok (scalar_result (VData {| d_value := Some null; d_flags := None; d_spids := []; d_psets := [] |}))
          else if no_spids s && isUnity sv then unity_result s ten fms fmt
          else bind (each (scalar_plane s ten fms fmt) (seq 0 (num_planes (r_dims ten)))) (fun vs => Ok {| r_dims := kept_dims (r_dims ten); r_vs := vs |})
      end
  end.

(** ** Matrices, lines 255-406 *)
(** lines 256-270: rows and columns *)
Definition mat_dims (c : result) : res (nat * nat) :=
  match r_dims c with [_] => Ok (length (r_vs c), 1) | [p; q] => Ok (p, q) | _ => Err end.
Definition fails_of (vs : vset) : list F := match vs with VFail l => l | VData _ => [] end.
(** lines 302-329: [ja] and [jb] are the indices of the next factors, [n] the number of terms left.  A fail has at least one fail record,
    so that [fails] is empty if and only if [vellset.isFail()] is false. *)
Fixpoint sum_loop (A B : list vset) (cols : nat) (fm : Z) (n ja jb : nat) (fails : list F) (vs : list vdata) (flags : option (vells Z)) :
    res (list F * list vdata * option (vells Z)) :=
  match n with
  | O => Ok (fails, vs, flags)
  | S n =>
      match nth_error A ja, nth_error B jb with
      | Some a, Some b =>
          let fails := fails ++ fails_of a ++ fails_of b in
          match fails, a, b with
          | [], VData x, VData y =>
              bind (if vs_isNull isNull x || vs_isNull isNull y then Ok flags
                    else bind (merge_from x VellsFullFlagMask flags) (merge_from y fm)) (fun flags =>
              sum_loop A B cols fm n (S ja) (jb + cols) [] (vs ++ [x; y]) flags)
          | _, _, _ => sum_loop A B cols fm n (S ja) (jb + cols) fails vs flags
          end
      | _, _ => UB
      end
  end.
(** lines 292-404: element (i,k) *)
Definition matrix_plane (A B : list vset) (inner cols : nat) (fm : Z) (ik : nat * nat) : res vset :=
  let (i, k) := ik in
  bind (sum_loop A B cols fm inner (i * inner) k [] [] None) (fun '(fails, vs, flags) =>
  match fails with
  | [] => bind (compute (computeSum null) vs flags) (fun d => Ok (VData d))
  | _ => Ok (addFails fails)
  end).
(** lines 275-279 with Result.cc:35-47, 205-243 *)
Definition out_dims (rows cols : nat) : list nat :=
  if Nat.eqb cols 1 then (if Nat.ltb 1 rows then [rows] else []) else kept_dims [rows; cols].
Definition matrixMultiply (a b : result) (fm : Z) : res result :=
  bind (mat_dims a) (fun '(rows, inner) =>
  bind (mat_dims b) (fun '(inner', cols) =>
  if negb (Nat.eqb inner inner') then Err else
  bind (each (matrix_plane (r_vs a) (r_vs b) inner cols fm) (list_prod (seq 0 rows) (seq 0 cols))) (fun vs =>
  Ok {| r_dims := out_dims rows cols; r_vs := vs |}))).

(** ** getResult, lines 216-417 *)
(** lines 230-239 *)
Definition masked (fm : Z) (c : result) : result :=
  if Z.eqb fm VellsFullFlagMask then c else
  {| r_dims := r_dims c;
     r_vs := map (fun vs => match vs with
                            | VFail l => VFail l
                            | VData d => VData (with_flags d (option_map (unary (fun f => Z.land f fm)) (d_flags d)))
                            end) (r_vs c) |}.
(** lines 244-254 *)
Definition multiply (a b : result) (fm : Z) : res result :=
  if Nat.eqb (tensorRank a) 0 then scalarMultiply a b VellsFullFlagMask fm
  else if Nat.eqb (tensorRank b) 0 then scalarMultiply b a fm VellsFullFlagMask
  else matrixMultiply a b fm.
Definition numFails (r : result) : nat := length (filter (fun vs => match vs with VFail _ => true | _ => false end) (r_vs r)).
(** lines 240-416 *)
Fixpoint product_loop (a : result) (cs : list result) (masks : list Z) : res (result * Z) :=
  match cs, masks with
  | [], _ => Ok (a, 0%Z)
  | c :: cs, m :: masks =>
      bind (multiply a c m) (fun r => if Nat.eqb (numFails r) (length (r_vs r)) then Ok (r, RES_FAIL) else product_loop r cs masks)
  | _ :: _, [] => UB
  end.
(** [masks] is flagmask_ after lines 221-226 *)
Definition getResult (masks : list Z) (cs : list result) : res (result * Z) :=
  if negb (Nat.eqb (length masks) (length cs)) then Err else
  match cs, masks with
  | c0 :: c1 :: cs, m0 :: masks => product_loop (masked m0 c0) (c1 :: cs) masks
  | _, _ => Err
  end.
End MatrixMultiply.

(** ** Complex Vells *)
Definition c1 : cplx := (1%Qc, 0%Qc).
Definition cplus (x y : cplx) : cplx := ((fst x + fst y)%Qc, (snd x + snd y)%Qc).
Definition cmult (x y : cplx) : cplx := ((fst x * fst y - snd x * snd y)%Qc, (fst x * snd y + snd x * fst y)%Qc).
Definition ceqb (x y : cplx) : bool := Qc_eq_bool (fst x) (fst y) && Qc_eq_bool (snd x) (snd y).
Definition null_vells : cvells := {| c_cx := false; c_arr := nullVells c0 |}.
Definition is_null (v : cvells) : bool := Vel_Model.isNull c0 c0 ceqb (c_arr v).
Definition is_unity (v : cvells) : bool := Vel_Model.isUnity c0 c1 ceqb (c_arr v).
(** operator *, *= and +=, with their shortcuts; a Vells of double cannot take a complex argument in place *)
Definition mult (a b : cvells) : res cvells :=
  if is_null a || is_null b then Ok null_vells else if is_unity a then Ok b else if is_unity b then Ok a
  else lift (c_cx a || c_cx b) (binary c0 cmult (c_arr a) (c_arr b)).
Definition mult_eq (a b : cvells) : res cvells :=
  if is_null a || is_null b then Ok null_vells else if is_unity a then Ok b else if is_unity b then Ok a
  else lift (c_cx a || c_cx b) (inplace c0 (fun _ _ => negb (c_cx a) && c_cx b) cmult (c_arr a) (c_arr b)).
Definition add_eq (a b : cvells) : res cvells :=
  if is_null b then Ok a else if is_null a then Ok b
  else lift (c_cx a || c_cx b) (inplace c0 (fun _ _ => negb (c_cx a) && c_cx b) cplus (c_arr a) (c_arr b)).
