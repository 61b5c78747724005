(** MeqNodes/src/Solver.cc, fillEquations and fillEqVectors (lines 544-783): the linear equations that are handed to
    the subsolvers, made from the VellSets that Condeqs return.

    The tables of the Solver are those of Slv_Model, Vells are those of Ceq_Model (exact complex rationals: there are
    no NaNs or infinities, whose equations the code leaves out), strides and iterators are those of Vel_Model.  An
    equation is what is passed to LSQFit::makeNorm; what that does with it is left out.  The code advances iterators and
    tilings in one loop; here the positions of the iterators and the tile of the Solver come from one walk each over
    the same shape. *)
From Coq Require Import QArith Qcanon.
From Verif Require Import Base Vel_Model Slv_Model Ceq_Model.
Close Scope Q_scope. Local Open Scope Qc_scope. Local Open Scope nat_scope.

(** A VellSet as Condeq returns it: main value, flags, weights, and for each spid a derivative.  [None] elsewhere is one that is
    a fail or has no value *)
Record eqset := { e_value : cvells; e_flags : option (vells Z); e_weights : option (vells Qc); e_spids : list Z; e_ders : list cvells }.
(** makeNorm(nderiv,uk_index,deriv,weight,diff) of a subsolver *)
Record equation := { q_sub : nat; q_coefs : list (nat * Qc); q_weight : Qc; q_rhs : Qc }.

(** lines 720-734 *)
Definition find_spid (s : solver) (spid : Z) : option uktable := List.find (fun u => Z.eqb (i_spid (u_info u)) spid) (s_spids s).
Fixpoint find_spids (s : solver) (spids : list Z) : res (list uktable) :=
  match spids with
  | [] => Ok []
  | x :: spids => match find_spid s x with
                  | None => Err
                  | Some u => bind (find_spids s spids) (fun us => Ok (u :: us))
                  end
  end.
(** lines 567-576 and 617-625: group, index of the unknown, derivative.  [ssuki[itile]] may be out of range *)
Fixpoint derivs (itile : Z) (us : list uktable) (ds : list cplx) : res (list (nat * nat * cplx)) :=
  match us, ds with
  | u :: us, d :: ds => match nth_error (u_ssuki u) (Z.to_nat itile) with
                        | None => UB
                        | Some k => bind (derivs itile us ds) (fun l => Ok ((i_group (u_info u), k, d) :: l))
                        end
  | _, _ => Ok []
  end.
Definition of_group (g : nat) (l : list (nat * nat * cplx)) : list (nat * cplx) :=
  map (fun x => (snd (fst x), snd x)) (filter (fun x => Nat.eqb (fst (fst x)) g) l).
(** lines 587-601 and 638-655: the equations of one solve group *)
Definition group_equations (s : solver) (converged : nat -> bool) (itile : Z) (cx : bool) (diff : cplx) (weight : Qc) (l : list (nat * nat * cplx)) (g : nat) : list equation :=
  let c := of_group g l in
  let sub := psubsolver s (Z.to_nat itile) g in
  match c with
  | [] => []
  | _ => if converged sub then []
         else {| q_sub := sub; q_coefs := map (fun x => (fst x, fst (snd x))) c; q_weight := weight; q_rhs := fst diff |} ::
              (if cx then [{| q_sub := sub; q_coefs := map (fun x => (fst x, snd (snd x))) c; q_weight := weight; q_rhs := snd diff |}] else [])
  end.
Definition fillEqVectors (s : solver) (converged : nat -> bool) (itile : Z) (us : list uktable) (cx : bool) (diff : cplx) (ds : list cplx) (weight : Qc) : res (list equation) :=
  bind (derivs itile us ds) (fun l => Ok (concat (map (group_equations s converged itile cx diff weight l) (seq 0 (s_groups s))))).
(** lines 748-776; [ps] are the positions of the iterators of main value, flags, weights and derivatives *)
Fixpoint fill_cells (s : solver) (converged : nat -> bool) (mask : Z) (e : eqset) (us : list uktable) (ps : list (list Z)) (tiles : list Z) : res (list equation) :=
  match ps, tiles with
  | p :: ps, itile :: tiles =>
      let flag := match e_flags e with Some f => getf (v_data f) (nth 1 p 0%Z) | None => 0%Z end in
      let weight := match e_weights e with Some w => get 0%Qc (v_data w) (nth 2 p 0%Z) | None => 1%Qc end in
      let diff := get c0 (v_data (c_arr (e_value e))) (nth 0 p 0%Z) in
      let ds := map (fun '(d, q) => get c0 (v_data (c_arr d)) q) (combine (e_ders e) (skipn 3 p)) in
      bind (if Z.eqb (Z.land flag mask) 0 && match (weight ?= 0)%Qc with Gt => true | _ => false end
            then fillEqVectors s converged itile us (c_cx (e_value e)) diff ds weight else Ok []) (fun a =>
      bind (fill_cells s converged mask e us ps tiles) (fun b => Ok (a ++ b)))
  | _, _ => Ok []
  end.
(** lines 657-783.  [cells] is cells_shape_.  The iterators of derivatives are for elements of the type of the main
    value (ConstStridedIterator<T>, which throws for another type).  Without flags the strides are null_strides, zeros
    (Vells.h:682-698); without weights they are those of Vells::Unity() *)
Definition fillEquations (s : solver) (converged : nat -> bool) (cells : list Z) (mask : Z) (e : eqset) : res (list equation) :=
  if Nat.ltb (length (s_spids s)) (length (e_spids e)) then Err else
  bind (find_spids s (e_spids e)) (fun us =>
  let fshape := match e_flags e with Some f => v_shape f | None => [1%Z] end in
  let wshape := match e_weights e with Some w => v_shape w | None => [1%Z] end in
  bind (computeStrides (cells :: v_shape (c_arr (e_value e)) :: fshape :: wshape :: map (fun d => v_shape (c_arr d)) (e_ders e))) (fun '(out, st) =>
  if negb (forallb (fun d => Bool.eqb (c_cx d) (c_cx (e_value e))) (e_ders e)) then Err else
  let its := (nth 1 st [], 0%Z, nelements (c_arr (e_value e))) ::
             match e_flags e with Some f => (nth 2 st [], 0%Z, nelements f) | None => (map (fun _ => 0%Z) out, 0%Z, 1%Z) end ::
             match e_weights e with Some w => (nth 3 st [], 0%Z, nelements w) | None => (nth 3 st [], 0%Z, 1%Z) end ::
             map (fun '(d, j) => (nth j st [], 0%Z, nelements (c_arr d))) (combine (e_ders e) (seq 4 (length (e_ders e)))) in
  bind (run out its) (fun ps =>
  let shape := map Z.to_nat out in
  let t := tiling_at (s_tilings s) (s_isolver s) in
  fill_cells s converged mask e us ps (map snd (walk_go (volume shape) t shape (map (fun _ => 0) shape) (fresh t) 0))))).
(** lines 1043-1056: all VellSets that are not fails and have values *)
Fixpoint fillAll (s : solver) (converged : nat -> bool) (cells : list Z) (mask : Z) (l : list (option eqset)) : res (list equation) :=
  match l with
  | [] => Ok []
  | None :: l => fillAll s converged cells mask l
  | Some e :: l => bind (fillEquations s converged cells mask e) (fun a => bind (fillAll s converged cells mask l) (fun b => Ok (a ++ b)))
  end.
