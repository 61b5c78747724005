(** MeqNodes/src/Condeq.cc: conditional equations.  A Condeq has two children, the left and right hand sides of an
    equation, and an optional third that gives weights; its result tells a Solver how far the equation is from
    being satisfied and how that depends on the solvable parameters.

    VellSets and Results are those of Fun_Model, Vells arithmetic is that of Vel_Model.  Elements are complex
    numbers with exact rational parts instead of double or dcomplex, so overflow, rounding and NaNs are left out,
    and division by a perturbation of 0 gives 0.  The flags that a Vells may carry itself are left out: VellSet
    attaches its flags to its values.  [fits] stands for VellSet::adjustShape, which refuses a value whose shape
    does not go with the ones the VellSet has already.  How Node::execute deals with exceptions is left out. *)
From Coq Require Import QArith Qround Qcanon.
From Verif Require Import Base Poll_Model Vel_Model Fun_Model.
Close Scope Q_scope. Local Open Scope Qc_scope. Local Open Scope nat_scope.

(** ** Elements *)
Notation cplx := (Qc * Qc)%type.
Definition c0 : cplx := (0%Qc, 0%Qc).
Definition csub (x y : cplx) : cplx := ((fst x - fst y)%Qc, (snd x - snd y)%Qc).
Definition cdiv (x y : cplx) : cplx :=
  let n := (fst y * fst y + snd y * snd y)%Qc in
  (((fst x * fst y + snd x * snd y) / n)%Qc, ((snd x * fst y - fst x * snd y) / n)%Qc).
(** C99 remainder(x,y): x - n*y where n is the integer nearest to x/y, the even one if two are *)
Definition nearest (q : Qc) : Z :=
  let f := Qfloor q in
  match (q - Q2Qc (inject_Z f) ?= Q2Qc (1 # 2))%Qc with
  | Lt => f
  | Gt => (f + 1)%Z
  | Eq => if Z.even f then f else (f + 1)%Z
  end.
Definition remainder (x y : Qc) : Qc := (x - Q2Qc (inject_Z (nearest (x / y))) * y)%Qc.

(** ** Vells of double ([c_cx = false], imaginary parts 0) or dcomplex *)
Record cvells := { c_cx : bool; c_arr : vells cplx }.
Definition lift (cx : bool) (r : res (vells cplx)) : res cvells := bind r (fun a => Ok {| c_cx := cx; c_arr := a |}).
(** a Vells made of a double *)
Definition scalar (x : Qc) : vells cplx := plain [1%Z] [(x, 0%Qc)].
(** [a - b], [a -= b] and [a /= x]; Vells.h:939 and 992 *)
Definition minus (a b : cvells) : res cvells := lift (c_cx a || c_cx b) (binary c0 csub (c_arr a) (c_arr b)).
Definition minus_eq (a b : cvells) : res cvells :=
  lift (c_cx a || c_cx b) (inplace c0 (fun _ _ => negb (c_cx a) && c_cx b) csub (c_arr a) (c_arr b)).
Definition over_eq (a : cvells) (x : Qc) : res cvells := lift (c_cx a) (inplace c0 (fun _ _ => false) cdiv (c_arr a) (scalar x)).
(** remainder(a,x), Vells.h:1137: both must be real *)
Definition vremainder (a : cvells) (x : Qc) : res cvells :=
  if c_cx a then Err else lift false (binary c0 (fun u v => (remainder (fst u) (fst v), 0%Qc)) (c_arr a) (scalar x)).
(** tocomplex(a,0), Vells.h:1132: both must be real *)
Definition tocomplex (a : cvells) : res cvells :=
  if c_cx a then Err else lift true (binary c0 (fun u v => (fst u, fst v)) (c_arr a) (scalar 0%Qc)).

Section Condeq.
Context {F : Type}.
Notation vdata := (vdata cvells Qc).
Notation result := (result cvells Qc F).
Variable fits : list (list Z) -> list Z -> bool.
(** modulo_, lines 55-61: [None] if 0 *)
Variable modulo : option Qc.
Definition wrapped (v : cvells) : res cvells := match modulo with Some m => vremainder v m | None => Ok v end.

(** calcDerivative, lines 64-93: the derivative and the perturbation *)
Definition calcDerivative (d : vdata) (index : nat) (neg : bool) : res (cvells * Qc) :=
  bind (match d_psets d with
        | [ps] => match nth_error (ps_pert ps) index, nth_error (ps_val ps) index, d_value d with
                  | Some p, Some pv, Some v => bind (if neg then minus v pv else minus pv v) (fun x => Ok (x, p))
                  | _, _, _ => UB
                  end
        | [ps0; ps1] => match nth_error (ps_pert ps0) index, nth_error (ps_val ps0) index, nth_error (ps_pert ps1) index, nth_error (ps_val ps1) index with
                        | Some p0, Some v0, Some p1, Some v1 => bind (if neg then minus v1 v0 else minus v0 v1) (fun x => Ok (x, (p0 - p1)%Qc))
                        | _, _, _, _ => UB
                        end
        | _ => Err
        end) (fun '(x, p) =>
  bind (wrapped x) (fun x => bind (over_eq x p) (fun x => Ok (x, p)))).

(** lines 194-209: the derivative with respect to one spid, given where it is in the two VellSets *)
Definition derivative (l r : vdata) (inx0 inx1 : option nat) : res (cvells * Qc) :=
  match inx1, inx0 with
  | Some i1, Some i0 =>
      bind (calcDerivative r i1 true) (fun '(x, p) => bind (calcDerivative l i0 true) (fun '(d1, _) => bind (minus_eq x d1) (fun x => Ok (x, p))))
  | Some i1, None => calcDerivative r i1 true
  | None, Some i0 => calcDerivative l i0 false
  | None, None => Ok ({| c_cx := false; c_arr := scalar 0%Qc |}, 0%Qc)
  end.
Fixpoint all_complex (l : list (cvells * Qc)) : res (list (cvells * Qc)) :=
  match l with
  | [] => Ok []
  | (v, p) :: l => bind (tocomplex v) (fun v => bind (all_complex l) (fun l => Ok ((v, p) :: l)))
  end.
Definition shape_of (v : cvells) : list Z := v_shape (c_arr v).
(** setValue and setPerturbedValue: throw if the shape does not go with what the VellSet has *)
Definition checked {A} (have : list (list Z)) (v : cvells) (k : res A) : res A := if fits have (shape_of v) then k else Err.
(** lines 189-227: the spids from some point on.  [i0] and [i1] are indices[0] and indices[1], [cx] is
    force_complex, [main] and [done] what the VellSet has by now, [have] the shapes it has been given *)
Fixpoint spids_loop (l r : vdata) (spids : list Z) (i0 i1 : nat) (cx : bool) (mainval main : cvells) (done : list (cvells * Qc)) (have : list (list Z)) :
    res (cvells * list (cvells * Qc) * list (list Z)) :=
  match spids with
  | [] => Ok (main, done, have)
  | s :: spids =>
      let (inx0, i0) := isDefined (d_spids l) s i0 in
      let (inx1, i1) := isDefined (d_spids r) s i1 in
      bind (derivative l r inx0 inx1) (fun '(x, p) =>
      if cx then
        bind (if c_cx x then Ok x else tocomplex x) (fun x =>
        checked have x (spids_loop l r spids i0 i1 true mainval main (done ++ [(x, p)]) (shape_of x :: have)))
      else if c_cx x then
        bind (tocomplex mainval) (fun main => bind (all_complex done) (fun done =>
        checked have x (spids_loop l r spids i0 i1 true mainval main (done ++ [(x, p)]) (shape_of x :: have))))
      else
        checked have x (spids_loop l r spids i0 i1 false mainval main (done ++ [(x, p)]) (shape_of x :: have)))
  end.

(** a VellSet with weights; [None] is a VellSet without a value *)
Record cdata := { q_data : vdata; q_weights : option cvells }.
(** lines 144-149: flags of the two children *)
Definition or_flags (a b : option (vells Z)) : res (option (vells Z)) :=
  match a, b with
  | Some a, Some b => bind (flagOr a b) (fun f => Ok (Some f))
  | Some a, None => Ok (Some a)
  | None, b => Ok b
  end.
Definition flag_shape (f : option (vells Z)) : list (list Z) := match f with Some f => [v_shape f] | None => [] end.
(** lines 159-232: a plane for which both children have a value *)
Definition equation (l r : vdata) (v0 v1 : cvells) (w : option cvells) : res cdata :=
  bind (or_flags (d_flags l) (d_flags r)) (fun flags =>
  let spids := snd (findSpids [Some l; Some r]) in
  bind (bind (minus v1 v0) wrapped) (fun mainval =>
  checked [] mainval (
  let have := [shape_of mainval] in
  if negb (match flags with Some f => fits have (v_shape f) | None => true end) then Err else
  bind (spids_loop l r spids 0 0 (c_cx mainval) mainval mainval [] (flag_shape flags ++ have)) (fun '(main, ders, have) =>
  if match w with Some w => c_cx w || negb (fits have (shape_of w)) | None => false end then Err else
  Ok {| q_data := {| d_value := Some main; d_flags := flags; d_spids := spids;
                     d_psets := [{| ps_pert := map snd ders; ps_val := map fst ders |}] |};
        q_weights := w |})))).

(** lines 139-158: the VellSet of a child for plane [iplane]; a fail has no value *)
Definition plane (iplane : nat) (c : result) : res (option vdata) :=
  match nth_error (r_vs c) (if Nat.ltb 0 (tensorRank c) then iplane else 0) with
  | None => UB
  | Some (VFail _) => Ok None
  | Some (VData d) => Ok (match d_value d with Some _ => Some d | None => None end)
  end.
(** lines 127-233 *)
Definition do_plane (l r : result) (w : option result) (iplane : nat) : res (option cdata) :=
  bind (plane iplane l) (fun dl => match dl with
  | None => Ok None
  | Some dl =>
      bind (plane iplane r) (fun dr => match dr with
      | None => Ok None
      | Some dr =>
          bind (match w with Some w => plane iplane w | None => Ok None end) (fun dw =>
          match d_value dl, d_value dr with
          | Some v0, Some v1 =>
              bind (equation dl dr v0 v1 (match dw with Some d => d_value d | None => None end)) (fun q => Ok (Some q))
          | _, _ => UB
          end)
      end)
  end).
Fixpoint do_planes (l r : result) (w : option result) (planes : list nat) : res (list (option cdata)) :=
  match planes with
  | [] => Ok []
  | p :: planes => bind (do_plane l r w p) (fun x => bind (do_planes l r w planes) (fun xs => Ok (x :: xs)))
  end.
(** lines 95-122: the dimensions; [None]: a child is missing.  [w] is the third child, if there is one and it has
    returned something *)
Definition merge1 (out : list nat) (c : result) : res (list nat) :=
  match r_vs c with
  | [] => Err
  | _ => match r_dims c with
         | [] => Ok out
         | _ => match out with
                | [] => Ok (r_dims c)
                | _ => if dims_equal out (r_dims c) then Ok out else Err
                end
         end
  end.
Definition cond_dims (l r : result) (w : option result) : res (list nat) :=
  match r_vs l with
  | [] => Err
  | _ => bind (merge1 (r_dims l) r) (fun out => match w with Some w => merge1 out w | None => Ok out end)
  end.
(** getResult, lines 98-237.  The first child must have returned a result (Err stands for the exception of
    dereferencing it); without the second the code is RES_MISSING and there is no result *)
Definition getResult (l r w : option result) : res (option (list nat * list (option cdata)) * Z) :=
  match l with
  | None => Err
  | Some l =>
      match r_vs l with
      | [] => Err
      | _ => match r with
             | None => Ok (None, RES_MISSING)
             | Some r =>
                 bind (cond_dims l r w) (fun dims =>
                 bind (do_planes l r w (seq 0 (num_planes dims))) (fun planes => Ok (Some (kept_dims dims, planes), 0%Z)))
             end
      end
  end.
End Condeq.
Arguments cdata : clear implicits.
