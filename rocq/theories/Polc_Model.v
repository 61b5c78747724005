(** Meq::Funklet and Meq::Polc (MEQ/src/Funklet.h, Funklet.cc, Polc.h, Polc.cc): polynomials in one
    or two axes, their perturbed values, making them solvable, updating and rescaling them.

    Numbers are exact rationals instead of doubles; noverm (Funklet.h:65-72, through logarithms) is the
    exact binomial coefficient.  A Cells is what Polc reads of it.  Left out: the record fields that
    mirror the members, the debug level assertions, mutexes, database ids, weights. *)
From Coq Require Import QArith Qcanon.
From Verif Require Import Base.
Close Scope Q_scope.
Close Scope Qc_scope.
Local Open Scope nat_scope.

Notation q0 := (Q2Qc 0).
Notation q1 := (Q2Qc 1).
Definition qltb (x y : Qc) : bool := match Qccompare x y with Lt => true | _ => false end.
Definition qeqb (x y : Qc) : bool := match Qccompare x y with Eq => true | _ => false end.

(** Cells: rank, center(i) of the defined axes, domain().start(i) and end(i) *)
Record cells := { c_rank : nat; c_center : nat -> option (list Qc); c_start : nat -> Qc; c_stop : nat -> Qc }.
(** Domain: undefined axes have the range (0,0), Domain.cc:41 *)
Record dom := { d_start : nat -> Qc; d_stop : nat -> Qc }.
Definition default_domain : dom := {| d_start := fun _ => q0; d_stop := fun _ => q0 |}.

(** Funklet.h:416-440; [f_shape] and [f_coeff] are the coefficient array *)
Record funklet := {
  f_axes : list nat; f_off : list Qc; f_scl : list Qc;
  f_dom : option dom;
  f_shape : list nat; f_coeff : list Qc;
  f_pert : Qc; f_mask : option (list bool);               (* pertValue_, the field FCoeffMask *)
  f_spids : list Z; f_inx : list (option nat);            (* spids_, spidInx_ ([None] is -1) *)
  f_perts : list Qc; f_spid_perts : list Qc }.            (* parm_perts_, spid_perts_ *)

(** Funklet.h:113-114 *)
Definition domain (f : funklet) : dom := match f_dom f with Some d => d | None => default_domain end.
(** Funklet.h:295-296, 184-185; Polc.h:99-100 *)
Definition ncoeff (f : funklet) : nat := length (f_coeff f).
Definition isConstant (f : funklet) : bool := Nat.leb (ncoeff f) 1.

(** ** Evaluation, Polc.cc:160-380 *)
(** lines 189-190; a read at the end of the array comes before the test of the index *)
Fixpoint first_in (g : list Qc) (lo : Qc) : res nat :=
  match g with
  | [] => UB
  | x :: g => if qltb x lo then bind (first_in g lo) (fun k => Ok (S k)) else Ok 0%nat
  end.
(** lines 192-193, over the reversed grid; [k] counts the elements left *)
Fixpoint last_in (g : list Qc) (hi : Qc) : res nat :=
  match g with
  | [] => UB
  | [x] => Ok 0%nat
  | x :: g' => if qltb hi x then last_in g' hi else Ok (length g')
  end.
(** lines 186-214: the part of the grid within the domain; [None] when nothing is left (196).  The
    ranges compared are those of axis number [i], [i] being the index of the polynomial's axis. *)
Definition clip (f : funklet) (c : cells) (i : nat) (g : list Qc) : res (option (list Qc)) :=
  let d := domain f in
  if qltb (c_start c i) (d_start d i) || qltb (d_stop d i) (c_stop c i) then
    bind (first_in g (d_start d i)) (fun a =>
    bind (last_in (rev g) (d_stop d i)) (fun b =>
    if Nat.ltb b a then Ok None else Ok (Some (firstn (b - a + 1) (skipn a g)))))
  else Ok (Some g).
(** axis_function, line 216: the identity for Polc, redefined in PolcLog *)
Definition axisfun := nat -> Qc -> Qc.
(** lines 219-224 *)
Definition normalise (f : funklet) (i : nat) (x : Qc) : Qc :=
  let s := nth i (f_scl f) q0 in
  Qcmult (Qcminus x (nth i (f_off f) q0)) (if qeqb s q0 then q1 else Qcdiv q1 s).
Fixpoint set_nth {A} (l : list A) (i : nat) (x : A) : list A :=
  match l, i with [], _ => [] | _ :: l, O => x :: l | y :: l, S i => y :: set_nth l i x end.
(** lines 178-229 for the axes [i], [i+1], ...: the grids (empty for an axis with one coefficient) and
    res_shape; [None]: return without a value *)
Fixpoint grids (axf : axisfun) (f : funklet) (c : cells) (i : nat) (cshape : list nat) (shape : list Z)
  : res (option (list (list Qc) * list Z)) :=
  match cshape with
  | [] => Ok (Some ([], shape))
  | n :: cshape =>
      if Nat.ltb 1 n then
        match nth_error (f_axes f) i with
        | None => UB
        | Some iaxis =>
            match c_center c iaxis with
            | None => Err
            | Some g =>
                bind (clip f c i g) (fun r =>
                match r with
                | None => Ok None
                | Some g =>
                    if Nat.leb (length (f_off f)) i || Nat.leb (length (f_scl f)) i || Nat.leb (c_rank c) iaxis then UB else
                    let g := map (normalise f i) (map (axf iaxis) g) in
                    bind (grids axf f c (S i) cshape (set_nth shape iaxis (Z.max (Z.of_nat (length g)) 1))) (fun r =>
                    Ok (option_map (fun '(gs, sh) => (g :: gs, sh)) r))
                end)
            end
        end
      else bind (grids axf f c (S i) cshape shape) (fun r => Ok (option_map (fun '(gs, sh) => ([] :: gs, sh)) r))
  end.

(** lines 277-282: [c] the coefficients, last first *)
Definition horner (cs : list Qc) (x : Qc) : Qc :=
  match rev cs with
  | [] => q0
  | last :: r => fold_left (fun t k => Qcplus (Qcmult t x) k) r last
  end.
(** powx and powy: 1, then multiplied by the value at each turn *)
Fixpoint power (x : Qc) (n : nat) : Qc := match n with O => q1 | S n => Qcmult (power x n) x end.
(** lines 335-349: the rows of the coefficient matrix *)
Fixpoint rows (n : nat) (ncy : nat) (cs : list Qc) : list (list Qc) :=
  match n with O => [] | S n => firstn ncy cs :: rows n ncy (skipn ncy cs) end.
Definition total2 (ncx ncy : nat) (cs : list Qc) (x y : Qc) : Qc :=
  snd (fold_left (fun '(powx, total) row => (Qcmult powx x, Qcplus total (Qcmult (horner row y) powx)))
        (rows ncx ncy cs) (q1, q0)).

(** A real Vells; the pointer that fills it runs over its storage.  Storage not written stays zero; a
    write past the end is undefined. *)
Record vells := { v_shape : list Z; v_data : list Qc }.
Definition size (s : list Z) : nat := Z.to_nat (fold_right Z.mul 1%Z s).
Definition store (shape : list Z) (vals : list Qc) : res vells :=
  if Nat.ltb (size shape) (length vals) then UB
  else Ok {| v_shape := shape; v_data := vals ++ repeat q0 (size shape - length vals) |}.

(** What do_evaluate puts into the VellSet: the main value and, for each parameter with a place in the
    VellSet, (set, place, perturbed value) *)
Record values := { o_main : option vells; o_pert : list (nat * nat * vells) }.
(** d, -d at successive turns of the loop over sets, lines 243, 289, 363 *)
Definition signed (ipert : nat) (d : Qc) : Qc := if Nat.even ipert then d else Qcopp d.
(** lines 259-271, 283-299 and 312-324, 350-373: [vals k ipert] are the values written for parameter
    [k] of set [ipert] *)
Fixpoint pert_store (shape : list Z) (inx : list (option nat)) (k : nat) (vals : nat -> list Qc) (ipert : nat)
  : res (list (nat * nat * vells)) :=
  match inx with
  | [] => Ok []
  | None :: inx => pert_store shape inx (S k) vals ipert
  | Some s :: inx =>
      bind (store shape (vals k)) (fun v =>
      bind (pert_store shape inx (S k) vals ipert) (fun r => Ok ((ipert, s, v) :: r)))
  end.
Fixpoint pert_sets (shape : list Z) (inx : list (option nat)) (vals : nat -> nat -> list Qc) (ip n : nat)
  : res (list (nat * nat * vells)) :=
  match n with
  | O => Ok []
  | S n => bind (pert_store shape inx 0 (vals ip) ip) (fun a => bind (pert_sets shape inx vals (S ip) n) (fun b => Ok (a ++ b)))
  end.
(** lines 230-380.  [perts] and [inx] have one entry per coefficient when perturbed values are wanted;
    reading perts past its end is undefined.  The table of powers has 10 entries (352). *)
Definition do_evaluate (axf : axisfun) (f : funklet) (c : cells) (makePerturbed : nat) : res values :=
  let shape := f_shape f in
  let cs := f_coeff f in
  let n := length cs in
  bind (grids axf f c 0 shape (repeat 1%Z (c_rank c))) (fun g =>
  match g with
  | None => Ok {| o_main := None; o_pert := [] |}
  | Some (gs, rshape) =>
      if Nat.eqb n 1 then
        let c00 := nth 0 cs q0 in
        if Nat.ltb 0 makePerturbed && Nat.eqb (length (f_perts f)) 0 then UB else
        let d := nth 0 (f_perts f) q0 in
        Ok {| o_main := Some {| v_shape := [1%Z]; v_data := [c00] |};
              o_pert := map (fun ip => (ip, 0%nat, {| v_shape := [1%Z]; v_data := [Qcplus c00 (signed ip d)] |})) (seq 0 makePerturbed) |}
      else if Nat.ltb 0 makePerturbed && (Nat.ltb (length (f_perts f)) n || Nat.ltb (length (f_inx f)) n) then UB
      else
      match shape, gs with
      | [ncx], [gx] =>
          let tot x := horner cs x in
          bind (store rshape (map tot gx)) (fun v =>
          bind (pert_sets rshape (f_inx f) (fun ip k => map (fun x => Qcplus (tot x) (signed ip (Qcmult (nth k (f_perts f) q0) (power x k)))) gx) 0 makePerturbed) (fun p =>
          Ok {| o_main := Some v; o_pert := p |}))
      | [ncx; ncy], [gx; gy] =>
          if Nat.eqb ncx 1 || Nat.eqb ncy 1 then
            let g := if Nat.ltb 1 ncx then gx else gy in
            let tot x := horner cs x in
            bind (store rshape (map tot g)) (fun v =>
            bind (pert_sets rshape (f_inx f) (fun ip k => map (fun x => Qcplus (tot x) (signed ip (Qcmult (nth k (f_perts f) q0) (power x k)))) g) 0 makePerturbed) (fun p =>
            Ok {| o_main := Some v; o_pert := p |}))
          else if Nat.ltb 0 makePerturbed && Nat.ltb 10 ncy then UB
          else
            let pts := flat_map (fun x => map (fun y => (x, y)) gy) gx in
            let tot p := total2 ncx ncy cs (fst p) (snd p) in
            bind (store rshape (map tot pts)) (fun v =>
            bind (pert_sets rshape (f_inx f) (fun ip k => map (fun p =>
                    Qcplus (tot p) (signed ip (Qcmult (Qcmult (nth k (f_perts f) q0) (power (snd p) (k mod ncy))) (power (fst p) (k / ncy))))) pts) 0 makePerturbed) (fun p =>
            Ok {| o_main := Some v; o_pert := p |}))
      | _, _ => UB
      end
  end).
(** Funklet::evaluate, Funklet.cc:438-463: the spids, the perturbations of each set, and the values *)
Record evaluated := { e_spids : list Z; e_perts : list (list Qc); e_values : values }.
Definition evaluate (axf : axisfun) (f : funklet) (c : cells) (makePerturbed : nat) : res evaluated :=
  match f_spids f with
  | [] => bind (do_evaluate axf f c 0) (fun v => Ok {| e_spids := []; e_perts := []; e_values := v |})
  | _ =>
      if Nat.ltb 2 makePerturbed then Err else
      bind (do_evaluate axf f c makePerturbed) (fun v =>
      Ok {| e_spids := if Nat.eqb makePerturbed 0 then [] else f_spids f;
            e_perts := map (fun ip => map (signed ip) (f_spid_perts f)) (seq 0 makePerturbed);
            e_values := v |})
  end.

(** ** Making a funklet solvable *)
Definition with_coeff (f : funklet) (shape : list nat) (cs : list Qc) : funklet :=
  {| f_axes := f_axes f; f_off := f_off f; f_scl := f_scl f; f_dom := f_dom f; f_shape := shape; f_coeff := cs;
     f_pert := f_pert f; f_mask := f_mask f; f_spids := f_spids f; f_inx := f_inx f; f_perts := f_perts f; f_spid_perts := f_spid_perts f |}.
Definition with_mask (f : funklet) (m : list bool) : funklet :=
  {| f_axes := f_axes f; f_off := f_off f; f_scl := f_scl f; f_dom := f_dom f; f_shape := f_shape f; f_coeff := f_coeff f;
     f_pert := f_pert f; f_mask := Some m; f_spids := f_spids f; f_inx := f_inx f; f_perts := f_perts f; f_spid_perts := f_spid_perts f |}.
Definition with_solvable (f : funklet) (spids : list Z) (inx : list (option nat)) (perts sp : list Qc) : funklet :=
  {| f_axes := f_axes f; f_off := f_off f; f_scl := f_scl f; f_dom := f_dom f; f_shape := f_shape f; f_coeff := f_coeff f;
     f_pert := f_pert f; f_mask := f_mask f; f_spids := spids; f_inx := inx; f_perts := perts; f_spid_perts := sp |}.
Definition with_axes (f : funklet) (off scl : list Qc) : funklet :=
  {| f_axes := f_axes f; f_off := off; f_scl := scl; f_dom := f_dom f; f_shape := f_shape f; f_coeff := f_coeff f;
     f_pert := f_pert f; f_mask := f_mask f; f_spids := f_spids f; f_inx := f_inx f; f_perts := f_perts f; f_spid_perts := f_spid_perts f |}.
(** lines 307-317: [isp] spids handed out so far *)
Fixpoint assign_spids (mask : list bool) (perts : list Qc) (spid : Z) (isp : nat) : list Z * list Qc * list (option nat) :=
  match mask, perts with
  | true :: mask, p :: perts =>
      let '(a, b, c) := assign_spids mask perts (spid + 1) (S isp) in (spid :: a, p :: b, Some isp :: c)
  | false :: mask, _ :: perts => let '(a, b, c) := assign_spids mask perts spid isp in (a, b, None :: c)
  | _, _ => ([], [], [])
  end.
(** Funklet::makeSolvable with a mask, Funklet.cc:291-321; calcPerturbations, Funklet.h:405-406 *)
Definition makeSolvable_mask (f : funklet) (spid : Z) (mask : list bool) : res funklet :=
  if negb (Nat.eqb (length mask) (ncoeff f)) then Err else
  let perts := repeat (f_pert f) (ncoeff f) in
  let '(spids, sp, inx) := assign_spids mask perts spid 0 in
  Ok (with_solvable f spids inx perts sp).
(** Funklet::makeSolvable, Funklet.cc:267-289 *)
Definition makeSolvable_base (f : funklet) (spid : Z) : res funklet :=
  match f_mask f with
  | Some m => makeSolvable_mask f spid m
  | None =>
      let perts := repeat (f_pert f) (ncoeff f) in
      Ok (with_solvable f (map (fun i => (spid + Z.of_nat i)%Z) (seq 0 (ncoeff f))) (map Some (seq 0 (ncoeff f))) perts perts)
  end.
(** Polc::makeSolvable, Polc.cc:488-524 *)
Definition keep_cell (nx ny k : nat) : bool := Nat.leb (k / ny + k mod ny) (Nat.max nx ny - 1).
Definition makeSolvable (f : funklet) (spid : Z) : res funklet :=
  if Nat.ltb (ncoeff f) 4 then makeSolvable_base f spid else
  match f_shape f with
  | nx :: ny :: _ =>
      match (match f_mask f with Some m => if Nat.eqb (length m) (ncoeff f) then Some m else None | None => None end) with
      | Some m => makeSolvable_mask f spid m
      | None =>
          let mask := map (keep_cell nx ny) (seq 0 (nx * ny)) in
          let cs := map (fun kx => if keep_cell nx ny (fst kx) then snd kx else q0) (combine (seq 0 (ncoeff f)) (f_coeff f)) in
          makeSolvable_mask (with_mask (with_coeff f (f_shape f) cs) mask) spid mask
      end
  | _ => makeSolvable_base f spid
  end.
(** Funklet::clearSolvable, Funklet.cc:324-330 *)
Definition clearSolvable (f : funklet) : funklet := with_solvable f [] [] [] [].
(** Funklet::getCoeffIndex, Funklet.cc:332-358; [spids_[i]] past the end is undefined *)
Fixpoint find_inx (inx : list (option nat)) (i s : nat) : option nat :=
  match inx with
  | [] => None
  | x :: inx => if match x with Some y => Nat.eqb y s | None => false end then Some i else find_inx inx (S i) s
  end.
Definition getCoeffIndex (f : funklet) (s : nat) : nat * nat :=
  let shape2 := nth 1 (f_shape f) 1%nat in
  let idx := match find_inx (skipn s (f_inx f)) s s with Some i => i | None => 0%nat end in
  (idx / shape2, idx mod shape2).

(** ** Polc::do_update, Polc.cc:383-397, without force_positive; reading values past its end is undefined *)
Fixpoint add_updates (cs : list Qc) (inx : list (option nat)) (vals : list Qc) : res (list Qc) :=
  match inx, cs with
  | [], _ => Ok cs
  | Some s :: inx, x :: cs =>
      match nth_error vals s with
      | None => UB
      | Some v => bind (add_updates cs inx vals) (fun r => Ok (Qcplus x v :: r))
      end
  | None :: inx, x :: cs => bind (add_updates cs inx vals) (fun r => Ok (x :: r))
  | _, [] => UB
  end.
Definition update (f : funklet) (vals : list Qc) : res funklet :=
  bind (add_updates (f_coeff f) (f_inx f) vals) (fun cs => Ok (with_coeff f (f_shape f) cs)).

(** ** Rescaling, Polc.cc:527-597 *)
Fixpoint binom (n m : nat) : nat :=
  match n, m with
  | _, O => 1
  | O, S _ => 0
  | S n', S m' => binom n' m' + binom n' m
  end.
Definition qn (n : nat) : Qc := Q2Qc (inject_Z (Z.of_nat n)).
Definition qsum (l : list Qc) : Qc := fold_right Qcplus q0 l.
(** lines 572-584, gathered per target (rx,ry): what each source (xi,yi) with rx<=xi, ry<=yi adds *)
Definition new_coeff (nx ny : nat) (cs : list Qc) (dx sx dy sy : Qc) (rx ry : nat) : Qc :=
  qsum (flat_map (fun xi => map (fun yi =>
    if Nat.leb rx xi && Nat.leb ry yi then
      Qcmult (Qcmult (Qcmult (Qcmult (Qcmult (qn (binom xi rx)) (qn (binom yi ry))) (power dx (xi - rx))) (power dy (yi - ry)))
             (nth (xi * ny + yi) cs q0)) (Qcmult (power sx xi) (power sy yi))
    else q0) (seq 0 ny)) (seq 0 nx)).
(** lines 547-559 for axes [i], [i+1]: new offsets and scales are set one by one; a new scale of zero
    ends the function there ([false]).  Reading an offset or scale the funklet does not have is
    undefined. *)
Fixpoint set_axes (f : funklet) (i : nat) (new : list (Qc * Qc)) : res (funklet * option (list (Qc * Qc))) :=
  match new with
  | [] => Ok (f, Some [])
  | (o, s) :: new =>
      match nth_error (f_off f) i, nth_error (f_scl f) i with
      | Some oo, Some os =>
          let os := if qeqb os q0 then q1 else os in
          if qeqb s q0 then Ok (f, None) else
          let diff := (Qcdiv (Qcminus o oo) s, Qcdiv s os) in
          bind (set_axes (with_axes f (set_nth (f_off f) i o) (set_nth (f_scl f) i s)) (S i) new) (fun '(f, r) =>
          Ok (f, option_map (cons diff) r))
      | _, _ => UB
      end
  end.
Definition transformCoeff (f : funklet) (new : list (Qc * Qc)) : res funklet :=
  let nx := nth 0 (f_shape f) 1%nat in
  let ny := nth 1 (f_shape f) 1%nat in
  bind (set_axes f 0 new) (fun '(f, r) =>
  match r with
  | None => Ok f
  | Some diffs =>
      if Nat.leb nx 1 && Nat.leb ny 1 then Ok f
      else if forallb (fun d => qeqb (fst d) q0 && qeqb (snd d) q1) diffs then Ok f
      else if forallb (fun x => qeqb x q0) (tl (f_coeff f)) then Ok f
      else
        match diffs with
        | [(dx, sx); (dy, sy)] =>
            Ok (with_coeff f (f_shape f) (map (fun k => new_coeff nx ny (f_coeff f) dx sx dy sy (k / ny) (k mod ny)) (seq 0 (nx * ny))))
        | _ => UB
        end
  end).
(** Polc::changeSolveDomain, Polc.cc:463-484, for the solve domain [s0,s1] *)
Definition solve_axis (d : dom) (s0 s1 : Qc) (i : nat) : Qc * Qc :=
  (Qcdiv (Qcminus (Qcmult s0 (d_stop d i)) (Qcmult s1 (d_start d i))) (Qcminus s0 s1),
   Qcdiv (Qcminus (d_stop d i) (d_start d i)) (Qcminus s1 s0)).
Definition changeSolveDomain (f : funklet) (s0 s1 : Qc) : res funklet :=
  match f_dom f with
  | None => Ok f
  | Some d => transformCoeff f [solve_axis d s0 s1 0; solve_axis d s0 s1 1]
  end.

(** ** Polc::setCoeffShape, Polc.cc:632-680.  The new array is zero (NumArray.cc:328). *)
(** lines 654-662: the element of the new array for the coordinates of an old one; Nnew when outside *)
Fixpoint place (shape : list nat) (is : list nat) (nnew element : nat) : nat :=
  match shape, is with
  | n :: shape, i :: is =>
      let e := element * n + i in
      place shape is nnew (if Nat.leb n i && Nat.ltb 0 i then nnew else e)
  | _, _ => element
  end.
(** coordinates of the [n]-th element of an array, lines 663-672 *)
Fixpoint coords (shape : list nat) (n : nat) : list nat :=
  match shape with
  | [] => []
  | _ :: shape => let s := fold_right Nat.mul 1%nat shape in n / s :: coords shape (n mod s)
  end.
(** lines 652-677 *)
Fixpoint place_all (shape old : list nat) (nnew : nat) (k : nat) (cs acc : list Qc) : list Qc :=
  match cs with
  | [] => acc
  | x :: cs =>
      let e := place shape (coords old k) nnew 0 in
      place_all shape old nnew (S k) cs (if Nat.ltb e nnew then set_nth acc e x else acc)
  end.
(** setRank, Funklet.cc:361-367, through setAxis, 223-246 *)
Fixpoint add_axes (f : funklet) (i n : nat) : funklet :=
  match n with
  | O => f
  | S n =>
      add_axes {| f_axes := f_axes f ++ [i];
                  f_off := if Nat.eqb (length (f_off f)) i then f_off f ++ [q0] else f_off f;
                  f_scl := if Nat.eqb (length (f_scl f)) i then f_scl f ++ [q1] else f_scl f;
                  f_dom := f_dom f; f_shape := f_shape f; f_coeff := f_coeff f; f_pert := f_pert f; f_mask := f_mask f;
                  f_spids := f_spids f; f_inx := f_inx f; f_perts := f_perts f; f_spid_perts := f_spid_perts f |} (S i) n
  end.
Definition setRank (f : funklet) (rank : nat) : funklet := add_axes f (length (f_axes f)) (rank - length (f_axes f)).
Definition setCoeffShape (f : funklet) (shape : list nat) : funklet :=
  if list_eq_dec Nat.eq_dec (f_shape f) shape then f else
  let nnew := fold_right Nat.mul 1%nat shape in
  with_coeff (setRank f (length shape)) shape
             (place_all shape (f_shape f) nnew 0 (f_coeff f) (repeat q0 nnew)).

(** ** Parm::initSolvable, MeqNodes/src/Parm.cc:185-213: setDomain, clearSolvable, then spids from
    256*nodeIndex; a zero perturbation is replaced afterwards *)
Definition with_dom (f : funklet) (d : dom) : funklet :=
  {| f_axes := f_axes f; f_off := f_off f; f_scl := f_scl f; f_dom := Some d; f_shape := f_shape f; f_coeff := f_coeff f;
     f_pert := f_pert f; f_mask := f_mask f; f_spids := f_spids f; f_inx := f_inx f; f_perts := f_perts f; f_spid_perts := f_spid_perts f |}.
Definition with_pert (f : funklet) (p : Qc) : funklet :=
  {| f_axes := f_axes f; f_off := f_off f; f_scl := f_scl f; f_dom := f_dom f; f_shape := f_shape f; f_coeff := f_coeff f;
     f_pert := p; f_mask := f_mask f; f_spids := f_spids f; f_inx := f_inx f; f_perts := f_perts f; f_spid_perts := f_spid_perts f |}.
Definition initSolvable (nodeIndex : Z) (solvable : bool) (f : funklet) (d : dom) : res funklet :=
  let f := clearSolvable (with_dom f d) in
  if solvable then
    bind (makeSolvable f (256 * nodeIndex)) (fun f =>
    Ok (if qeqb (f_pert f) q0 then with_pert f (Q2Qc (1 # 1000000)) else f))
  else Ok f.
