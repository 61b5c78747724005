(** Tiled parameters: Parm::GetTiledDomains, checkTiledFunklet and initTiledFunklet (MeqNodes/src/Parm.cc:251-365) and
    Meq::ComposedPolc (MEQ/src/ComposedPolc.h, ComposedPolc.cc), a list of funklets that are valid in parts of a domain.

    The funklets are the polynomials of Polc_Model, with exact rationals for doubles.  A Cells is what is read of it.
    std::sort is a stable insertion sort, which is what it comes to if compareDomain orders the funklets strictly.
    Left out: the constraints and force_positive arguments of do_update, splines, changeSolveDomain and setCoeffShape
    (which go through the list), record fields that mirror members, mutexes, database ids, weights. *)
From Coq Require Import QArith Qcanon.
From Verif Require Import Base Polc_Model.
Close Scope Q_scope. Close Scope Qc_scope. Local Open Scope nat_scope.

Definition MaxAxis : nat := 8.
(** Domain: one entry per axis, [None] if not defined; start and end of an undefined axis are 0 (Domain.cc:41) *)
Notation tdom := (list (option (Qc * Qc))) (only parsing).
Definition undefined : tdom := repeat None MaxAxis.
Definition lower (d : tdom) (a : nat) : Qc := match nth a d None with Some r => fst r | None => q0 end.
Definition upper (d : tdom) (a : nat) : Qc := match nth a d None with Some r => snd r | None => q0 end.
Definition is_defined (d : tdom) (a : nat) : bool := match nth a d None with Some _ => true | None => false end.
Definition to_dom (d : tdom) : dom := {| d_start := lower d; d_stop := upper d |}.
(** Domain.cc:63-86 *)
Definition defineAxis (d : tdom) (a : nat) (x y : Qc) : tdom :=
  set_nth d a (Some (if qeqb x y then (Qcminus x (Q2Qc (1 # 1000000)), y) else if qltb y x then (y, x) else (x, y))).
(** std::min(a,b) is b < a ? b : a; std::max(a,b) is a < b ? b : a *)
Definition qmin (x y : Qc) : Qc := if qltb y x then y else x.
Definition qmax (x y : Qc) : Qc := if qltb x y then y else x.
(** Domain.cc:219-242 *)
Definition expand_axis (other d : tdom) (a : nat) : tdom :=
  if is_defined other a then
    if is_defined d a then
      let x := qmin (lower d a) (lower other a) in
      let y := qmax (upper d a) (upper other a) in
      if negb (qeqb x (lower d a)) || negb (qeqb y (upper d a)) then defineAxis d a x y else d
    else defineAxis d a (lower other a) (upper other a)
  else d.
Definition expandToEnvelope (d other : tdom) : tdom := fold_left (expand_axis other) (seq 0 MaxAxis) d.

(** Cells: rank, centers and sizes of the cells per axis (none for an axis that is not defined), domain *)
Record tcells := { k_rank : nat; k_center : nat -> list Qc; k_size : nat -> list Qc; k_dom : tdom }.
Definition ncells (c : tcells) (a : nat) : nat := length (k_center c a).
(** Cells.h:136-147 *)
Definition half (x : Qc) : Qc := Qcdiv x (Q2Qc 2).
Definition cellStart (c : tcells) (a k : nat) : Qc := Qcminus (nth k (k_center c a) q0) (half (nth k (k_size c a) q0)).
Definition cellEnd (c : tcells) (a k : nat) : Qc := Qcplus (nth k (k_center c a) q0) (half (nth k (k_size c a) q0)).
(** as seen by Polc *)
Definition to_cells (c : tcells) : cells :=
  {| c_rank := k_rank c; c_center := fun a => match k_center c a with [] => None | g => Some g end;
     c_start := lower (k_dom c); c_stop := upper (k_dom c) |}.

(** ** Parm::GetTiledDomains, Parm.cc:251-285; [tiling] is tiling_, 0 (or nothing) where not positive *)
Definition split_axis (c : tcells) (tiling : list nat) (ds : list tdom) (a : nat) : list tdom :=
  let t := nth a tiling 0 in
  if Nat.eqb t 0 then ds else
  let n := ncells c a in
  if Nat.eqb n 0 then ds else
  let tiles := (n + t - 1) / t in
  flat_map (fun d => map (fun i => defineAxis d a (cellStart c a (i * t)) (cellEnd c a (Nat.min (n - 1) ((i + 1) * t - 1)))) (seq 0 tiles)) ds.
Definition GetTiledDomains (d : tdom) (c : tcells) (tiling : list nat) : list tdom := fold_left (split_axis c tiling) (seq 0 MaxAxis) [d].

(** ** ComposedPolc *)
(** a funklet in the list, with its domain *)
Record tile := { t_dom : tdom; t_funk : funklet }.
(** [p_base]: what the ComposedPolc is itself, a Polc; [p_has]: axisHasShape_ (nonzero) *)
Record composed := { p_base : funklet; p_tiles : list tile; p_has : list bool; p_default : Qc }.

(** compareDomain, ComposedPolc.h:129-151, for different funklets *)
Definition apart (x y : Qc) : bool :=
  qltb (Q2Qc (1 # 10000000000000000)) (if qltb x y then Qcminus y x else Qcminus x y).
Fixpoint first_apart (f : tdom -> nat -> Qc) (x y : tdom) (axes : list nat) : option bool :=
  match axes with
  | [] => None
  | a :: axes => if is_defined x a && is_defined y a && apart (f x a) (f y a) then Some (qltb (f x a) (f y a)) else first_apart f x y axes
  end.
Definition compareDomain (x y : tile) : bool :=
  match first_apart lower (t_dom x) (t_dom y) (seq 0 MaxAxis) with
  | Some b => b
  | None => match first_apart upper (t_dom x) (t_dom y) (seq 0 MaxAxis) with
            | Some b => b
            | None => Nat.ltb (ncoeff (t_funk x)) (ncoeff (t_funk y))
            end
  end.
Fixpoint insert (x : tile) (l : list tile) : list tile :=
  match l with [] => [x] | y :: l => if compareDomain y x then y :: insert x l else x :: y :: l end.
Definition sort (l : list tile) : list tile := fold_right insert [] l.

(** initFunklets, ComposedPolc.cc:130-173 *)
Definition mark_axes (env : tdom) (t : tile) (has : list bool) : list bool :=
  map (fun '(a, h) => h || Nat.ltb 1 (nth a (f_shape (t_funk t)) 0) ||
                      (is_defined env a && (negb (qeqb (lower env a) (lower (t_dom t) a)) || negb (qeqb (upper env a) (upper (t_dom t) a)))))
      (combine (seq 0 (length has)) has).
Definition initFunklets (l : list tile) : list tile * list bool * tdom :=
  let l := sort l in
  let '(env, has) := fold_left (fun '(env, has) t => (expandToEnvelope env (t_dom t), mark_axes env t has)) l (undefined, repeat false MaxAxis) in
  (l, has, env).
(** the constructor, lines 36-44; the ComposedPolc starts as a copy of the first funklet it is given.  The empty vector is undefined *)
Definition compose (l : list tile) (default : Qc) : res composed :=
  match l with
  | [] => UB
  | t :: _ => let '(tiles, has, env) := initFunklets l in
              Ok {| p_base := with_dom (t_funk t) (to_dom env); p_tiles := tiles; p_has := has; p_default := default |}
  end.

(** *** do_evaluate, lines 176-410 *)
(** lines 273-276 and 277-279 *)
Fixpoint up (l : list Qc) (lo : Qc) : nat := match l with [] => 0 | x :: l => if qltb x lo then S (up l lo) else 0 end.
Fixpoint down (g : list Qc) (hi : Qc) (k : nat) : nat :=
  match k with 0 => 0 | S k' => if qltb hi (nth k g q0) then down g hi k' else k end.
(** lines 264-282: the cells of a funklet along axis [a]; the flag says whether an empty range ends the loop over axes *)
Definition axis_range (c : tcells) (shape : list Z) (d : tdom) (a : nat) : bool * (Z * Z) :=
  if negb (is_defined (k_dom c) a) then (false, (0, 0)%Z) else
  let m := Z.min (nth a shape 1%Z) (Z.of_nat (ncells c a)) in
  if negb (is_defined d a) then (false, (0, m - 1)%Z) else
  let s := Z.of_nat (up (firstn (Z.to_nat m) (k_center c a)) (lower d a)) in
  let e := if (m <=? 0)%Z then (m - 1)%Z else Z.of_nat (down (k_center c a) (upper d a) (Z.to_nat (m - 1))) in
  ((e <? s)%Z, (s, e)).
(** starti and endi keep what an earlier funklet left when the loop ends early *)
Fixpoint ranges (c : tcells) (shape : list Z) (d : tdom) (a : nat) (old : list (Z * Z)) : list (Z * Z) :=
  match old with
  | [] => []
  | _ :: old => let '(stop, r) := axis_range c shape d a in r :: (if stop then old else ranges c shape d (S a) old)
  end.
Definition span (r : Z * Z) : list Z := map (fun i => (fst r + Z.of_nat i)%Z) (seq 0 (Z.to_nat (snd r - fst r + 1))).
(** fill_const_value, lines 413-441: the elements in the order they are set, [acc] the index so far *)
Fixpoint elements (acc : Z) (shape : list Z) (rs : list (Z * Z)) : list Z :=
  match shape, rs with
  | n :: shape, r :: rs => flat_map (fun v => elements (acc * n + v) shape rs) (span r)
  | _, _ => [acc]
  end.
Definition write (l : list Qc) (i : Z) (x : Qc) : res (list Qc) :=
  if (i <? 0)%Z then UB else if (Z.of_nat (length l) <=? i)%Z then Err else Ok (set_nth l (Z.to_nat i) x).
Fixpoint fill (l : list Qc) (is : list Z) (x : Qc) : res (list Qc) :=
  match is with [] => Ok l | i :: is => bind (write l i x) (fun l => fill l is x) end.
(** lines 358-375: pairs of elements, of the result and of the part; nothing is checked *)
Definition places (shape : list Z) (rx ry : Z * Z) (maxnx maxny : nat) : list (Z * nat) :=
  flat_map (fun '(i, x) => map (fun '(j, y) => ((y + x * nth 1 shape 1)%Z, Nat.min j (maxny - 1) + Nat.min i (maxnx - 1) * maxny))
    (combine (seq 0 (length (span ry))) (span ry))) (combine (seq 0 (length (span rx))) (span rx)).
Fixpoint copy (l : list Qc) (ps : list (Z * nat)) (part : list Qc) : res (list Qc) :=
  match ps with
  | [] => Ok l
  | (i, j) :: ps =>
      match nth_error part j with
      | None => UB
      | Some x => if (i <? 0)%Z || (Z.of_nat (length l) <=? i)%Z then UB else copy (set_nth l (Z.to_nat i) x) ps part
      end
  end.
(** the values so far: main value, and perturbed values by set and spid; starti and endi *)
Record state := { s_main : list Qc; s_pert : list (list (list Qc)); s_ranges : list (Z * Z) }.
Fixpoint each {A B} (f : nat -> A -> res B) (i : nat) (l : list A) : res (list B) :=
  match l with [] => Ok [] | x :: l => bind (f i x) (fun y => bind (each f (S i) l) (fun l => Ok (y :: l))) end.
(** lines 348-355: only the first spid *)
Definition fill_all (s : state) (rs : list (Z * Z)) (shape : list Z) (main : Qc) (pert : nat -> Qc) : res state :=
  let is := elements 0 shape rs in
  bind (fill (s_main s) is main) (fun m =>
  bind (each (fun ip set => match set with [] => UB | v :: set => bind (fill v is (pert ip)) (fun v => Ok (v :: set)) end) 0 (s_pert s)) (fun p =>
  Ok {| s_main := m; s_pert := p; s_ranges := rs |})).
Definition find_pert (v : values) (ip isp : nat) : option vells :=
  option_map snd (List.find (fun x => Nat.eqb (fst (fst x)) ip && Nat.eqb (snd (fst x)) isp) (o_pert v)).
(** lines 241-408: one funklet *)
Definition add_tile (axf : axisfun) (c : tcells) (shape : list Z) (mp : nat) (s : state) (t : tile) : res state :=
  let f := t_funk t in
  let rs := ranges c shape (t_dom t) 0 (s_ranges s) in
  if isConstant f then
    match f_coeff f with
    | [] => UB
    | x :: _ => fill_all s rs shape x (fun ip => Qcplus x (signed ip (f_pert f)))
    end
  else
    bind (evaluate axf f (to_cells c) mp) (fun ev =>
    match o_main (e_values ev) with
    | None => Ok {| s_main := s_main s; s_pert := s_pert s; s_ranges := rs |}
    | Some v =>
        if Nat.eqb (length (v_data v)) 1 then
          let x := nth 0 (v_data v) q0 in
          if match e_spids ev with [] => qeqb x q0 | _ => false end then Ok {| s_main := s_main s; s_pert := s_pert s; s_ranges := rs |} else
          (* getPerturbedValue(0,ipert) *)
          if negb (forallb (fun ip => match find_pert (e_values ev) ip 0 with Some _ => true | None => false end) (seq 0 mp)) then UB else
          fill_all s rs shape x (fun ip => match find_pert (e_values ev) ip 0 with Some p => nth 0 (v_data p) q0 | None => q0 end)
        else
          match v_shape v, rs with
          | nx :: ny :: _, rx :: ry :: _ =>
              let ps := places shape rx ry (Z.to_nat nx) (Z.to_nat ny) in
              bind (copy (s_main s) ps (v_data v)) (fun m =>
              bind (each (fun ip set => each (fun isp l => match find_pert (e_values ev) ip isp with None => UB | Some p => copy l ps (v_data p) end) 0 set) 0 (s_pert s)) (fun p =>
              Ok {| s_main := m; s_pert := p; s_ranges := rs |}))
          | _, _ => UB
          end
    end).
Fixpoint add_tiles (axf : axisfun) (c : tcells) (shape : list Z) (mp : nat) (s : state) (l : list tile) : res state :=
  match l with [] => Ok s | t :: l => bind (add_tile axf c shape mp s t) (fun s => add_tiles axf c shape mp s l) end.
(** lines 207-217, and 219-239 *)
Definition res_shape (c : tcells) (has : list bool) : list Z :=
  map (fun a => if nth a has false then Z.of_nat (ncells c a) else 1%Z) (seq 0 (k_rank c)).
Definition do_compose (axf : axisfun) (p : composed) (c : tcells) (mp : nat) : res (vells * list (list vells)) :=
  let shape := res_shape c (p_has p) in
  let blank := repeat (p_default p) (size shape) in
  bind (add_tiles axf c shape mp {| s_main := blank; s_pert := repeat (repeat blank (length (f_spids (p_base p)))) mp; s_ranges := repeat (-1, -1)%Z (k_rank c) |} (p_tiles p)) (fun s =>
  let v d := {| v_shape := shape; v_data := d |} in
  Ok (v (s_main s), map (map v) (s_pert s))).
(** Funklet::evaluate, Funklet.cc:438-463: spids, perturbations by set, main value, perturbed values by set and spid *)
Record tiled_values := { w_spids : list Z; w_perts : list (list Qc); w_main : vells; w_pert : list (list vells) }.
Definition evaluate_composed (axf : axisfun) (p : composed) (c : tcells) (mp : nat) : res tiled_values :=
  let mp := match f_spids (p_base p) with [] => 0 | _ => mp end in
  if Nat.ltb 2 mp then Err else
  bind (do_compose axf p c mp) (fun '(m, ps) =>
  Ok {| w_spids := if Nat.eqb mp 0 then [] else f_spids (p_base p); w_perts := map (fun ip => map (signed ip) (f_spid_perts (p_base p))) (seq 0 mp); w_main := m; w_pert := ps |}).

(** *** makeSolvable, ComposedPolc.h:75-83; clearSolvable is that of Funklet *)
Definition with_funk (t : tile) (f : funklet) : tile := {| t_dom := t_dom t; t_funk := f |}.
Definition make_solvable (p : composed) (spid : Z) : res composed :=
  bind (makeSolvable (p_base p) spid) (fun b =>
  bind (each (fun _ t => bind (makeSolvable (t_funk t) spid) (fun f => Ok (with_funk t f))) 0 (p_tiles p)) (fun l =>
  Ok {| p_base := b; p_tiles := l; p_has := p_has p; p_default := p_default p |})).
Definition clear_solvable (p : composed) : composed :=
  {| p_base := clearSolvable (p_base p); p_tiles := p_tiles p; p_has := p_has p; p_default := p_default p |}.
(** *** do_update, lines 449-474: [n] funklets, this one is number [k] *)
Fixpoint add_part (cs : list Qc) (inx : list (option nat)) (vals : list Qc) (n k : nat) : res (list Qc) :=
  match inx, cs with
  | [], _ => Ok cs
  | Some s :: inx, x :: cs =>
      match nth_error vals (s * n + k) with
      | None => UB
      | Some v => bind (add_part cs inx vals n k) (fun r => Ok (Qcplus x v :: r))
      end
  | None :: inx, x :: cs => bind (add_part cs inx vals n k) (fun r => Ok (x :: r))
  | _, [] => UB
  end.
Definition update_composed (p : composed) (vals : list Qc) : res composed :=
  bind (each (fun k t => bind (add_part (f_coeff (t_funk t)) (f_inx (p_base p)) vals (length (p_tiles p)) k) (fun cs =>
                Ok (with_funk t (with_coeff (t_funk t) (f_shape (t_funk t)) cs)))) 0 (p_tiles p)) (fun l =>
  Ok {| p_base := p_base p; p_tiles := l; p_has := p_has p; p_default := p_default p |}).
(** *** the copy constructor, lines 47-53 *)
Definition copied (p : composed) : composed :=
  {| p_base := p_base p; p_tiles := p_tiles p; p_has := p_has p; p_default := q0 |}.

(** ** Parm: what the node holds, a single funklet or a ComposedPolc *)
Inductive held := Single (f : funklet) | Tiled (p : composed).
(** checkTiledFunklet, Parm.cc:287-330: true and the funklet as it is, or false and the funklet to start from *)
Definition close (x y : Qc) : bool := negb (apart x y).
Definition same_range (d e : tdom) : bool :=
  forallb (fun a => close (lower d a) (lower e a) && close (upper d a) (upper e a)) (seq 0 MaxAxis).
Definition checkTiledFunklet (h : held) (ds : list tdom) : res (bool * held) :=
  match h with
  | Single _ => Ok (false, h)
  | Tiled p =>
      match p_tiles p with
      | [] => Err
      | t0 :: _ =>
          if Nat.eqb (length ds) (length (p_tiles p)) &&
             forallb (fun '(d, t) => same_range d (t_dom t) && Nat.eqb (ncoeff (t_funk t)) (ncoeff (t_funk t0))) (combine ds (p_tiles p))
          then Ok (true, h) else Ok (false, Single (t_funk t0))
      end
  end.
(** initTiledFunklet, Parm.cc:332-365; [default] is the Parm's default value *)
Definition initTiledFunklet (h : held) (d : tdom) (c : tcells) (tiling : list nat) (default : Qc) : res held :=
  let ds := GetTiledDomains d c tiling in
  if Nat.leb (length ds) 1 then Ok h else
  bind (checkTiledFunklet h ds) (fun '(ok, h) =>
  if ok then Ok h else
  match h with
  | Single f => bind (compose (map (fun d => {| t_dom := d; t_funk := with_dom f (to_dom d) |}) ds) default) (fun p => Ok (Tiled p))
  | Tiled _ => Err
  end).
