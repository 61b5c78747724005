(** MeqNodes/src/ModRes.cc: a node that asks its child with cells of another resolution.
    Doubles are exact rationals here.  An axis is the list of its cells, each with centre and size (Cells::center and
    Cells::cellSize); an axis that is not defined has no cells.  Axis numbers 0 and 1 are those of TIME and FREQ
    (lines 265-266; see Axm_Model for when they are). *)
From Coq Require Import QArith Qcanon.
From Verif Require Import Base Rqid_Model.
Close Scope Q_scope. Close Scope Qc_scope. Local Open Scope nat_scope.

Notation axis := (list (Qc * Qc)).
Definition half : Qc := Q2Qc (1 # 2).
Definition number (n : nat) : Qc := Q2Qc (inject_Z (Z.of_nat n)).
Definition nocell : Qc * Qc := (0%Qc, 0%Qc).
Definition low (c : Qc * Qc) : Qc := (fst c - snd c * half)%Qc.
Definition high (c : Qc * Qc) : Qc := (fst c + snd c * half)%Qc.

(** lines 140-157 and 202-219: each cell becomes [k] cells *)
Fixpoint steps (n : nat) (x x1 : Qc) : axis := match n with O => [] | S n => (x, x1) :: steps n (x + x1)%Qc x1 end.
Definition upsample (k : nat) (ax : axis) : axis :=
  flat_map (fun c => let x1 := (snd c / number k)%Qc in steps k (low c + x1 * half)%Qc x1) ax.
(** lines 162-189 and 224-248: [d] cells become one, the last one has the rest *)
Definition joined (a b : Qc * Qc) : Qc * Qc := (((low a + high b) * half)%Qc, (high b - low a)%Qc).
Definition groups (d : nat) (ax : axis) : nat := (length ax + d - 1) / d.
Definition downsample (d : nat) (ax : axis) : axis :=
  map (fun i => joined (nth (i * d) ax nocell) (nth (if Nat.eqb (S i) (groups d ax) then length ax - 1 else (i + 1) * d - 1) ax nocell)) (seq 0 (groups d ax)).
(** Cells.cc:278-290, with no size given: [n] cells between two ends *)
Definition uniform (x0 x1 : Qc) (n : nat) : axis :=
  let step := ((x1 - x0) / number n)%Qc in map (fun i => ((x0 + step * half + step * number i)%Qc, step)) (seq 0 n).

(** The state of the node.  [None] is a variable that has not been set. *)
Record mstate := { m_resample : bool; m_up : bool; m_down : bool; m_nx : option Z; m_ny : option Z; m_upv : list Z; m_downv : list Z; m_index : Z }.
Definition created : mstate := {| m_resample := false; m_up := false; m_down := false; m_nx := None; m_ny := None; m_upv := []; m_downv := []; m_index := 0%Z |}.
(** setStateImpl, lines 58-104: the fields num_cells, upsample, downsample, resolution_id of the record, if they are there *)
Definition set_num (v : option (list Z)) (s : mstate) : mstate :=
  match v with
  | None | Some [] => s
  | Some (a :: l) => {| m_resample := true; m_up := m_up s; m_down := m_down s; m_nx := Some a; m_ny := match l with b :: _ => Some b | [] => m_ny s end;
                        m_upv := m_upv s; m_downv := m_downv s; m_index := m_index s |}
  end.
Definition set_up (v : option (list Z)) (s : mstate) : mstate :=
  match v with
  | None => s
  | Some l => let two := Nat.eqb (length l) 2 in
              {| m_resample := two || m_resample s; m_up := two || m_up s; m_down := m_down s; m_nx := m_nx s; m_ny := m_ny s;
                 m_upv := l; m_downv := m_downv s; m_index := m_index s |}
  end.
Definition set_down (v : option (list Z)) (s : mstate) : mstate :=
  match v with
  | None => s
  | Some l => let two := Nat.eqb (length l) 2 in
              {| m_resample := two || m_resample s; m_up := m_up s; m_down := two || m_down s; m_nx := m_nx s; m_ny := m_ny s;
                 m_upv := m_upv s; m_downv := l; m_index := m_index s |}
  end.
Definition set_index (v : option Z) (s : mstate) : mstate :=
  match v with
  | None => s
  | Some i => {| m_resample := m_resample s; m_up := m_up s; m_down := m_down s; m_nx := m_nx s; m_ny := m_ny s; m_upv := m_upv s; m_downv := m_downv s; m_index := i |}
  end.
Definition set_state (num up down : option (list Z)) (index : option Z) (s : mstate) : mstate := set_index index (set_down down (set_up up (set_num num s))).

(** the vector element, undefined past the end *)
Definition elem (l : list Z) (i : nat) : res Z := match nth_error l i with Some z => Ok z | None => UB end.
Fixpoint replace (l : list Z) (i : nat) (z : Z) : list Z :=
  match l, i with [], _ => [] | _ :: l, O => z :: l | x :: l, S i => x :: replace l i z end.
(** lines 140-201 (axis 0) and 202-260 (axis 1); the factor for downsampling is cut down to the number of cells for good (lines 171-174, 229-232).
    Without any cells the division of line 175 (234) is 0/0. *)
Definition change_axis (s : mstate) (i : nat) (ax : axis) (downv : list Z) : res (axis * list Z) :=
  bind (if m_up s then elem (m_upv s) i else Ok 0%Z) (fun k =>
  if (1 <? k)%Z then Ok (upsample (Z.to_nat k) ax, downv) else
  bind (if m_down s then elem downv i else Ok 0%Z) (fun d =>
  if (1 <? d)%Z then
    let d' := Z.min d (Z.of_nat (length ax)) in
    if (d' =? 0)%Z then UB else Ok (downsample (Z.to_nat d') ax, replace downv i d')
  else Ok (ax, downv))).

(** Cells: the domain (start and end per axis, if defined) and the axes *)
Record mcells := { k_dom : list (option (Qc * Qc)); k_axes : list axis }.
Definition axis_at (c : mcells) (i : nat) : axis := nth i (k_axes c) [].
(** pollChildren, lines 106-285, and Cells.cc:56-66: the state afterwards, and the cells and id of the request the child gets *)
Definition new_id (s : mstate) (mask : Z) (id : list Z) : option (list Z) :=
  if (m_index s =? 0)%Z then incrSubId 31 id mask else setSubId 31 id mask (m_index s).
Definition with_down (s : mstate) (l : list Z) : mstate :=
  {| m_resample := m_resample s; m_up := m_up s; m_down := m_down s; m_nx := m_nx s; m_ny := m_ny s; m_upv := m_upv s; m_downv := l; m_index := m_index s |}.
Definition new_cells (s : mstate) (c : mcells) : res (mstate * mcells) :=
  if negb (m_up s || m_down s) then
    match m_nx s, m_ny s with
    | Some nx, Some ny =>
        let size n i := if (n <? 1)%Z then length (axis_at c i) else Z.to_nat n in
        match nth 0 (k_dom c) None, nth 1 (k_dom c) None with
        | Some (x0, x1), Some (y0, y1) => Ok (s, {| k_dom := k_dom c; k_axes := [uniform x0 x1 (size nx 0); uniform y0 y1 (size ny 1)] |})
        | _, _ => Err
        end
    | _, _ => UB
    end
  else
    bind (change_axis s 0 (axis_at c 0) (m_downv s)) (fun '(xax, downv) =>
    bind (change_axis s 1 (axis_at c 1) downv) (fun '(yax, downv) =>
    Ok (with_down s downv, {| k_dom := k_dom c; k_axes := [xax; yax] |}))).
Definition ask_child (s : mstate) (mask : Z) (cells : option mcells) (id : list Z) : res (mstate * option mcells * list Z) :=
  match cells with
  | Some c =>
      if m_resample s then
        bind (new_cells s c) (fun '(s, c) =>
        match new_id s mask id with Some id => Ok (s, Some c, id) | None => UB end)
      else Ok (s, Some c, id)
  | None => Ok (s, None, id)
  end.
(** getResult, lines 287-294: the Result of the child *)
