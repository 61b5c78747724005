(** Model of the names of axes: MEQ/src/Axis.h, MEQ/src/Axis.cc.
    The map is global; all functions that change it hold one recursive mutex, so
    a state and functions on it are enough.  The records describing the axes
    (axis_recs, Axis.cc:98-103, setAxisRecords) are left out. *)
From Verif Require Import Base.
Local Open Scope Z_scope.
Notation hiid := (list Z) (only parsing).

(** Axis.h:46 *)
Definition NAxis : nat := 8.
(** MEQ/src/AID-Meq.h:333,453,498,1033 *)
Definition AidFreq : Z := -1177.
Definition AidL : Z := -1032.
Definition AidM : Z := -1030.
Definition AidTime : Z := -1126.

Definition same (a b : hiid) : bool := if list_eq_dec Z.eq_dec a b then true else false.

(** Axis.cc:36-47: [_name_map], [_num_map], [TIME], [FREQ],
    [_default_mapping], [axis_ids].  std::map is a partial function. *)
Record axmap := { a_name : nat -> hiid; a_num : hiid -> option nat; a_time : nat; a_freq : nat;
                  a_default : bool; a_ids : nat -> hiid }.

(** AtomicID.h:282-285 *)
Definition atom_index (a : Z) : Z := if 0 <=? a then a else -1.

(** Axis.cc:55-105.  None: an exception, nothing has been changed. *)
Definition defineAxis (i : nat) (name : hiid) (s : axmap) : option axmap :=
  let name_index := match name with [] => Z.of_nat i | [a] => atom_index a | _ => -1 end in
  if 0 <=? name_index then
    if name_index =? Z.of_nat i then Some s else None
  else
    let put f j := if Nat.eqb j i then name else f j in
    Some {| a_name := put (a_name s);
            a_num := fun n => if same n name then Some i else a_num s n;
            a_time := if same name [AidFreq] then a_time s else if same name [AidTime] then i else a_time s;
            a_freq := if same name [AidFreq] then i else a_freq s;
            a_default := a_default s;
            a_ids := put (a_ids s) |}.

Definition not_default (s : axmap) : axmap :=
  {| a_name := a_name s; a_num := a_num s; a_time := a_time s; a_freq := a_freq s; a_default := false; a_ids := a_ids s |}.

(** The state when a function is left, and whether normally. *)
Definition leaves : Type := axmap * bool.

(** Axis.cc:118-122 *)
Fixpoint fill_rest (n i : nat) (s : axmap) : leaves :=
  match n with
  | O => (not_default s, true)
  | S n => match defineAxis i [Z.of_nat i] s with Some s => fill_rest n (S i) s | None => (s, false) end
  end.
(** the template, Axis.cc:107-125 (an array or std::vector of names) *)
Fixpoint setAxisMap_from (i : nat) (l : list hiid) (s : axmap) : leaves :=
  match l with
  | [] => fill_rest (NAxis - i) i s
  | n :: l => if Nat.leb NAxis i then (s, false)
              else match defineAxis i n s with Some s => setAxisMap_from (S i) l s | None => (s, false) end
  end.
Definition setAxisMap (l : list hiid) (s : axmap) : leaves := setAxisMap_from 0 l s.

(** Axis.cc:133-135 *)
Fixpoint define_all (i : nat) (l : list hiid) (s : axmap) : leaves :=
  match l with
  | [] => (not_default s, true)
  | n :: l => match defineAxis i n s with Some s => define_all (S i) l s | None => (s, false) end
  end.
(** Axis.cc:127-136 (a DMI::Vec, already known to hold HIIDs) *)
Definition setAxisMap_vec (l : list hiid) (s : axmap) : leaves :=
  if Nat.ltb NAxis (length l) then (s, false) else define_all 0 l s.

(** Axis.h:85-107; None: no such axis (-1, or an exception) *)
Definition axis (id : hiid) (s : axmap) : option Z :=
  match id with
  | [a] => if 0 <=? atom_index a then Some (atom_index a) else option_map Z.of_nat (a_num s id)
  | _ => option_map Z.of_nat (a_num s id)
  end.
(** Axis.h:80-81 *)
Definition axisId (i : nat) (s : axmap) : hiid := a_name s i.
(** Axis.cc:155-160, 169-174 *)
Definition getAxisIds (s : axmap) : list hiid := map (a_ids s) (seq 0 NAxis).

(** Axis.cc:206-216 *)
Fixpoint allocate (n i : nat) (name : hiid) (s : axmap) : leaves :=
  match n with
  | O => (s, false)
  | S n => if same (a_name s i) [Z.of_nat i]
           then match defineAxis i name s with Some s => (not_default s, true) | None => (s, false) end
           else allocate n (S i) name s
  end.
(** Axis.cc:198-217 *)
Definition addAxis (name : hiid) (s : axmap) : leaves :=
  match axis name s with
  | Some _ => (s, true)
  | None => allocate NAxis 0 name s
  end.

(** Axis.cc:220-238 *)
Definition resetDefaultMap (s : axmap) : axmap :=
  let own (i : nat) := [Z.of_nat i] in
  let s := {| a_name := own; a_num := fun _ => None; a_time := a_time s; a_freq := a_freq s; a_default := a_default s; a_ids := own |} in
  let s := fst (setAxisMap [[AidTime]; [AidFreq]; [AidL]; [AidM]] s) in
  {| a_name := a_name s; a_num := a_num s; a_time := a_time s; a_freq := a_freq s; a_default := true; a_ids := a_ids s |}.
(** Axis.cc:36-42: static initialisation; Axis.h:65-74: [_init] *)
Definition start : axmap :=
  resetDefaultMap {| a_name := fun _ => []; a_num := fun _ => None; a_time := 0; a_freq := 1; a_default := true; a_ids := fun _ => [] |}.

(** The calls that change the map. *)
Inductive call := Add (n : hiid) | SetArr (l : list hiid) | SetVec (l : list hiid) | Reset.
Definition perform (c : call) (s : axmap) : leaves :=
  match c with
  | Add n => addAxis n s
  | SetArr l => setAxisMap l s
  | SetVec l => setAxisMap_vec l s
  | Reset => (resetDefaultMap s, true)
  end.
Definition after (cs : list call) : axmap := fold_left (fun s c => fst (perform c s)) cs start.
