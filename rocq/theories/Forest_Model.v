(** Model of MEQ/src/Forest.cc: the node repository (create, remove, clear, get, valid,
    findIndex, findNode, getRef, getNodeList).  Not modelled: what nodes do, the state record,
    capacity (reserve), running out of memory, overflow of int. *)
From Coq Require Import String.
From Verif Require Import Base.
Local Open Scope Z_scope.

(** NodeFace.h:90-106, 249-250.  [n_id] tells objects apart. *)
Record node := { n_name : string; n_index : Z; n_id : nat }.
(** a valid reference in the repository, or none (Forest.h:317-329); name_map is a map with
    unique keys *)
Record forest := { f_nodes : list (option node); f_names : list (string * Z); f_num : Z; f_errors : Z }.

(** Forest.cc:61-64, 71 *)
Definition forest0 : forest := {| f_nodes := [None]; f_names := []; f_num := 0; f_errors := 0 |}.
Definition fsize (f : forest) : Z := Z.of_nat (length (f_nodes f)).
(** nodes[i] for i below the size; reading at or beyond it is undefined *)
Definition fslot (f : forest) (i : Z) : option node := nth (Z.to_nat i) (f_nodes f) None.

(** hash_map find, operator[] assignment, erase *)
Fixpoint nm_find (s : string) (m : list (string * Z)) : option Z :=
  match m with [] => None | (k, v) :: m' => if String.eqb k s then Some v else nm_find s m' end.
Fixpoint nm_erase (s : string) (m : list (string * Z)) : list (string * Z) :=
  match m with [] => [] | (k, v) :: m' => if String.eqb k s then m' else (k, v) :: nm_erase s m' end.
Definition nm_set (s : string) (v : Z) (m : list (string * Z)) : list (string * Z) := (s, v) :: nm_erase s m.

(** DynamicTypeManager::construct and dynamic_cast<NodeFace*>, Forest.cc:113-120, and whether
    (re)attachInitRecord accepts the record, 132-139 *)
Inductive outcome := Unknown | NotANode | BadRecord | Made (id : nat).
(** the fields of the init record that matter, Forest.cc:105-107; a missing class or name is
    the empty string, a missing index -1 *)
Record initrec := { i_class : string; i_name : string; i_index : Z; i_made : outcome }.

(** vector::resize *)
Definition resize (n : nat) (l : list (option node)) : list (option node) := firstn n l ++ repeat None (n - length l).
Fixpoint set_slot (n : nat) (x : option node) (l : list (option node)) : list (option node) :=
  match l, n with [], _ => [] | _ :: l', O => x :: l' | y :: l', S n' => y :: set_slot n' x l' end.

(** Forest.cc:96-162.  The forest afterwards, and the index or an exception. *)
Definition create_fails (f : forest) : forest * res Z :=
  ({| f_nodes := f_nodes f; f_names := f_names f; f_num := f_num f; f_errors := f_errors f + 1 |}, Err).
Definition create (f : forest) (r : initrec) : forest * res Z :=
  if negb (String.eqb (i_name r) "") && (if nm_find (i_name r) (f_names f) then true else false) then create_fails f
  else if String.eqb (i_class r) "" then create_fails f
  else match i_made r with
  | Unknown | NotANode => create_fails f
  | o =>
    if (0 <? i_index r) && ((i_index r <? fsize f) && (if fslot f (i_index r) then true else false)) then create_fails f
    else
      let ni := if 0 <? i_index r then i_index r else fsize f in
      match o with
      | Made id =>
        let ns := if fsize f <=? ni then resize (Z.to_nat (ni + 1)) (f_nodes f) else f_nodes f in
        ({| f_nodes := set_slot (Z.to_nat ni) (Some {| n_name := i_name r; n_index := ni; n_id := id |}) ns;
            f_names := if String.eqb (i_name r) "" then f_names f else nm_set (i_name r) ni (f_names f);
            f_num := f_num f + 1; f_errors := f_errors f |}, Ok ni)
      | _ => create_fails f
      end
  end.

(** Forest.cc:197-218 *)
Definition remove (f : forest) (i : Z) : forest * res unit :=
  if (i <=? 0) || (fsize f <? i) then (f, Err)
  else if i =? fsize f then (f, UB)
  else match fslot f i with
  | None => (f, Err)
  | Some n =>
    let ns := set_slot (Z.to_nat i) None (f_nodes f) in
    ({| f_nodes := if i =? fsize f - 1 then resize (Z.to_nat i) ns else ns;
        f_names := if String.eqb (n_name n) "" then f_names f else nm_erase (n_name n) (f_names f);
        f_num := f_num f - 1; f_errors := f_errors f |}, Ok tt)
  end.
(** Forest.cc:85-93 *)
Definition clear (f : forest) : forest := {| f_nodes := resize 1 (f_nodes f); f_names := []; f_num := 0; f_errors := 0 |}.

(** Forest.cc:221-228 *)
Definition get (f : forest) (i : Z) : res node :=
  if (i <=? 0) || (fsize f <? i) then Err
  else if i =? fsize f then UB
  else match fslot f i with Some n => Ok n | None => Err end.
(** Forest.cc:231-235 *)
Definition valid (f : forest) (i : Z) : bool := (0 <? i) && (i <? fsize f) && (if fslot f i then true else false).
(** Forest.cc:238-242 *)
Definition findIndex (f : forest) (s : string) : Z := match nm_find s (f_names f) with Some i => i | None => -1 end.
(** Forest.cc:245-256.  The debug checks are not there in a release build: using an invalid
    reference throws (CountedRefBase.h), an index out of range is undefined. *)
Definition findNode (f : forest) (s : string) : res node :=
  match nm_find s (f_names f) with
  | None => Err
  | Some i => if (i <? 0) || (fsize f <=? i) then UB else match fslot f i with Some n => Ok n | None => Err end
  end.
(** Forest.cc:259-264: the reference, which may be invalid *)
Definition getRef (f : forest) (i : Z) : res (option node) :=
  if (i <=? 0) || (fsize f <? i) then Err else if i =? fsize f then UB else Ok (fslot f i).

(** Forest.cc:278-355: the node index and name columns.  Writing beyond
    the num elements of the columns counts as an exception here; it never happens
    (forest_node_list).  Too few nodes throw. *)
Fixpoint node_list (num i0 : Z) (i : Z) (l : list (option node)) : res (list (Z * string)) :=
  match l with
  | [] => if i0 <? num then Err else Ok []
  | None :: l' => node_list num i0 (i + 1) l'
  | Some n :: l' => if num <=? i0 then Err else bind (node_list num (i0 + 1) (i + 1) l') (fun r => Ok ((i, n_name n) :: r))
  end.
Definition getNodeList (f : forest) : res (list (Z * string)) :=
  if f_num f =? 0 then Ok [] else node_list (f_num f) 0 1 (tl (f_nodes f)).

(** one call from outside *)
Inductive op := OCreate (r : initrec) | ORemove (i : Z) | OClear.
Definition do_op (f : forest) (o : op) : forest :=
  match o with OCreate r => fst (create f r) | ORemove i => fst (remove f i) | OClear => clear f end.
(** a sequence of calls none of which is undefined (exceptions are caught by the caller) *)
Fixpoint run (f : forest) (ops : list op) : option forest :=
  match ops with
  | [] => Some f
  | o :: ops' => match o with
                 | ORemove i => match snd (remove f i) with UB => None | _ => run (do_op f o) ops' end
                 | _ => run (do_op f o) ops'
                 end
  end.
