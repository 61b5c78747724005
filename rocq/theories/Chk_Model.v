(** Node::checkChildCells, MEQ/src/Node.cc:763-865: the cells of a result from those of the children.
    Simplified: cells are a grid (centres and sizes) and a domain per axis, and the object they are kept in; segments, domain ids
    and locks are left out. *)
From Verif Require Import Base Flt_Model Dom_Model Vset_Model.
Open Scope nat_scope.
Open Scope list_scope.

Section Chk.
Variable A : arith.
(** [k_obj] is None for the private copy that writing to a shared object makes (CountedRef::dewr) *)
Record cells := { k_obj : option nat; k_grid : nat -> list (num A * num A); k_dom : nat -> num A * num A }.
(** a child's result with cells; [h_shape] is Result::getVellSetShape, Result.cc:104-111, None if it throws *)
Record child := { h_cells : cells; h_shape : option (list nat) }.

(** the range that Cells::recomputeDomain gives an axis, Cells.cc:380-386, Domain.cc:63-75 *)
Definition range (g : list (num A * num A)) : num A * num A :=
  let z := (n0 A, n0 A) in
  match g with
  | [] => z
  | p :: _ => let q := last g z in
              norm_range A (nsub A (fst p) (ndiv A (snd p) (nofZ A 2))) (nadd A (fst q) (ndiv A (snd q) (nofZ A 2)))
  end.
(** setCells and recomputeDomain, Cells.cc:255-265, 373-391, on a copy *)
Definition merge_axis (rc cc : cells) (i : nat) : cells :=
  let grid j := if Nat.eqb j i then k_grid cc i else k_grid rc j in
  {| k_obj := None; k_grid := grid; k_dom := fun j => range (grid j) |}.
(** lines 851-852 *)
Definition far (a b : num A) : bool := nltb A (nmul A (nmax A (nabs A a) (nabs A b)) (n1em10 A)) (nabs A (nsub A a b)).
(** one axis, lines 802-858; None is an exception *)
Definition check_axis (resshape shape1 : list nat) (cc rc : cells) (i : nat) : option cells :=
  let np1 := length (k_grid cc i) in
  let np := length (k_grid rc i) in
  if Nat.eqb np1 0 then Some rc
  else if Nat.eqb np 0 then Some (merge_axis rc cc i)
  else if Nat.leb (length resshape) i || Nat.eqb (nth i resshape 0) 1 then
    if Nat.ltb i (length shape1) && Nat.ltb 1 (nth i shape1 0) then Some (merge_axis rc cc i) else Some rc
  else if Nat.leb (length shape1) i || Nat.eqb (nth i shape1 0) 1 then Some rc
  else if negb (Nat.eqb np np1) then None
  else if far (fst (k_dom rc i)) (fst (k_dom cc i)) || far (snd (k_dom rc i)) (snd (k_dom cc i)) then None
  else Some rc.
Fixpoint check_axes (resshape shape1 : list nat) (cc : cells) (is : list nat) (rc : cells) : option cells :=
  match is with
  | [] => Some rc
  | i :: is => match check_axis resshape shape1 cc rc i with Some rc => check_axes resshape shape1 cc is rc | None => None end
  end.
Definition same_obj (a b : cells) : bool := match k_obj a, k_obj b with Some x, Some y => Nat.eqb x y | _, _ => false end.
(** lines 778-864: children without a result, or without cells, are None *)
Fixpoint check_loop (cs : list (option child)) (acc : option (cells * list nat)) : res (option cells) :=
  match cs with
  | [] => Ok (option_map fst acc)
  | None :: cs => check_loop cs acc
  | Some c :: cs =>
      match acc with
      | None => match h_shape c with Some s => check_loop cs (Some (h_cells c, s)) | None => Err end
      | Some (rc, s) =>
          if same_obj rc (h_cells c) then check_loop cs acc
          else match h_shape c with
               | None => Err
               | Some s1 =>
                   match check_axes s s1 (h_cells c) (seq 0 (Nat.max (length s) (length s1))) rc with
                   | None => Err
                   | Some rc => match mergeShape s s1 with Some s => check_loop cs (Some (rc, s)) | None => Err end
                   end
               end
      end
  end.
(** lines 763-777; [none]: auto_resample_ is RESAMPLE_NONE *)
Definition checkChildCells (none : bool) (cs : list (option child)) : res (option cells) :=
  if none then Ok None
  else match cs with
       | [c] => Ok (option_map h_cells c)
       | _ => check_loop cs None
       end.
End Chk.
Arguments k_obj {A}. Arguments k_grid {A}. Arguments k_dom {A}. Arguments h_cells {A}. Arguments h_shape {A}.
