(** What is expected of the cells that a node works out from its children. *)
From Verif Require Import Base Flt_Model Vset_Spec Chk_Model.
Open Scope nat_scope.
Open Scope list_scope.

(** where an axis begins and ends: half a cell before the first centre and half a cell after the last, the lower one first;
    a little is put before when they are the same *)
Definition ends (A : arith) (g : list (num A * num A)) : num A * num A :=
  let z := (n0 A, n0 A) in
  match g with
  | [] => z
  | p :: _ => let a := nsub A (fst p) (ndiv A (snd p) (nofZ A 2)) in let b := nadd A (fst (last g z)) (ndiv A (snd (last g z)) (nofZ A 2)) in
              if neqb A a b then (nsub A a (n1em6 A), b) else if nltb A b a then (b, a) else (a, b)
  end.
Section Spec.
Variable A : arith.
Notation child := (child A).
Definition shape (c : child) : list nat := match h_shape c with Some s => s | None => [] end.
Definition grid (c : child) (i : nat) : list (num A * num A) := k_grid (h_cells c) i.
(** the child's values vary along the axis *)
Definition variesb (i : nat) (c : child) : bool := Nat.ltb 1 (extent (shape c) i).
(** results whose shapes fit their cells, and cells whose domain is that of their grid *)
Definition proper (c : child) : Prop :=
  h_shape c <> None /\ (forall x, In x (shape c) -> 1 <= x) /\ (forall i, variesb i c = true -> length (grid c i) = extent (shape c) i) /\
  (forall i, grid c i <> [] -> k_dom (h_cells c) i = ends A (grid c i)) /\ k_obj (h_cells c) <> None.
Definition present (l : list (option child)) : list child := flat_map (fun o => match o with Some c => [c] | None => [] end) l.

Definition differ (a b : num A) : Prop := nltb A (nmul A (nmax A (nabs A a) (nabs A b)) (n1em10 A)) (nabs A (nsub A a b)) = true.
Definition mismatch (i : nat) (f d : child) : Prop :=
  length (grid f i) <> length (grid d i) \/ differ (fst (ends A (grid f i))) (fst (ends A (grid d i))) \/ differ (snd (ends A (grid f i))) (snd (ends A (grid d i))).
(** a child that varies along the axis on another grid than the first that does *)
Definition clash (cs : list child) (i : nat) : Prop :=
  exists pre f d post, cs = pre ++ d :: post /\ find (variesb i) pre = Some f /\ variesb i d = true /\ mismatch i f d.

(** a child, after those in [pre], from which an axis may be taken along which nothing varies: it has the axis, and the axis is
    within the shape of one of the children so far, unless it is the first *)
Definition offers (i : nat) (pre : list child) (c : child) : Prop :=
  grid c i <> [] /\ (pre = [] \/ exists d, In d (pre ++ [c]) /\ i < length (shape d)).
Definition nobodyOffers (i : nat) (cs : list child) : Prop := forall pre c post, cs = pre ++ c :: post -> ~ offers i pre c.
(** the grid of an axis: of the first child that varies along it, else of the first that offers it, else none *)
Definition axisOf (cs : list child) (i : nat) (g : list (num A * num A)) : Prop :=
  (exists c, find (variesb i) cs = Some c /\ g = grid c i) \/
  (find (variesb i) cs = None /\ exists pre c post, cs = pre ++ c :: post /\ offers i pre c /\ nobodyOffers i pre /\ g = grid c i) \/
  (find (variesb i) cs = None /\ nobodyOffers i cs /\ g = []).
End Spec.
