(** Specification of the shape of a VellSet (C42, C47) in terms of extents. *)
From Verif Require Import Base Vset_Model.

(** extent along an axis; a missing axis has extent 1 (Vells::extent, MEQ/src/Vells.h:340) *)
Definition extent (s : list nat) (i : nat) : nat := nth i s 1.
(** no axis along which two of the shapes vary with different extents *)
Definition conforming (l : list (list nat)) : Prop :=
  forall a b i, In a l -> In b l -> 1 < extent a i -> 1 < extent b i -> extent a i = extent b i.
(** [s] is the per-axis maximum of the shapes in [l], of no more axes than needed *)
Definition is_max (l : list (list nat)) (s : list nat) : Prop :=
  length s = fold_right Nat.max 0 (map (@length nat) l) /\
  (forall i, extent s i = fold_right Nat.max 1 (map (fun a => extent a i) l)).
(** the array passed to a setter, if it is valid *)
Definition array (o : setter) : option (list nat) :=
  match o with SValue v => v | SFlags v => v | SWeights v => v | SPert _ _ v => v | SClearFlags => None | SClearWeights => None end.
(** arrays have at least one element along every axis *)
Definition proper (o : setter) : Prop := forall s x, array o = Some s -> In x s -> 1 <= x.
(** its shape, if it varies along some axis *)
Definition varying (v : option (list nat)) : list (list nat) := match v with Some s => if existsb (Nat.ltb 1) s then [s] else [] | None => [] end.
(** a VellSet produced by any sequence of calls of setters (calls that throw have no effect);
    the list holds the shapes of the varying arrays accepted so far *)
Inductive history (nspid nset : nat) : vellset -> list (list nat) -> Prop :=
| h_new : history nspid nset (vset_new nspid nset) []
| h_set s l o s' : history nspid nset s l -> proper o -> do_set o s = Ok s' -> history nspid nset s' (varying (array o) ++ l).
