(** What slicing and reducing along axes should mean, in terms of index vectors only. *)
From Coq Require Import Sorted.
From Verif Require Import Base Vel_Model Vel_Spec.
Local Open Scope Z_scope.

Definition coord (idx : list Z) (k : nat) : Z := nth k idx 0.
(** which of the axes [ks] axis [k] is *)
Fixpoint find_axis (k : nat) (ks : list nat) : option nat :=
  match ks with [] => None | a :: r => if Nat.eqb a k then Some O else option_map S (find_axis k r) end.
Definition member (k : nat) (ks : list nat) : bool := existsb (Nat.eqb k) ks.
(** the index vector with [n] coordinates that has the coordinates [j] along the axes [ks] and those of [o] along the others *)
Definition merge (n : nat) (ks : list nat) (o j : list Z) : list Z :=
  map (fun k => match find_axis k ks with Some i => coord j i | None => coord o k end) (seq 0 n).
(** [ns] is the shape [s] with the axes [ks] collapsed *)
Definition without (ks : list nat) (s ns : list Z) : Prop := forall k, ext ns k = if member k ks then 1 else ext s k.
(** the extents along the axes [ks] *)
Definition along (ks : list nat) (s : list Z) : list Z := map (ext s) ks.
(** coordinates along axes of extent 1 do not matter *)
Fixpoint squeeze (s j : list Z) : list Z :=
  match s, j with n :: s, x :: j => (if n =? 1 then 0 else x) :: squeeze s j | _, _ => [] end.
(** different axes among the 8 there are *)
Definition good_axes (ks : list nat) : Prop := NoDup ks /\ Forall (fun k => (k < 8)%nat) ks.
(** in ascending order, and nothing varies along an axis following one of them *)
Definition trailing (ks : list nat) (s : list Z) : Prop :=
  StronglySorted lt ks /\ forall k0 k, In k0 ks -> ext s k0 <> 1 -> (k0 < k)%nat -> In k ks \/ ext s k = 1.

(** [d'] is the part of [d] at the position [o], which extends along the axes [ks]; seen over the whole of [full] *)
Definition part_of {A} (n : nat) (ks : list nat) (full s : list Z) (d : list A) (o s' : list Z) (d' : list A) : Prop :=
  filled s' d' /\ s' = along ks s /\
  forall j, inside (along ks full) j -> at_index s' d' j = at_index s d (merge n ks o j).
Definition is_slice {V} (n : nat) (ks : list nat) (full : list Z) (x : vells V) (o : list Z) (sl : vells V) : Prop :=
  part_of n ks full (v_shape x) (v_data x) o (v_shape sl) (v_data sl) /\
  match v_flags x, v_flags sl with
  | None, None => True
  | Some (fs, fd), Some (fs', fd') => part_of n ks full fs fd o fs' fd'
  | _, _ => False
  end.
(** data and flags have the joint shape [out] *)
Definition joint_shape {V} (x : vells V) (out : list Z) : Prop :=
  match v_flags x with None => out = v_shape x | Some (fs, _) => joint (v_shape x) fs out end.
(** data and flags are complete and can be spread over [full] *)
Definition spreads {V} (x : vells V) (full : list Z) : Prop :=
  usable (v_shape x) (v_data x) /\ subshape (v_shape x) full /\
  match v_flags x with None => True | Some (fs, fd) => usable fs fd /\ subshape fs full end.
Definition trailing_in {V} (ks : list nat) (x : vells V) : Prop :=
  trailing ks (v_shape x) /\ match v_flags x with None => True | Some (fs, _) => trailing ks fs end.
