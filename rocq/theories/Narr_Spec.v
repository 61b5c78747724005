(** Specification of array addressing (C18, C19). *)
From Verif Require Import Base Hiid_Model.
Local Open Scope Z_scope.

Definition prod (l : list Z) : Z := fold_right Z.mul 1 l.
(** an index tuple within a shape *)
Definition in_shape (shape idx : list Z) : Prop := Forall2 (fun n i => 0 <= i < n) shape idx.
(** position of an element in row-major order *)
Fixpoint flat (shape idx : list Z) : Z :=
  match shape, idx with n :: ns, i :: is => i * prod ns + flat ns is | _, _ => 0 end.

(** what can be said about one axis: everything, one index, or start:end:increment with
    parts left out *)
Inductive axspec := AAll | AOne (i : Z) | ARange (s e : option Z) (inc : option (option Z)).
(** the ids the string conversion makes of it; a part left out is the empty id *)
Definition part (o : option Z) : Z := match o with Some z => z | None => AidEmpty end.
Definition ids_of (a : axspec) : list Z :=
  match a with
  | AAll => [AidWildcard]
  | AOne i => [i]
  | ARange s e None => [part s; AidRange; part e]
  | ARange s e (Some i) => [part s; AidRange; part e; AidRange; part i]
  end.
Definition nonneg (o : option Z) : Prop := match o with Some z => 0 <= z | None => True end.

(** first index, one past the last, and increment along an axis of length [n], as the
    comment in the code has it: parts left out mean the whole axis *)
Definition lo (s : option Z) : Z := match s with Some z => z | None => 0 end.
Definition hi (n : Z) (e : option Z) : Z := match e with Some z => z + 1 | None => n end.
Definition by_ (i : option (option Z)) : Z := match i with Some (Some z) => z | _ => 1 end.

(** a sensible request: indices inside the axis, start before end, increment positive *)
Definition sensible (n : Z) (a : axspec) : Prop :=
  match a with
  | AAll => True
  | AOne i => 0 <= i < n
  | ARange s e i => 0 <= lo s < n /\ lo s < hi n e <= n /\ 0 < by_ i
  end.
(** the end is not left out after a given start; the increment divides the length *)
Definition exact (n : Z) (a : axspec) : Prop :=
  match a with ARange s e i => (s <> None -> e <> None) /\ (hi n e - lo s) mod by_ i = 0 | _ => True end.

(** the indices an axis specification names, in order *)
Definition named (n : Z) (a : axspec) (k : Z) : Prop :=
  match a with
  | AAll => 0 <= k < n
  | AOne i => k = i
  | ARange s e i => exists j, 0 <= j /\ k = lo s + j * by_ i /\ k < hi n e
  end.
(** the [j]-th of them *)
Definition nth_named (a : axspec) (j : Z) : Z :=
  match a with AAll => j | AOne i => i | ARange s e i => lo s + j * by_ i end.
Definition kept (a : axspec) : bool := match a with AOne _ => false | _ => true end.
(** an index tuple of the subarray, spread over the axes of the array; axes not mentioned
    at all stay at 0 *)
Fixpoint spread (shape : list Z) (axs : list axspec) (js : list Z) : list Z :=
  match shape, axs with
  | [], _ => []
  | _ :: ns, [] => 0 :: spread ns [] js
  | _ :: ns, a :: axs' => if kept a then match js with j :: js' => nth_named a j :: spread ns axs' js' | [] => [] end
                          else nth_named a 0 :: spread ns axs' js
  end.
