(** Cells along an axis, said by their edges. *)
From Coq Require Import QArith Qcanon.
From Verif Require Import Base Mrs_Model.
Close Scope Q_scope. Close Scope Qc_scope. Local Open Scope nat_scope.

(** cell number [i] is there, from [a] to [b] *)
Definition cell_from_to (ax : axis) (i : nat) (a b : Qc) : Prop :=
  exists c, nth_error ax i = Some c /\ (fst c - snd c / Q2Qc 2)%Qc = a /\ (fst c + snd c / Q2Qc 2)%Qc = b.
(** no gaps and no overlaps *)
Definition contiguous (ax : axis) : Prop := forall i a b a' b', cell_from_to ax i a b -> cell_from_to ax (S i) a' b' -> b = a'.
(** the axis runs from [a] to [b] *)
Definition runs (ax : axis) (a b : Qc) : Prop :=
  (exists x, cell_from_to ax 0 a x) /\ (exists x, cell_from_to ax (length ax - 1) x b).
(** the place at [i]/[k] of the way from [a] to [b] *)
Definition between (a b : Qc) (i k : nat) : Qc := (a + (b - a) * Q2Qc (inject_Z (Z.of_nat i)) / Q2Qc (inject_Z (Z.of_nat k)))%Qc.
(** each cell divided into [k] of equal size, in order *)
Definition divided (k : nat) (ax ax' : axis) : Prop :=
  length ax' = length ax * k /\
  forall i j a b, j < k -> cell_from_to ax i a b -> cell_from_to ax' (i * k + j) (between a b j k) (between a b (S j) k).
(** each [d] cells made one, the rest at the end made one too *)
Definition grouped (d : nat) (ax ax' : axis) : Prop :=
  length ax <= length ax' * d < length ax + d /\
  forall i a b a' b', cell_from_to ax (i * d) a b -> cell_from_to ax (Nat.min ((i + 1) * d) (length ax) - 1) a' b' -> cell_from_to ax' i a b'.
(** [n] cells of equal size from [a] to [b] *)
Definition evenly (n : nat) (a b : Qc) (ax' : axis) : Prop :=
  length ax' = n /\ forall i, i < n -> cell_from_to ax' i (between a b i n) (between a b (S i) n).
(** the smallest of [d] and the numbers of cells on axis [i] of some cells *)
Definition smallest (d : nat) (i : nat) (cs : list mcells) : nat := fold_left (fun d c => Nat.min d (length (axis_at c i))) cs d.
