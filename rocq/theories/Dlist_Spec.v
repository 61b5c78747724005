(** Specification of sequences with negative indices (C14). *)
From Verif Require Import Base.
Local Open Scope Z_scope.

(** element [k] of a sequence of length [len]: from the front, or -1, -2, ... from the end *)
Definition elem_at (len : nat) (k : Z) (i : nat) : Prop :=
  (i < len)%nat /\ (k = Z.of_nat i \/ k = Z.of_nat i - Z.of_nat len).
(** gap [k]: 0 before the first element, -1 after the last *)
Definition gap_at (len : nat) (k : Z) (i : nat) : Prop :=
  (i <= len)%nat /\ (k = Z.of_nat i \/ k = Z.of_nat i - Z.of_nat len - 1).

Section S.
Context {A : Type}.
(** [l'] is [l] with [v] put into gap [i] / with element [i] changed to [v] / dropped *)
Definition inserted (i : nat) (v : A) (l l' : list A) : Prop :=
  exists a b, l = a ++ b /\ length a = i /\ l' = a ++ v :: b.
Definition replaced (i : nat) (v : A) (l l' : list A) : Prop :=
  exists a o b, l = a ++ o :: b /\ length a = i /\ l' = a ++ v :: b.
Definition dropped (i : nat) (v : A) (l l' : list A) : Prop :=
  exists a b, l = a ++ v :: b /\ length a = i /\ l' = a ++ b.
End S.
