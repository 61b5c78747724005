(** What the inverse of a matrix is. *)
From Coq Require Import QArith Qcanon.
From Verif Require Import Base Fun_Model Ceq_Model Ceq_Spec Mmul_Spec.
Close Scope Q_scope. Close Scope Qc_scope. Local Open Scope nat_scope.

Definition oneC : cplx := (1%Qc, 0%Qc).
(** row times column, for matrices of two rows and columns *)
Definition rowcol (x y : nat -> nat -> cplx) (i k : nat) : cplx := plusC (timesC (x i 0) (y 0 k)) (timesC (x i 1) (y 1 k)).
Definition unit_element (i k : nat) : cplx := if Nat.eqb i k then oneC else zeroC.
Definition inverse_of (x y : nat -> nat -> cplx) : Prop :=
  forall i k, i < 2 -> k < 2 -> rowcol x y i k = unit_element i k /\ rowcol y x i k = unit_element i k.
Definition singular (x : nat -> nat -> cplx) : Prop := timesC (x 0 0) (x 1 1) = timesC (x 0 1) (x 1 0).
