(** What a polynomial funklet means, independently of loops, storage and iterators. *)
From Coq Require Import QArith Qcanon.
From Verif Require Import Base.
Close Scope Q_scope. Close Scope Qc_scope. Local Open Scope nat_scope.

Fixpoint Sum (n : nat) (F : nat -> Qc) : Qc := match n with O => Q2Qc 0 | S n => Qcplus (Sum n F) (F n) end.
(** the sum over i < nx, j < ny of c(i,j) x^i y^j, the coefficients being given row by row *)
Definition poly (nx ny : nat) (cs : list Qc) (x y : Qc) : Qc :=
  Sum nx (fun i => Sum ny (fun j => Qcmult (Qcmult (nth (i * ny + j) cs (Q2Qc 0)) (Qcpower x i)) (Qcpower y j))).
(** a physical coordinate made relative to an offset, in units of a scale (zero means one) *)
Definition relative (off scl X : Qc) : Qc :=
  Qcdiv (Qcminus X off) (if Qc_eq_dec scl (Q2Qc 0) then Q2Qc 1 else scl).
(** the same coefficients with [d] added to number [k] *)
Fixpoint bumped (cs : list Qc) (k : nat) (d : Qc) : list Qc :=
  match cs, k with
  | [], _ => []
  | c :: cs, O => Qcplus c d :: cs
  | c :: cs, S k => c :: bumped cs k d
  end.
(** how many of the first [n] entries are set *)
Definition rank_of (mask : list bool) (n : nat) : nat := length (filter (fun b => b) (firstn n mask)).

(** an index vector of a grid of rank [rank], with [n a] cells along axis [a] *)
Definition cell_index (rank : nat) (n : nat -> nat) (idx : list Z) : Prop :=
  length idx = rank /\ forall a, a < rank -> (0 <= nth a idx 0 < Z.of_nat (n a))%Z.
