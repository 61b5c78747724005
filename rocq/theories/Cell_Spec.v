(** Vocabulary for the properties of Cells, independent of the code. *)
From Coq Require Import QArith Qcanon.
From Verif Require Import Base Flt_Model Dom_Model Cell_Model.
Local Close Scope Qc_scope. Local Close Scope Q_scope.

Section Spec.
Variable A : arith.
Notation vec := (list (num A)).

Definition at_ (v : vec) (i : nat) : num A := nth i v (n0 A).
(** two quantities differ by more than the tolerance *)
Definition differ (eps a b : num A) : Prop := nltb A eps (nabs A (nsub A a b)) = true.
Definition spacing (x : vec) (i : nat) : num A := nsub A (at_ x i) (at_ x (i - 1)).
(** the documented tolerance: 1e-10 of the extent of the grid *)
Definition tolerance (x : vec) : num A :=
  nmul A (nabs A (nsub A (at_ x 0) (at_ x (length x - 1)))) (n1em10 A).

(** the ranges s..e are non-empty, consecutive, and cover 0..n-1 *)
Definition partition_of (n : nat) (l : list (nat * nat)) : Prop :=
  flat_map (fun p => seq (fst p) (S (snd p) - fst p)) l = seq 0 n /\
  forall p, In p l -> fst p <= snd p.

(** cells s..e have the same size as the first of them, and evenly spaced centers *)
Definition uniform (eps : num A) (x h : vec) (p : nat * nat) : Prop :=
  (forall i, fst p < i <= snd p -> ~ differ eps (at_ h i) (at_ h (fst p))) /\
  (forall i, S (fst p) < i <= snd p -> ~ differ eps (spacing x i) (spacing x (i - 1))).

(** a new segment starts only where the size or the spacing changes *)
Definition justified (eps : num A) (x h : vec) (p q : nat * nat) : Prop :=
  differ eps (at_ h (fst q)) (at_ h (fst p)) \/
  (fst p < snd p /\ differ eps (spacing x (fst q)) (spacing x (snd p))).
Definition boundaries_justified eps x h (l : list (nat * nat)) : Prop :=
  forall l1 p q l2, l = l1 ++ p :: q :: l2 -> justified eps x h p q.
End Spec.

(** Cells over exact rationals: the i-th cell is an interval; a grid covers the
    points lying in one of its (half-open) cells. *)
Definition cell_lo (g h : list Qc) (i : nat) : Qc := Qcminus (nth i g (Q2Qc 0)) (Qcdiv (nth i h (Q2Qc 0)) (Q2Qc 2)).
Definition cell_hi (g h : list Qc) (i : nat) : Qc := Qcplus (nth i g (Q2Qc 0)) (Qcdiv (nth i h (Q2Qc 0)) (Q2Qc 2)).
Definition covered (g h : list Qc) (p : Qc) : Prop :=
  exists i, i < length g /\ Qcle (cell_lo g h i) p /\ Qclt p (cell_hi g h i).
Definition contiguous (g h : list Qc) : Prop :=
  forall i, S i < length g -> cell_hi g h i = cell_lo g h (S i).
Definition sizes_pos (h : list Qc) : Prop := forall x, In x h -> Qclt (Q2Qc 0) x.
