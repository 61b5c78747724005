(** Weighted sums. *)
From Coq Require Import QArith Qcanon.
From Verif Require Import Base.
Close Scope Q_scope. Close Scope Qc_scope. Local Open Scope nat_scope.

Fixpoint weighted (ws vs : list Qc) : Qc := match ws, vs with w :: ws, v :: vs => (w * v + weighted ws vs)%Qc | _, _ => 0%Qc end.
Fixpoint total (ws : list Qc) : Qc := match ws with [] => 0%Qc | w :: ws => (w + total ws)%Qc end.
(** the weight of each of [n] children: one for all, or one each, zero where none is given *)
Definition weight_of (n : nat) (given : list Qc) : list Qc :=
  match given with
  | [] => repeat 1%Qc n
  | [w] => repeat w n
  | _ => map (fun i => nth i given 0%Qc) (seq 0 n)
  end.
