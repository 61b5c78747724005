(** Specification of the multithreaded evaluation of a tree (C45, C46). *)
From Coq Require Import Permutation.
From Verif Require Import Base Pool_Model Mtree_Model.

(** the nodes of a tree, with their distance from the root added to [d] *)
Fixpoint labels (d : nat) (t : tree) : list (nat * nat) := match t with Node l _ cs => (d, l) :: flat_map (labels (S d)) cs end.
(** the number of nodes on level [d] of a tree whose root is on level 0 *)
Fixpoint width (t : tree) (d : nat) : nat :=
  match t, d with
  | Node _ _ _, 0 => 1
  | Node _ _ cs, S d => list_sum (map (fun c => width c d) cs)
  end.
(** the root has been executed and execute() is back in the main thread *)
Definition finished (s : sys) : Prop := exists h l f, s_thr s = h :: l /\ h_main h = true /\ h_stack h = [f] /\ f_phase f = PDelivered.
(** nothing will ever happen again without a spurious wakeup *)
Definition stuck (m : nat) (s : sys) : Prop := forall i j, step m s i j = None.
