(** Specification of the worker pool (C33). *)
From Verif Require Import Base Pool_Model.

(** the number of orders of depth [d] in execution *)
Definition executing (s : gsys) (d : nat) : nat := length (filter (Nat.eqb d) (concat (map g_runs (g_thr s)))).
(** the number of idle threads *)
Definition idle_threads (s : gsys) : nat := length (filter (fun t => negb (g_busy t)) (g_thr s)).
