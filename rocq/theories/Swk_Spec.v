(** What one wants of the worker threads of the Solver, without reference to locks. *)
From Coq Require Import Permutation.
From Verif Require Import Base Swk_Model.

(** the numbers of the subsolvers that have not converged *)
Definition to_solve (js : list job) : list nat :=
  map fst (filter (fun kj => negb (j_conv (snd kj))) (combine (seq 0 (length js)) js)).
(** one of them throws *)
Definition throws (js : list job) : Prop := exists j, In j js /\ j_conv j = false /\ j_out j = Throws.
(** how many have converged afterwards *)
Definition converged_after (j : job) : bool := j_conv j || match j_out j with Converges => true | _ => false end.
(** thread [t] works on subsolver [k] *)
Definition works_on (s : state) (t : tid) (k : nat) : Prop := at_pc s t = Some (Solve k) \/ at_pc s t = Some (Back k).
(** no call comes from outside *)
Definition inside (ls : list label) : Prop := Forall (fun l => l <> Outside) ls.
Definition is_spurious (l : label) : bool := match l with Spurious _ => true | _ => false end.
(** the main thread is not in any of these functions *)
Definition at_rest (s : state) : Prop := main s = MIdle \/ main s = MDone \/ main s = MStopped.
(** activateSubsolverWorkers, called in [s] for [js], has returned or thrown in [s'] *)
Definition activation (s : state) (js : list job) (s' : state) : Prop :=
  reachable s /\ step s Outside (activate js s) /\ exists ls, steps (activate js s) ls s' /\ inside ls /\ main s' = MDone.
