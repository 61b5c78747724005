(** What tensor nodes should compute: a function from tensors to tensors, applied to the functions of the
    parameters that the VellSets of the children stand for. *)
From Coq Require Import Sorted.
From Verif Require Import Base Vel_Model Fun_Model Fun_Spec Tfn_Model.
Local Open Scope Z_scope.

Section TensorMeaning.
Context {V P F C E : Type}.
(** element [j] of the tensor that [ev] makes of the tensors [fs], as a function of the parameters *)
Definition element (ev : list (list (option V)) -> res (list V)) (fs : list (list (E -> option V))) (j : nat) (e' : E) : option V :=
  match ev (map (map (fun f => f e')) fs) with Ok out => nth_error out j | _ => None end.

Variable perturb : E -> Z -> P -> E.
Variable delta : nat -> Z -> P.
Variable n : nat.
Variable e : E.
(** each VellSet of the child has a value and tells its function *)
Definition stands_for (c : tresult V P F C) (fs : list (E -> option V)) : Prop :=
  Forall2 (fun vs f => exists d, vs = VData d /\ tells perturb delta n e d f /\ d_value d <> None) (r_vs (t_res c)) fs.

(** VellSet [i] of child [c] has flags that count: it has a value, and the value is not a null or it has
    spids *)
Definition flagging (isNull : V -> bool) (cs : list (tresult V P F C)) (c i : nat) (f : vells Z) : Prop :=
  exists r d v, nth_error cs c = Some r /\ nth_error (r_vs (t_res r)) i = Some (VData d) /\ d_value d = Some v /\ (isNull v = false \/ d_spids d <> []) /\ d_flags d = Some f.

(** a VellSet gives the perturbation of a spid in perturbation set [k] *)
Definition gives (d : vdata V P) (k : nat) (s : Z) (p : P) : Prop :=
  exists ps i, nth_error (d_psets d) k = Some ps /\ nth_error (d_spids d) i = Some s /\ nth_error (ps_pert ps) i = Some p.
(** some VellSet of some child *)
Definition among (cs : list (tresult V P F C)) (d : vdata V P) : Prop := exists c, In c cs /\ In (VData d) (r_vs (t_res c)).
(** the lists of a VellSet fit together *)
Definition orderly (d : vdata V P) : Prop :=
  increasing (d_spids d) /\ Forall (fun s => 0 <= s) (d_spids d) /\
  Forall (fun ps => length (ps_pert ps) = length (d_spids d) /\ length (ps_val ps) = length (d_spids d)) (d_psets d).
End TensorMeaning.
