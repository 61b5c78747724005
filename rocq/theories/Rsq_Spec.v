(** What is expected of ReqSeq and ReqMux; independent of the model's functions. *)
From Verif Require Import Base Rqid_Spec Rsq_Model.
Local Open Scope Z_scope.
Open Scope list_scope.

(** bits of return codes, NodeFace.h:62-79 *)
Definition bMISSING : Z := 18.
Definition bWAIT : Z := 21.
Definition bFAIL : Z := 23.

(** the requests sent to the children: each has the parts chosen by the mask one higher than the one before *)
Definition numbered (mask : Z) (id : list Z) (ids : nat -> list Z) : Prop :=
  ids 0%nat = id /\ forall i p, at_pos (ids i) p = at_pos id p + (if selected mask p then Z.of_nat i else 0).

Section Seq.
Context {R : Type}.
Variables (child : nat -> list Z -> option (Z * option R)) (aborted : nat -> bool) (cf : seqcfg) (ids : nat -> list Z).
(** child i answers, and nothing in its answer stops the sequence *)
Definition proceeds (i : nat) : Prop :=
  exists c r, child i (ids i) = Some (c, r) /\ aborted i = false /\ Z.testbit c bWAIT = false /\
    (s_failIgnore cf = false -> Z.testbit c bFAIL = false) /\ (s_missIgnore cf = false -> Z.testbit c bMISSING = false).
(** the codes of the first k children together; fails and missing data count for the selected child only *)
Definition together (k : nat) (code : Z) : Prop :=
  forall b, 0 <= b -> Z.testbit code b = true <->
    exists i c r, (i < k)%nat /\ child i (ids i) = Some (c, r) /\ Z.testbit c b = true /\ (b = bFAIL \/ b = bMISSING -> i = s_which cf).
(** the requests sent to the first k children, in order *)
Definition sent (k : nat) : list (nat * list Z) := map (fun i => (i, ids i)) (seq 0 k).
End Seq.
