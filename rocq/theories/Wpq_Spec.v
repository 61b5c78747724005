(** Specification vocabulary for the theorems of Wpq_Thms.v. *)
From Verif Require Import Base Wpq_Model.
Local Open Scope Z_scope.

(** non-increasing priorities *)
Definition sortedq (q : list entry) : Prop :=
  forall l1 e1 l2 e2 l3, q = l1 ++ e1 :: l2 ++ e2 :: l3 -> q_pri e1 >= q_pri e2.

(** recursive version used in proofs *)
Fixpoint sortedr (q : list entry) : Prop :=
  match q with [] => True | e :: q' => Forall (fun x => q_pri x <= q_pri e) q' /\ sortedr q' end.

(** where a newly arrived message belongs: behind everything of at least its priority *)
Fixpoint stable_insert (e : entry) (q : list entry) : list entry :=
  match q with
  | [] => [e]
  | h :: q' => if q_pri h >=? q_pri e then h :: stable_insert e q' else e :: q
  end.

(** ** conservation *)
Definition ident (e : entry) : nat * Z := (q_msg e, q_pri e).

Definition holdings (s : wpq) : list entry := w_done s ++ w_removed s ++ running s ++ w_queue s.

(** ** FIFO within a priority, for one worker *)
Definition ids (p : Z) (l : list entry) : list nat := map q_msg (filter (fun e => q_pri e =? p) l).

Definition fifo_op (o : wop) : Prop :=
  match o with OFinish _ REQUEUE _ => False | ODequeue _ => False | _ => True end.

(** a history with one worker: a new message is taken only when the previous
    delivery has ended *)
Fixpoint one_worker (s : wpq) (os : list wop) : Prop :=
  match os with
  | [] => True
  | o :: os' => (match o with OTake => w_workers s = [] | _ => True end) /\ one_worker (wstep s o) os'
  end.
