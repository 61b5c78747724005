(** Property theorems on work process queues (C38 and wake-ups). *)
From Coq Require Import Sorting.Permutation.
From Verif Require Import Base Wpq_Model Wpq_Spec Wpq_Proofs.
Local Open Scope Z_scope.

Theorem wpqueue_always_sorted : forall os, sortedq (w_queue (wrun os)).
Proof. exact wrun_sorted. Qed.
Print Assumptions wpqueue_always_sorted.

Theorem wpqueue_enqueue_stable :
  forall os e, fst (enqueue (w_queue (wrun os)) e) = stable_insert e (w_queue (wrun os)).
Proof. exact (fun os e => enqueue_stable _ e (wrun_sortedr os)). Qed.
Print Assumptions wpqueue_enqueue_stable.

Theorem wpqueue_loses_and_duplicates_nothing :
  forall os, let s := wrun os in
  Permutation (map ident (w_arrived s)) (map ident (holdings s)).
Proof. exact wrun_conserves. Qed.
Print Assumptions wpqueue_loses_and_duplicates_nothing.

Theorem wpqueue_fifo_within_priority :
  forall os p, one_worker wpq_init os -> Forall fifo_op os ->
  let s := wrun os in
  ids p (w_done s) ++ ids p (running s) ++ ids p (w_queue s) = ids p (w_arrived s).
Proof. exact fifo_order. Qed.
Print Assumptions wpqueue_fifo_within_priority.

Theorem wpqueue_highest_priority_first :
  forall os h q, w_queue (wrun os) = h :: q ->
  w_workers (wstep (wrun os) OTake) = w_workers (wrun os) ++ [WRun h] /\
  Forall (fun e => q_pri e <= q_pri h) (w_queue (wrun os)).
Proof. exact take_highest. Qed.
Print Assumptions wpqueue_highest_priority_first.

Theorem wpqueue_no_lost_wakeup :
  forall os, let s := wrun os in
  w_queue s <> [] -> w_repoll s = false -> w_workers s = [] ->
  exists h q, w_queue s = h :: q /\ w_held s = Some (q_msg h).
Proof. exact no_lost_wakeup. Qed.
Print Assumptions wpqueue_no_lost_wakeup.

Theorem wpqueue_poll_accept_removes :
  forall autocatch receive h q tick,
  fst (receive (q_msg h)) = ACCEPT -> (autocatch = true \/ snd (receive (q_msg h)) = true) ->
  map ident (do_poll autocatch receive (h :: q) tick) = map ident q.
Proof. exact do_poll_accept. Qed.
Print Assumptions wpqueue_poll_accept_removes.

Theorem wpqueue_poll_requeue :
  forall autocatch receive h q tick, sortedr (h :: q) ->
  fst (receive (q_msg h)) = REQUEUE -> (autocatch = true \/ snd (receive (q_msg h)) = true) ->
  map ident (do_poll autocatch receive (h :: q) tick) = map ident (stable_insert h q).
Proof. exact do_poll_requeue. Qed.
Print Assumptions wpqueue_poll_requeue.

(** An accepted message stays queued (and is delivered again) when a polled work
    process without autoCatch transfers the reference away in receive(). *)
Theorem wpqueue_poll_accepted_once_refuted :
  exists receive h q tick, fst (receive (q_msg h)) = ACCEPT /\
    map ident (do_poll false receive (h :: q) tick) <> map ident q.
Proof.
  exact (ex_intro _ (fun _ => (ACCEPT, false))
    (ex_intro _ {| q_msg := 1; q_pri := 256; q_tick := 0 |} (ex_intro _ [] (ex_intro _ 5
      (conj eq_refl (fun H => eq_ind (map ident [{| q_msg := 1; q_pri := 256; q_tick := 0 |}])
         (fun l => match l with [] => False | _ => True end) I [] H)))))).
Qed.
Print Assumptions wpqueue_poll_accepted_once_refuted.

Definition demo_ops : list wop :=
  [OEnq 1 10 0; OEnq 2 20 1; OEnq 3 10 2; OTake; OEnq 4 20 3; OFinish 0 HOLD 4; OEnd 0 5; OEnq 5 15 5;
   OTake; OFinish 0 ACCEPT 6; OEnd 0 7].
Example demo_result :
  map q_msg (w_queue (wrun demo_ops)) = [4;5;1;3]%nat /\ map q_msg (w_done (wrun demo_ops)) = [2]%nat /\
  one_worker wpq_init demo_ops /\ Forall fifo_op demo_ops.
Proof. split; [reflexivity|]. split; [reflexivity|]. split; [cbn; tauto|]. repeat constructor. Qed.
Example held_ex : let s := wrun [OEnq 1 10 0; OTake; OFinish 0 HOLD 1; OEnd 0 2] in
  w_queue s <> [] /\ w_repoll s = false /\ w_workers s = [] /\ w_held s = Some 1%nat.
Proof. repeat split; discriminate. Qed.
