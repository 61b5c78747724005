(** Specification vocabulary for the theorems of Disp_Thms.v. *)
From Verif Require Import Base Bytes_Model Hiid_Model Hiid_Spec Subs_Model Wpq_Model Wpq_Spec Disp_Model.
Local Open Scope Z_scope.

(** ** Routing *)
(** an address of a real work process or dispatcher: no wildcards *)
Definition concrete (a : addr) (c : aids) : Prop :=
  forall x, In x (addr_hiid a) -> x <> AidAny /\ x <> AidWildcard.
(** a destination may use [AidAny] and [AidPublish] but not [AidWildcard] *)
Definition proper_dest (a : addr) : Prop := ~ In AidWildcard (addr_hiid a).
(** the process part of an address *)
Definition in_process (a self : addr) : Prop := a_proc a = a_proc self /\ a_host a = a_host self.

(** Who should get a message sent to [to]: work processes whose full address is
    matched by [to] as hierarchical ids, or for published messages those whose
    process is addressed and who subscribe. *)
Definition addressed (c : aids) (self : addr) (m : msg) (to : addr) (w : dwp) : bool :=
  hiid_matches (addr_hiid to) (addr_hiid (d_addr w)) ||
  ((a_class to =? AidPublish c) &&
   hiid_matches [a_proc to; a_host to] [a_proc self; a_host self] &&
   subs_matches (d_subs w) (m_id m) (m_from m)).
(** Which work processes forward it: gateways that say they will, unless the
    destination names exactly this process. *)
Definition forwarded (c : aids) (self : addr) (m : msg) (to : addr) (w : dwp) : bool :=
  negb (hiid_eqb [a_proc to; a_host to] [a_proc self; a_host self]) &&
  match d_gate w with Some g => willForward c (d_addr w) g m to | None => false end.
Definition copies (c : aids) (self : addr) (m : msg) (to : addr) (w : dwp) : nat :=
  ((if addressed c self m to w then 1 else 0) + (if forwarded c self m to w then 1 else 0))%nat.

(** the dispatcher's map has one entry per (class, instance), all in this process *)
Definition wf_dispatcher (c : aids) (self : addr) (s : dstate) : Prop :=
  concrete self c /\
  (forall w, In w (ds_wps s) -> concrete (d_addr w) c /\ in_process (d_addr w) self /\ sortedr (d_queue w) /\
             a_class (d_addr w) <> AidPublish c /\ a_inst (d_addr w) <> AidPublish c) /\
  NoDup (map (fun w => (a_class (d_addr w), a_inst (d_addr w))) (ds_wps s)).

(** a queue after [n] copies of a message arrive *)
Fixpoint insert_copies (n : nat) (e : entry) (q : list entry) : list entry :=
  match n with O => q | S n' => insert_copies n' e (stable_insert e q) end.

(** ** Polling *)
(** work process number [w] has a deliverable message: [h] heads its queue and it
    asks to be polled *)
Definition deliverable (s : dstate) (w : nat) (h : entry) : Prop :=
  exists x q, nth_error (ds_wps s) w = Some x /\ d_repoll x = true /\ d_queue x = h :: q.
(** priorities lie between 0 (PRI_LOWEST) and [M], ticks are not in the future *)
Definition ok_entry (M : Z) (s : dstate) (e : entry) : Prop := 0 <= q_pri e <= M /\ q_tick e <= ds_tick s.
Definition ok_state (M : Z) (s : dstate) : Prop :=
  forall x, In x (ds_wps s) -> sortedr (d_queue x) /\ Forall (ok_entry M s) (d_queue x).
(** a work process that holds a message does not also ask for an immediate repoll *)
Definition ok_op (M : Z) (x : dop) : Prop :=
  match x with
  | DPoll o => (o_poll o = true -> o_code o <> HOLD) /\
               Forall (fun y => 0 <= snd y <= M) (o_sends o)
  | DSend _ _ pri => 0 <= pri <= M
  end.
Definition is_poll (x : dop) : bool := match x with DPoll _ => true | _ => false end.
Definition polls (os : list dop) : nat := length (filter is_poll os).
(** no poll in the history goes to [w] *)
Fixpoint never_polled (w : nat) (s : dstate) (os : list dop) : Prop :=
  match os with
  | [] => True
  | x :: os' => (match x with DPoll _ => fst (choose s) <> Some w | _ => True end) /\
                never_polled w (dstep s x) os'
  end.
(** nothing sent to [w] has priority above [p] *)
Definition quiet_op (w : nat) (p : Z) (x : dop) : Prop :=
  match x with
  | DPoll o => Forall (fun y => fst (fst y) = w -> snd y <= p) (o_sends o)
  | DSend i _ pri => i = w -> pri <= p
  end.
(** the general bound: each time the head of the queue is overtaken by a more
    urgent message its age starts from zero again *)
Fixpoint overtakes (n k : nat) : nat :=
  match k with O => O | S k' => (k' + n + overtakes n k')%nat end.
