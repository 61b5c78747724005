(** Model of a work process message queue: OCTOPUSSY/src/WPInterface.cc.
    A queue entry (WPInterface.h:75-105) is a message (identified by a number),
    its priority and the tick at which it was queued. *)
From Verif Require Import Base.
Local Open Scope Z_scope.

Record entry := { q_msg : nat; q_pri : Z; q_tick : Z }.

(** WPInterface.cc:926-929: iterate while [iter->priority >= pri]; returns the
    part passed over and the rest. *)
Fixpoint span_ge (pri : Z) (q : list entry) : list entry * list entry :=
  match q with
  | [] => ([], [])
  | e :: q' => if q_pri e >=? pri then let '(a, b) := span_ge pri q' in (e :: a, b)
               else ([], q)
  end.
(** WPInterface.cc:1226-1229: iterate while [iter->priority > pri]. *)
Fixpoint span_gt (pri : Z) (q : list entry) : list entry * list entry :=
  match q with
  | [] => ([], [])
  | e :: q' => if q_pri e >? pri then let '(a, b) := span_gt pri q' in (e :: a, b)
               else ([], q)
  end.

(** WPInterface.cc:889-941.  Returns the new queue and whether the entry went
    to the head (in which case the repoll flag is raised).  The branch at
    931-937 returns without inserting. *)
Definition enqueue (q : list entry) (e : entry) : list entry * bool :=
  match q with
  | [] => ([e], true)                                            (* case A *)
  | h :: _ =>
      if q_pri e <=? q_pri (last q h) then (q ++ [e], false)     (* case B *)
      else if q_pri e >? q_pri h then (e :: q, true)             (* case C *)
      else let '(a, b) := span_ge (q_pri e) q in                 (* case D *)
           match a with
           | [] => (q, true)
           | _ => (a ++ e :: b, false)
           end
  end.

(** WPInterface.cc:1221-1244 *)
Definition enqueueFront (q : list entry) (e : entry) : list entry :=
  let '(a, b) := span_gt (q_pri e) q in a ++ e :: b.

(** Result codes, Message.h:87-89 *)
Inductive rcode := ACCEPT | HOLD | REQUEUE.

(** What a worker thread inside deliver() (WPInterface.cc:140-290) is doing:
    [WRun e]: after line 182, processing entry [e] without holding the lock;
    [WEnd old]: after the re-queueing at 241-266, before the relock at 267;
    [old] is [old_msg] (None for ACCEPT). *)
Inductive wstate := WRun (e : entry) | WEnd (old : option nat).

Record wpq := {
  w_queue : list entry;
  w_repoll : bool;
  w_workers : list wstate;
  (* ghost history *)
  w_arrived : list entry;    (* messages enqueued by senders, in order *)
  w_done : list entry;       (* messages accepted, in order of completion *)
  w_removed : list entry;    (* messages removed by dequeue() *)
  w_held : option nat        (* message whose HOLD was the last event at the head *)
}.
Definition wpq_init : wpq :=
  {| w_queue := []; w_repoll := false; w_workers := []; w_arrived := []; w_done := [];
     w_removed := []; w_held := None |}.

Inductive wop :=
| OEnq (m : nat) (pri tick : Z)    (* enqueue() by a sender, default flags *)
| OTake                            (* deliver(), lines 143-182 *)
| OFinish (i : nat) (r : rcode) (tick : Z)    (* lines 241-266, by worker i *)
| OEnd (i : nat) (tick : Z)                   (* lines 267-285, by worker i *)
| ODequeue (sel : nat -> bool).    (* dequeue(id,0), WPInterface.cc:944-970 *)

Fixpoint remove_nth {A} (i : nat) (l : list A) : list A :=
  match i, l with
  | O, _ :: l' => l'
  | S i', a :: l' => a :: remove_nth i' l'
  | _, [] => []
  end.
Fixpoint set_nth {A} (i : nat) (x : A) (l : list A) : list A :=
  match i, l with
  | O, _ :: l' => x :: l'
  | S i', a :: l' => a :: set_nth i' x l'
  | _, [] => []
  end.

Definition set_tick (t : Z) (e : entry) : entry :=
  {| q_msg := q_msg e; q_pri := q_pri e; q_tick := t |}.

Definition wstep (s : wpq) (o : wop) : wpq :=
  match o with
  | OEnq m pri tick =>
      let e := {| q_msg := m; q_pri := pri; q_tick := tick |} in
      let '(q, top) := enqueue (w_queue s) e in
      {| w_queue := q; w_repoll := w_repoll s || top; w_workers := w_workers s;
         w_arrived := w_arrived s ++ [e]; w_done := w_done s; w_removed := w_removed s;
         w_held := w_held s |}
  | OTake =>
      match w_queue s with
      | [] => {| w_queue := []; w_repoll := false; w_workers := w_workers s;
                 w_arrived := w_arrived s; w_done := w_done s; w_removed := w_removed s;
                 w_held := w_held s |}
      | e :: q => {| w_queue := q; w_repoll := false; w_workers := w_workers s ++ [WRun e];
                     w_arrived := w_arrived s; w_done := w_done s; w_removed := w_removed s;
                     w_held := w_held s |}
      end
  | OFinish i r tick =>
      match nth_error (w_workers s) i with
      | Some (WRun e) =>
          match r with
          | ACCEPT =>
              {| w_queue := w_queue s; w_repoll := w_repoll s;
                 w_workers := set_nth i (WEnd None) (w_workers s);
                 w_arrived := w_arrived s; w_done := w_done s ++ [e]; w_removed := w_removed s;
                 w_held := w_held s |}
          | HOLD =>
              {| w_queue := enqueueFront (w_queue s) (set_tick tick e); w_repoll := w_repoll s;
                 w_workers := set_nth i (WEnd (Some (q_msg e))) (w_workers s);
                 w_arrived := w_arrived s; w_done := w_done s; w_removed := w_removed s;
                 w_held := w_held s |}
          | REQUEUE =>
              let '(q, top) := enqueue (w_queue s) (set_tick tick e) in
              {| w_queue := q; w_repoll := w_repoll s || top;
                 w_workers := set_nth i (WEnd (Some (q_msg e))) (w_workers s);
                 w_arrived := w_arrived s; w_done := w_done s; w_removed := w_removed s;
                 w_held := w_held s |}
          end
      | _ => s
      end
  | OEnd i tick =>
      match nth_error (w_workers s) i with
      | Some (WEnd old) =>
          match w_queue s with
          | [] => {| w_queue := []; w_repoll := w_repoll s; w_workers := remove_nth i (w_workers s);
                     w_arrived := w_arrived s; w_done := w_done s; w_removed := w_removed s;
                     w_held := w_held s |}
          | h :: q =>
              let same := match old with Some m => Nat.eqb (q_msg h) m | None => false end in
              {| w_queue := set_tick tick h :: q;
                 w_repoll := if same then w_repoll s else true;
                 w_workers := remove_nth i (w_workers s);
                 w_arrived := w_arrived s; w_done := w_done s; w_removed := w_removed s;
                 w_held := if same then Some (q_msg h) else w_held s |}
          end
      | _ => s
      end
  | ODequeue sel =>
      (* [erased_head] is initialised to true at line 947, so the flag is raised
         whenever something is left *)
      let q := filter (fun e => negb (sel (q_msg e))) (w_queue s) in
      {| w_queue := q;
         w_repoll := match q with [] => w_repoll s | _ => true end;
         w_workers := w_workers s;
         w_arrived := w_arrived s; w_done := w_done s;
         w_removed := w_removed s ++ filter (fun e => sel (q_msg e)) (w_queue s);
         w_held := w_held s |}
  end.

Definition wrun (os : list wop) : wpq := fold_left wstep os wpq_init.

Definition running (s : wpq) : list entry :=
  flat_map (fun w => match w with WRun e => [e] | WEnd _ => [] end) (w_workers s).

(** ** Polled (single-threaded) delivery: do_poll, WPInterface.cc:656-868,
    regular message branch, from line 790 on.  [receive] is the work process'
    virtual receive(): it returns a result code and says whether it left the
    reference it was passed valid (it may transfer it away).  With autoCatch()
    set, receive() is given a second reference (lines 797, 801), so the local one
    always stays valid. *)
Fixpoint erase_msg (m : nat) (q : list entry) : list entry :=
  match q with
  | [] => []
  | e :: q' => if Nat.eqb (q_msg e) m then q' else e :: erase_msg m q'
  end.
(** lines 820-826: entries are compared with [mref]; if [mref] was invalidated only
    an entry with an invalid reference would match, and queued entries are valid *)
Definition do_poll (autocatch : bool) (receive : nat -> rcode * bool) (q : list entry) (tick : Z)
  : list entry :=
  match q with
  | [] => []
  | h :: _ =>
      let '(r, left_valid) := receive (q_msg h) in
      let mref_valid := autocatch || left_valid in
      let erased := if mref_valid then erase_msg (q_msg h) q else q in
      let settick l := match l with [] => [] | x :: l' => set_tick tick x :: l' end in
      match r with
      | ACCEPT => settick erased
      | HOLD => q
      | REQUEUE => settick (fst (enqueue erased (set_tick tick h)))
      end
  end.
