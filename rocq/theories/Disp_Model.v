(** Model of OCTOPUSSY/src/Dispatcher.cc (message routing and the polling loop),
    together with WPInterface::do_poll as seen by the loop and
    GatewayWP::willForward.
    Not modelled: timeouts, file inputs and signals, delayed detach, nested polls
    (queueLocked() is false), the int arithmetic of getPollPriority overflowing. *)
From Verif Require Import Base Bytes_Model Hiid_Model Subs_Model Wpq_Model.
Local Open Scope Z_scope.

(** Message.h: the fields the router reads.  [m_to] is class, instance, process,
    host (MsgAddress.h:57-105). *)
Record msg := { m_num : nat; m_id : hiid; m_from : hiid; m_pri : Z; m_hops : Z; m_forwarder : hiid }.
Record addr := { a_class : aid; a_inst : aid; a_proc : aid; a_host : aid }.
Definition addr_hiid (a : addr) : hiid := [a_class a; a_inst a; a_proc a; a_host a].

(** GatewayWP.h: what willForward() reads.  [g_remote]: remote_subs. *)
Record gateway := { g_connected : bool; g_rproc : aid; g_rhost : aid; g_remote : list (hiid * subs) }.

(** A work process attached to the dispatcher: map<WPID,WPRef> wps and
    map<WPID,WPInterface*> gateways, Dispatcher.h *)
Record dwp := { d_addr : addr; d_subs : subs; d_gate : option gateway;
                d_queue : list entry; d_repoll : bool }.
Record dstate := { ds_tick : Z; ds_repoll : bool; ds_wps : list dwp }.

(** The atoms AidPublish and MsgGWServerOpen (AID-OCTOPUSSY, generated at build
    time) are parameters. *)
Record aids := { AidPublish : aid; MsgGWServerOpen : hiid }.

(** Dispatcher.h:308-309 *)
Definition wildcardAddr (c : aids) (a : aid) : bool := (a =? AidPublish c) || (a =? AidAny).

(** GatewayWP.cc:140-204 *)
Definition willForward (c : aids) (self : addr) (g : gateway) (m : msg) (to : addr) : bool :=
  if negb (g_connected g) then false
  else
    let pass :=
      if hiid_matches (m_id m) (MsgGWServerOpen c ++ [AidWildcard])
      then negb (hiid_eqb (m_forwarder m) (addr_hiid self)) && negb (m_hops m >? 3)
      else negb (m_hops m >? 0) in
    if negb pass then false
    else if negb (aid_matches (g_rproc g) (a_proc to)) || negb (aid_matches (g_rhost g) (a_host to))
    then false
    else if a_class to =? AidPublish c
    then existsb (fun r => subs_matches (snd r) (m_id m) (m_from m)) (g_remote g)
    else existsb (fun r => hiid_matches (fst r) (addr_hiid to)) (g_remote g).

(** WPInterface.cc:889-941 applied to a work process.  The result is the sign of
    the return value: the priority if placed at the head, -1 otherwise. *)
Definition enq_wp (w : dwp) (e : entry) : dwp * bool :=
  let '(q, top) := enqueue (d_queue w) e in
  ({| d_addr := d_addr w; d_subs := d_subs w; d_gate := d_gate w; d_queue := q;
      d_repoll := d_repoll w || top |}, top && (0 <=? q_pri e)).

Fixpoint upd {A} (i : nat) (f : A -> A) (l : list A) : list A :=
  match i, l with
  | O, x :: l' => f x :: l'
  | S i', x :: l' => x :: upd i' f l'
  | _, [] => []
  end.

(** Dispatcher.cc:1040-1065, for polled work processes *)
Definition ds_enqueue (s : dstate) (i : nat) (num : nat) (pri : Z) : dstate :=
  let e := {| q_msg := num; q_pri := pri; q_tick := ds_tick s |} in
  {| ds_tick := ds_tick s;
     ds_repoll := ds_repoll s ||
       match nth_error (ds_wps s) i with Some w => snd (enq_wp w e) | None => false end;
     ds_wps := upd i (fun w => fst (enq_wp w e)) (ds_wps s) |}.

(** Dispatcher.cc:377-413: indices of the local recipients, in the order of the map *)
Definition key_eqb (w : dwp) (to : addr) : bool :=
  (a_class (d_addr w) =? a_class to) && (a_inst (d_addr w) =? a_inst to).
Fixpoint find_from (f : dwp -> bool) (i : nat) (l : list dwp) : option nat :=
  match l with [] => None | w :: l' => if f w then Some i else find_from f (S i) l' end.
Fixpoint select_from (f : dwp -> bool) (i : nat) (l : list dwp) : list nat :=
  match l with [] => [] | w :: l' => (if f w then [i] else []) ++ select_from f (S i) l' end.
Definition local_recipients (c : aids) (self : addr) (s : dstate) (m : msg) (to : addr) : list nat :=
  if aid_matches (a_host to) (a_host self) && aid_matches (a_proc to) (a_proc self) then
    if negb (wildcardAddr c (a_class to)) && negb (wildcardAddr c (a_inst to)) then
      match find_from (fun w => key_eqb w to) 0 (ds_wps s) with Some i => [i] | None => [] end
    else
      select_from (fun w =>
        if aid_matches (a_class to) (a_class (d_addr w)) && aid_matches (a_inst to) (a_inst (d_addr w))
        then true
        else (a_class to =? AidPublish c) && subs_matches (d_subs w) (m_id m) (m_from m)) 0 (ds_wps s)
  else [].
(** Dispatcher.cc:415-425 *)
Definition gateway_recipients (c : aids) (self : addr) (s : dstate) (m : msg) (to : addr) : list nat :=
  if negb (a_host to =? a_host self) || negb (a_proc to =? a_proc self) then
    select_from (fun w => match d_gate w with
                          | Some g => willForward c (d_addr w) g m to
                          | None => false end) 0 (ds_wps s)
  else [].
(** Dispatcher.cc:364-433.  Returns the new state and ndeliver. *)
Definition ds_send (c : aids) (self : addr) (s : dstate) (m : msg) (to : addr) : dstate * nat :=
  let r := local_recipients c self s m to ++ gateway_recipients c self s m to in
  (fold_left (fun s' i => ds_enqueue s' i (m_num m) (m_pri m)) r s, length r).

(** WPInterface.cc:632-653 *)
Definition getPollPriority (w : dwp) (tick : Z) : Z :=
  if d_repoll w then
    match d_queue w with
    | [] => -1
    | h :: _ => Z.max (q_pri h) 0 + (tick - q_tick h)
    end
  else -1.

(** Dispatcher.cc:482-500: (maxpri, maxwp, num_repoll) *)
Fixpoint scan (tick : Z) (i : nat) (l : list dwp) (acc : Z * option nat * nat) : Z * option nat * nat :=
  match l with
  | [] => acc
  | w :: l' =>
      let '(maxpri, maxwp, n) := acc in
      let pri := getPollPriority w tick in
      scan tick (S i) l'
        (if 0 <=? pri then
           if pri >=? maxpri then (pri, Some i, S n) else (maxpri, maxwp, S n)
         else acc)
  end.
Definition choose (s : dstate) : option nat * nat :=
  let '(_, w, n) := scan (ds_tick s + 1) 0 (ds_wps s) (-1, None, 0%nat) in (w, n).

(** What the chosen work process does when polled: [o_poll] is the value returned by
    its poll() (WPInterface.cc:661-674), [o_sends] the messages queued while receive()
    runs, [o_code] its result, [o_valid] whether it left the reference valid. *)
Record outcome := { o_poll : bool; o_sends : list (nat * nat * Z); o_code : rcode; o_valid : bool }.

Definition with_queue (w : dwp) (q : list entry) (rp : bool) : dwp :=
  {| d_addr := d_addr w; d_subs := d_subs w; d_gate := d_gate w; d_queue := q; d_repoll := rp |}.
Definition head_tick (t : Z) (q : list entry) : list entry :=
  match q with [] => [] | h :: q' => set_tick t h :: q' end.

(** WPInterface.cc:813-866: after the message [h] was handled *)
Definition finish_poll (h : entry) (tick : Z) (o : outcome) (w : dwp) : dwp :=
  let erased := if o_valid o then erase_msg (q_msg h) (d_queue w) else d_queue w in
  match o_code o with
  | ACCEPT => match erased with
              | [] => with_queue w [] (d_repoll w)
              | _ => with_queue w (head_tick tick erased) true
              end
  | HOLD => w
  | REQUEUE =>
      let q := head_tick tick (fst (enqueue erased (set_tick tick h))) in
      let changed := match q with [] => false | x :: _ => negb (Nat.eqb (q_msg x) (q_msg h)) end in
      with_queue w q (d_repoll w || changed)
  end.

Definition ds_sends (s : dstate) (l : list (nat * nat * Z)) : dstate :=
  fold_left (fun s' x => let '(i, num, pri) := x in ds_enqueue s' i num pri) l s.

(** One iteration of the loop of Dispatcher::poll, Dispatcher.cc:475-528 *)
Definition ds_poll (s : dstate) (o : outcome) : dstate :=
  let t := ds_tick s + 1 in
  let '(sel, n) := choose s in
  let s1 := {| ds_tick := t; ds_repoll := Nat.ltb 1 n; ds_wps := ds_wps s |} in
  match sel with
  | None => s1
  | Some i =>
      match nth_error (ds_wps s) i with
      | Some w =>
          match d_queue w with
          | [] => s1
          | h :: _ =>
              let s2 := {| ds_tick := t; ds_repoll := ds_repoll s1;
                           ds_wps := upd i (fun w => with_queue w (d_queue w) (o_poll o)) (ds_wps s1) |} in
              let s3 := ds_sends s2 (o_sends o) in
              let wps := upd i (finish_poll h t o) (ds_wps s3) in
              {| ds_tick := t;
                 ds_repoll := ds_repoll s3 ||
                   match nth_error wps i with Some w' => d_repoll w' | None => false end;
                 ds_wps := wps |}
          end
      | None => s1
      end
  end.

(** Histories: polls, and messages queued between polls (by other threads or by
    event handling). *)
Inductive dop := DPoll (o : outcome) | DSend (i num : nat) (pri : Z).
Definition dstep (s : dstate) (x : dop) : dstate :=
  match x with DPoll o => ds_poll s o | DSend i num pri => ds_enqueue s i num pri end.
