(** What is said about the queue channel: in terms of what its client sees and of the calls
    of the remote channel. *)
From Verif Require Import Base Mtq_Model.

(** The call that the client is in, and the calls that are over, with what they came to *)
Definition scan1 (a : option call * list (call * outcome)) (l : label) :=
  match l with
  | LCall c => (Some c, snd a)
  | LRet o => (None, snd a ++ match fst a with Some c => [(c, o)] | None => [] end)
  | _ => a
  end.
Definition scan (tr : list label) := fold_left scan1 tr (None, []).
Definition in_call (tr : list label) : option call := fst (scan tr).
Definition finished (tr : list label) : list (call * outcome) := snd (scan tr).

(** The events that postEvent has accepted *)
Definition accepted (tr : list label) : list qevent :=
  flat_map (fun co => match co with (CallPost e, Posted) => [e] | _ => [] end) (finished tr).

(** The events that getEvent has returned *)
Definition delivered (tr : list label) : list qevent :=
  flat_map (fun co => match co with (CallGet _ _, Got e) => [e] | _ => [] end) (finished tr).

(** The errors that the client has had *)
Definition thrown (tr : list label) : list nat :=
  flat_map (fun co => match co with (_, Threw es) => es | _ => [] end) (finished tr).

(** The events posted on the remote channel *)
Definition sent (tr : list label) : list qevent :=
  flat_map (fun l => match l with LRPost e _ _ => [e] | _ => [] end) tr.

(** The events that the remote channel has given *)
Definition received (tr : list label) : list qevent :=
  flat_map (fun l => match l with LRGet (REvent e) _ => [e] | _ => [] end) tr.

(** The errors of the remote channel *)
Definition raised (tr : list label) : list nat :=
  flat_map (fun l => match l with
                     | LRInit (RThrow x) _ | LRPost _ (RThrow x) _ | LRGet (RThrow x) _ => [x]
                     | _ => []
                     end) tr.

Definition prefix {A} (l l' : list A) : Prop := exists k, l' = l ++ k.

(** The client asks for the channel to be closed *)
Definition closes (l : label) : bool :=
  match l with LCall CallClose | LCall CallAbort => true | _ => false end.

(** The remote channel turns out to be closed *)
Definition ends (l : label) : bool :=
  match l with
  | LRInit _ true | LRPost _ _ true | LRGet _ true => true
  | _ => false
  end.

(** The remote channel has closed, by itself or because it was asked to *)
Definition shut (tr : list label) : Prop :=
  exists l, In l tr /\ (ends l = true \/ l = LRClose \/ l = LRAbort).

(** Nothing has been closed *)
Definition all_open (tr : list label) : Prop :=
  forall l, In l tr -> closes l = false /\ ends l = false.

(** The client only looks for events *)
Definition only_reads (tr : list label) : Prop :=
  forall c, In (LCall c) tr ->
    match c with CallGet _ _ | CallHas _ => True | _ => False end.

(** A call of the remote channel *)
Definition remote_call (l : label) : bool :=
  match l with
  | LRInit _ _ | LRPost _ _ _ | LRGet _ _ | LRClose | LRAbort => true
  | _ => false
  end.

(** Something that is not due to the two threads themselves *)
Definition outside (l : label) : bool :=
  match l with LCall _ | LRaise | LSpurious => true | _ => false end.

(** Both threads wait *)
Definition blocked (qs : nat) (s : mstate) : Prop :=
  forall l s', mstep qs s l s' -> outside l = true.

(** The client is in a call that never comes to an end, whatever happens *)
Definition hangs (qs : nat) (s : mstate) : Prop :=
  forall tr s' o, mrun qs s tr s' -> ~ In (LRet o) tr.

(** The call closes the channel: so do all calls that find the remote channel closed *)
Definition closed_by (c : call) (o : outcome) : Prop :=
  o = IsClosed \/ c = CallClose \/ c = CallAbort.

(** What a call comes to when the channel has been closed before *)
Definition answer (c : call) : outcome :=
  match c with CallPost _ | CallGet _ _ | CallHas _ => IsClosed | _ => Returned end.

(** Nothing happens outside of the two threads, and the remote channel has neither events
    nor errors *)
Definition quiet1 (l : label) : bool :=
  negb (outside l) &&
  match l with
  | LRInit (RThrow _) _ | LRPost _ (RThrow _) _ => false
  | LRGet RWait _ => true
  | LRGet _ _ => false
  | _ => true
  end.
Definition quiet (tr : list label) : Prop := forall l, In l tr -> quiet1 l = true.
