(** Model of the queue channel: AppAgent/AppAgent/src/MTQueueChannel.{h,cc}, with the parts
    of EventChannel.cc and EventFlag.cc that it uses.

    A client thread calls the methods of the channel; a worker thread, started by init(),
    exchanges events with another channel, the remote one.  The two share two queues, a
    queue of errors and some flags; the mutex and the condition variable are those of the
    event flag.  The model is a machine with the two threads' program counters.  Every step
    is a piece of code of one thread between two points at which the other thread's doings
    can matter: a lock taken or released, a wait, a look at a variable that the other side
    changes without the lock ([state()], [aborted_]).

    Simplifications.
    - One client thread.  The methods solicitEvent and isEventBound are left out: they
      only lock and call the remote channel.
    - The mutex is recursive (Mutex.h:294-297, 313-320); nested locking in raiseEventFlag() is
      not shown.  The bits of the flag are not modelled: this class only ever sets them;
      what counts is the broadcast (EventFlag.cc:70-76).
    - The remote channel is anything that answers its init, postEvent and getEvent calls,
      where each of the calls may find it closed afterwards; close() and abort() close it
      and do not throw.
    - The machine starts when init() has created the worker; a second init() is not
      modelled.  (The constructor MTQueueChannel.cc:49-54 leaves [aborted_] unset; the
      model is of the other, the one that VisDataMux.cc:123,155 uses.)
    - The recording of events and the texts of states are left out. *)
From Verif Require Import Base Hiid_Model.
From Coq Require Import PeanoNat.

(** MTQueueChannel.h:169-175 *)
Record qevent := mkQevent {
  e_id : list Z;
  e_addr : list Z;
  e_category : Z;
  e_data : nat           (* the object, by its identity *)
}.

(** The calls of a client *)
Inductive call :=
| CallPost (e : qevent)
| CallGet (mask : list Z) (wait : Z)
| CallHas (mask : list Z)
| CallFlush
| CallClose
| CallAbort.

(** EventChannel.h:45-58 *)
Definition WAIT : Z := 0.
Definition NOWAIT : Z := (-1)%Z.
Definition BLOCK : Z := 1.

(** What a call comes to *)
Inductive outcome :=
| Posted                     (* postEvent has put the event on the queue *)
| Got (e : qevent)           (* getEvent: SUCCESS *)
| HasIt                      (* hasEvent: SUCCESS *)
| MustWait                   (* WAIT *)
| OutOfSeq                   (* OUTOFSEQ *)
| IsClosed                   (* CLOSED; or postEvent has found the remote channel closed *)
| Returned                   (* flush, close, abort *)
| Threw (es : list nat).     (* an exception with these errors *)

(** Answers of the remote channel: whether it is closed afterwards, and *)
Inductive reply :=
| ROk                        (* init, postEvent: returned *)
| REvent (e : qevent)        (* getEvent: SUCCESS *)
| RWait                      (* getEvent: WAIT *)
| RCode                      (* getEvent: any other code *)
| RThrow (x : nat).          (* threw the error *)

(** The worker: where it is in runWorker *)
Inductive wpc :=
| WInit                      (* 99, lock not taken yet *)
| WTop                       (* 112 *)
| WErr                       (* 115 *)
| WErr1                      (* 118 *)
| WErr2                      (* 120 *)
| WErrW                      (* 122 *)
| WPost                      (* 125 *)
| WPost1                     (* 128 *)
| WPost2                     (* 130 *)
| WPosting (e : qevent)      (* 146, without the lock *)
| WRelock (x : option nat)   (* 150, 155, without the lock *)
| WClear                     (* 158 *)
| WFullW                     (* 163 *)
| WState                     (* 169 *)
| WState2                    (* 171 *)
| WDrain                     (* 173 *)
| WDrainW                    (* 174 *)
| WGet                       (* 182 *)
| WAfter (wait : bool)       (* 202 *)
| WAfter2 (wait : bool)      (* 204 *)
| WIdleW                     (* 208 *)
| WExit                      (* 211 *)
| WDone.

(** The client.  [CLock k] is about to take the lock, [CReady k] has it and waits for the
    remote channel to be initialised. *)
Inductive task :=
| TPost (e : qevent)
| TGet (mask : list Z) (wait : Z)
| THas (mask : list Z)
| TFlush (k : option call)   (* flush(), called by the client or by close() *)
| TClose (k : call).         (* the second half of close(), called for the call [k] *)

Inductive cpc :=
| CIdle
| CLock (t : task)           (* 219, 256, 294, 325, 364 *)
| CReady (t : task)          (* MTQueueChannel.h:150-154 *)
| CReadyW (t : task)
| CRun (t : task)            (* after assureRemoteInit() *)
| CPostB (e : qevent)        (* 229 *)
| CPostW (e : qevent)        (* 230 *)
| CGetB (mask : list Z)      (* 271 *)
| CGetW (mask : list Z)      (* 272 *)
| CGetC (mask : list Z)      (* 277 *)
| CFlushW (k : option call)  (* 367 *)
| CClose0 (k : call)         (* 317, without the lock *)
| CClose3 (k : call)         (* 331 *)
| CClose3W (k : call)        (* 332 *)
| CJoin (k : call).          (* 335, without the lock *)

Inductive tid := Worker | Client.

Record mstate := mkM {
  s_post : list qevent;      (* post_queue_ *)
  s_get : list qevent;       (* get_queue_ *)
  s_err : list nat;          (* err_queue_ *)
  s_owner : option tid;      (* who has the lock *)
  s_closed : bool;           (* state() == CLOSED *)
  s_aborted : bool;          (* aborted_ *)
  s_rinit : bool;            (* remote_initialized_ *)
  s_rclosed : bool;          (* remote().state() == CLOSED *)
  s_thread : bool;           (* remote_thread_ != 0 *)
  s_w : wpc;
  s_wsleep : bool;           (* the worker waits and has not been woken *)
  s_c : cpc;
  s_csleep : bool
}.

(** MTQueueChannel.cc:67-91: the state in which init() leaves the channel.  The remote
    channel is closed until its own init() has run (EventChannel.cc:43-46). *)
Definition minit : mstate :=
  mkM [] [] [] None false false false true true WInit false CIdle false.

(** What can be seen from outside *)
Inductive label :=
| LTau
| LCall (c : call)
| LRet (o : outcome)
| LRInit (r : reply) (closed : bool)           (* remote().init() *)
| LRPost (e : qevent) (r : reply) (closed : bool)
| LRGet (r : reply) (closed : bool)
| LRClose                                      (* remote().close() *)
| LRAbort                                      (* remote().abort() *)
| LRaise                                       (* the remote channel raises the flag *)
| LSpurious.

Definition set_w (s : mstate) (w : wpc) : mstate :=
  mkM (s_post s) (s_get s) (s_err s) (s_owner s) (s_closed s) (s_aborted s) (s_rinit s)
      (s_rclosed s) (s_thread s) w (s_wsleep s) (s_c s) (s_csleep s).
Definition set_c (s : mstate) (c : cpc) : mstate :=
  mkM (s_post s) (s_get s) (s_err s) (s_owner s) (s_closed s) (s_aborted s) (s_rinit s)
      (s_rclosed s) (s_thread s) (s_w s) (s_wsleep s) c (s_csleep s).
Definition set_owner (s : mstate) (o : option tid) : mstate :=
  mkM (s_post s) (s_get s) (s_err s) o (s_closed s) (s_aborted s) (s_rinit s)
      (s_rclosed s) (s_thread s) (s_w s) (s_wsleep s) (s_c s) (s_csleep s).
Definition set_post (s : mstate) (q : list qevent) : mstate :=
  mkM q (s_get s) (s_err s) (s_owner s) (s_closed s) (s_aborted s) (s_rinit s)
      (s_rclosed s) (s_thread s) (s_w s) (s_wsleep s) (s_c s) (s_csleep s).
Definition set_get (s : mstate) (q : list qevent) : mstate :=
  mkM (s_post s) q (s_err s) (s_owner s) (s_closed s) (s_aborted s) (s_rinit s)
      (s_rclosed s) (s_thread s) (s_w s) (s_wsleep s) (s_c s) (s_csleep s).
Definition set_err (s : mstate) (q : list nat) : mstate :=
  mkM (s_post s) (s_get s) q (s_owner s) (s_closed s) (s_aborted s) (s_rinit s)
      (s_rclosed s) (s_thread s) (s_w s) (s_wsleep s) (s_c s) (s_csleep s).
Definition set_rclosed (s : mstate) (b : bool) : mstate :=
  mkM (s_post s) (s_get s) (s_err s) (s_owner s) (s_closed s) (s_aborted s) (s_rinit s)
      b (s_thread s) (s_w s) (s_wsleep s) (s_c s) (s_csleep s).
Definition set_rinit (s : mstate) : mstate :=
  mkM (s_post s) (s_get s) (s_err s) (s_owner s) (s_closed s) (s_aborted s) true
      (s_rclosed s) (s_thread s) (s_w s) (s_wsleep s) (s_c s) (s_csleep s).
Definition set_closed (s : mstate) : mstate :=
  mkM (s_post s) (s_get s) (s_err s) (s_owner s) true (s_aborted s) (s_rinit s)
      (s_rclosed s) (s_thread s) (s_w s) (s_wsleep s) (s_c s) (s_csleep s).
Definition set_aborted (s : mstate) : mstate :=
  mkM (s_post s) (s_get s) (s_err s) (s_owner s) (s_closed s) true (s_rinit s)
      (s_rclosed s) (s_thread s) (s_w s) (s_wsleep s) (s_c s) (s_csleep s).
Definition end_thread (s : mstate) : mstate :=
  mkM (s_post s) (s_get s) (s_err s) (s_owner s) (s_closed s) (s_aborted s) (s_rinit s)
      (s_rclosed s) false (s_w s) (s_wsleep s) (s_c s) (s_csleep s).

(** Condition::broadcast, Condition.h:117-120; raiseEventFlag(), EventFlag.cc:70-76 *)
Definition broadcast (s : mstate) : mstate :=
  mkM (s_post s) (s_get s) (s_err s) (s_owner s) (s_closed s) (s_aborted s) (s_rinit s)
      (s_rclosed s) (s_thread s) (s_w s) false (s_c s) false.

(** Condition::wait, Condition.h:129-132: releases the lock and sleeps; at [w], if woken,
    the thread takes the lock again *)
Definition wsleep (s : mstate) (w : wpc) : mstate :=
  mkM (s_post s) (s_get s) (s_err s) None (s_closed s) (s_aborted s) (s_rinit s)
      (s_rclosed s) (s_thread s) w true (s_c s) (s_csleep s).
Definition csleep (s : mstate) (c : cpc) : mstate :=
  mkM (s_post s) (s_get s) (s_err s) None (s_closed s) (s_aborted s) (s_rinit s)
      (s_rclosed s) (s_thread s) (s_w s) (s_wsleep s) c true.

Definition isnil {A} (l : list A) : bool := match l with [] => true | _ => false end.

(** Code that needs the lock first: nothing happens while another thread has it, or while
    the thread sleeps *)
Definition wacquire (s : mstate) : option mstate :=
  if s_wsleep s then None
  else match s_owner s with None => Some (set_owner s (Some Worker)) | Some _ => None end.
Definition cacquire (s : mstate) : option mstate :=
  if s_csleep s then None
  else match s_owner s with None => Some (set_owner s (Some Client)) | Some _ => None end.

(** MTQueueChannel.cc:128-129, 169-170, 202-203 *)
Definition closeRemote (s : mstate) : label * mstate :=
  if s_closed s
  then ((if s_aborted s then LRAbort else LRClose), set_rclosed s true)
  else (LTau, s).

(** One step of the worker, MTQueueChannel.cc:93-213; [r] and [cl] are the answer of the
    remote channel and whether it is closed afterwards, for the steps that call it.  A
    channel that is closed is not opened again by a call. *)
Definition wstep (qs : nat) (r : reply) (cl : bool) (s : mstate) : option (label * mstate) :=
  match s_w s with
  (* 99-110 *)
  | WInit =>
      match wacquire s with
      | None => None
      | Some s =>
          let s := set_rclosed s cl in
          let s := match r with RThrow x => set_err s (s_err s ++ [x]) | _ => s end in
          Some (LRInit r cl, set_w (broadcast (set_rinit s)) WTop)
      end
  (* 112 *)
  | WTop =>
      if s_rclosed s && isnil (s_get s) then Some (LTau, set_w s WExit)
      else Some (LTau, set_w s WErr)
  (* 115 *)
  | WErr =>
      if isnil (s_err s) then Some (LTau, set_w s WPost) else Some (LTau, set_w s WErr1)
  (* 118-119 *)
  | WErr1 =>
      if s_closed s then Some (LRClose, set_w (set_rclosed s true) WErr2)
      else Some (LTau, set_w s WErr2)
  (* 120-122 *)
  | WErr2 =>
      if s_rclosed s then Some (LTau, set_w s WErr) else Some (LTau, wsleep s WErrW)
  | WErrW => match wacquire s with None => None | Some s => Some (LTau, set_w s WErr) end
  (* 125 *)
  | WPost =>
      if isnil (s_post s) then Some (LTau, set_w s WClear) else Some (LTau, set_w s WPost1)
  (* 128-129 *)
  | WPost1 => let (l, s) := closeRemote s in Some (l, set_w s WPost2)
  (* 130-143 *)
  | WPost2 =>
      if s_rclosed s then Some (LTau, set_w (set_post s []) WClear)
      else match s_post s with
           | [] => None
           | e :: q =>
               Some (LTau, set_w (set_owner (broadcast (set_post s q)) None) (WPosting e))
           end
  (* 144-149 *)
  | WPosting e =>
      Some (LRPost e r cl,
            set_w (set_rclosed s (s_rclosed s || cl))
                  (WRelock (match r with RThrow x => Some x | _ => None end)))
  (* 150-155 *)
  | WRelock x =>
      match wacquire s with
      | None => None
      | Some s =>
          Some (LTau,
                set_w (match x with
                       | None => s
                       | Some x => broadcast (set_err s (s_err s ++ [x]))
                       end) WPost)
      end
  (* 158-165 *)
  | WClear =>
      if Nat.leb qs (length (s_get s)) then Some (LTau, wsleep s WFullW)
      else Some (LTau, set_w s WState)
  | WFullW => match wacquire s with None => None | Some s => Some (LTau, set_w s WTop) end
  (* 169-170 *)
  | WState => let (l, s) := closeRemote s in Some (l, set_w s WState2)
  (* 171-176 *)
  | WState2 =>
      if s_rclosed s then Some (LTau, set_w s WDrain) else Some (LTau, set_w s WGet)
  | WDrain =>
      if isnil (s_get s) then Some (LTau, set_w s WTop) else Some (LTau, wsleep s WDrainW)
  | WDrainW => match wacquire s with None => None | Some s => Some (LTau, set_w s WDrain) end
  (* 180-200 *)
  | WGet =>
      let s := set_rclosed s (s_rclosed s || cl) in
      Some (LRGet r cl,
            match r with
            | RThrow x => set_w (broadcast (set_err s (s_err s ++ [x]))) WTop
            | REvent e => set_w (broadcast (set_get s (s_get s ++ [e]))) (WAfter false)
            | RWait => set_w s (WAfter true)
            | _ => set_w s (WAfter false)
            end)
  (* 202-203 *)
  | WAfter b => let (l, s) := closeRemote s in Some (l, set_w s (WAfter2 b))
  (* 204-208 *)
  | WAfter2 b =>
      if s_rclosed s then Some (LTau, set_w s WTop)
      else if b then Some (LTau, wsleep s WIdleW)
      else Some (LTau, set_w s WTop)
  | WIdleW => match wacquire s with None => None | Some s => Some (LTau, set_w s WTop) end
  (* 211-212 *)
  | WExit => Some (LTau, set_w (set_owner (broadcast s) None) WDone)
  | WDone => None
  end.

(** A method returns, or throws, and the destructor of [lock] releases the mutex *)
Definition ret (s : mstate) (o : outcome) : option (label * mstate) :=
  Some (LRet o, set_c (set_owner s None) CIdle).

(** MTQueueChannel.cc:242-251, called with errors in the queue *)
Definition throwErrors (s : mstate) : option (label * mstate) :=
  ret (broadcast (set_err s [])) (Threw (s_err s)).

(** MTQueueChannel.cc:280, 309: whether the event is one for the mask *)
Definition wanted (mask : list Z) (e : qevent) : bool :=
  isnil mask || hiid_matches mask (e_id e).

(** What close() returns to *)
Definition afterClose (k : call) : outcome :=
  match k with
  | CallPost _ => IsClosed       (* 224-225 *)
  | CallGet _ _ => IsClosed      (* 266-267 *)
  | CallHas _ => IsClosed        (* 303-304 *)
  | _ => Returned
  end.

(** The start of a method *)
Definition startCall (s : mstate) (c : call) : label * mstate :=
  match c with
  | CallPost e => (LCall c, set_c s (CLock (TPost e)))
  | CallGet m w => (LCall c, set_c s (CLock (TGet m w)))
  | CallHas m => (LCall c, set_c s (CLock (THas m)))
  | CallFlush => (LCall c, set_c s (CLock (TFlush None)))
  | CallClose => (LCall c, set_c s (CClose0 c))
  (* 341-345; EventChannel::abort() calls close(), EventChannel.cc:123-140 *)
  | CallAbort => (LCall c, set_c (set_aborted s) (CClose0 c))
  end.

(** One step of the client inside a method *)
Definition cstep (qs : nat) (s : mstate) : option (label * mstate) :=
  match s_c s with
  | CIdle => None
  | CLock t => match cacquire s with None => None | Some s => Some (LTau, set_c s (CReady t)) end
  (* MTQueueChannel.h:150-154 *)
  | CReady t =>
      if s_rinit s then Some (LTau, set_c s (CRun t)) else Some (LTau, csleep s (CReadyW t))
  | CReadyW t =>
      match cacquire s with None => None | Some s => Some (LTau, set_c s (CReady t)) end
  (* 221-227 *)
  | CRun (TPost e) =>
      if s_rclosed s then Some (LTau, set_c (set_owner s None) (CClose0 (CallPost e)))
      else if negb (isnil (s_err s)) then throwErrors s
      else Some (LTau, set_c s (CPostB e))
  (* 229-239 *)
  | CPostB e =>
      if Nat.leb qs (length (s_post s)) && isnil (s_err s) then Some (LTau, csleep s (CPostW e))
      else if negb (isnil (s_err s)) then throwErrors s
      else ret (broadcast (set_post s (s_post s ++ [e]))) Posted
  | CPostW e =>
      match cacquire s with None => None | Some s => Some (LTau, set_c s (CPostB e)) end
  (* 259-276 *)
  | CRun (TGet m w) =>
      if negb (isnil (s_err s)) then throwErrors s
      else if isnil (s_get s)
      then if s_rclosed s then Some (LTau, set_c (set_owner s None) (CClose0 (CallGet m w)))
           else if (w =? WAIT)%Z then Some (LTau, set_c s (CGetB m))
           else ret s MustWait
      else Some (LTau, set_c s (CGetC m))
  (* 271-272 *)
  | CGetB m =>
      if isnil (s_get s) && isnil (s_err s) then Some (LTau, csleep s (CGetW m))
      else Some (LTau, set_c s (CGetC m))
  | CGetW m =>
      match cacquire s with None => None | Some s => Some (LTau, set_c s (CGetB m)) end
  (* 277-289 *)
  | CGetC m =>
      if negb (isnil (s_err s)) then throwErrors s
      else match s_get s with
           | [] => None
           | e :: q =>
               if wanted m e then ret (set_get (broadcast s) q) (Got e)
               else ret s OutOfSeq
           end
  (* 296-312 *)
  | CRun (THas m) =>
      if negb (isnil (s_err s)) then throwErrors s
      else match s_get s with
           | [] =>
               if s_rclosed s then Some (LTau, set_c (set_owner s None) (CClose0 (CallHas m)))
               else ret s MustWait
           | e :: _ => if wanted m e then ret s HasIt else ret s OutOfSeq
           end
  (* 361-368 *)
  | CRun (TFlush k) =>
      if negb (s_aborted s) && negb (isnil (s_post s)) then Some (LTau, csleep s (CFlushW k))
      else match k with
           | None => ret s Returned
           | Some k => Some (LTau, set_c (set_owner s None) (CLock (TClose k)))
           end
  | CFlushW k =>
      match cacquire s with None => None | Some s => Some (LTau, set_c s (CRun (TFlush k))) end
  (* 317-323 *)
  | CClose0 k =>
      let s := set_closed s in
      if negb (s_thread s) then Some (LRet (afterClose k), set_c s CIdle)
      else if s_aborted s then Some (LTau, set_c s (CLock (TClose k)))
      else Some (LTau, set_c s (CLock (TFlush (Some k))))
  (* 325-330 *)
  | CRun (TClose k) =>
      Some (LTau, set_c (broadcast (set_post (set_get s []) [])) (CClose3 k))
  (* 331-333 *)
  | CClose3 k =>
      if s_rclosed s then Some (LTau, set_c (set_owner s None) (CJoin k))
      else Some (LTau, csleep s (CClose3W k))
  | CClose3W k =>
      match cacquire s with None => None | Some s => Some (LTau, set_c s (CClose3 k)) end
  (* 335-338; the errors are looked at without the lock *)
  | CJoin k =>
      match s_w s with
      | WDone =>
          let s := end_thread s in
          if negb (isnil (s_err s))
          then Some (LRet (Threw (s_err s)), set_c (broadcast (set_err s [])) CIdle)
          else Some (LRet (afterClose k), set_c s CIdle)
      | _ => None
      end
  end.

(** A client that is not in a method may call one at any time; the remote channel may
    raise the flag when nobody has the lock (EventFlag.cc:70-76); a waiting thread may wake
    up without reason. *)
Inductive mstep (qs : nat) : mstate -> label -> mstate -> Prop :=
| m_worker : forall r cl s l s', wstep qs r cl s = Some (l, s') -> mstep qs s l s'
| m_client : forall s l s', cstep qs s = Some (l, s') -> mstep qs s l s'
| m_call : forall s c, s_c s = CIdle -> mstep qs s (fst (startCall s c)) (snd (startCall s c))
| m_raise : forall s, s_owner s = None -> mstep qs s LRaise (broadcast s)
| m_wake_w : forall s, mstep qs s LSpurious
    (mkM (s_post s) (s_get s) (s_err s) (s_owner s) (s_closed s) (s_aborted s) (s_rinit s)
         (s_rclosed s) (s_thread s) (s_w s) false (s_c s) (s_csleep s))
| m_wake_c : forall s, mstep qs s LSpurious
    (mkM (s_post s) (s_get s) (s_err s) (s_owner s) (s_closed s) (s_aborted s) (s_rinit s)
         (s_rclosed s) (s_thread s) (s_w s) (s_wsleep s) (s_c s) false).

Inductive mrun (qs : nat) : mstate -> list label -> mstate -> Prop :=
| mr_nil : forall s, mrun qs s [] s
| mr_step : forall s tr s1 l s2,
    mrun qs s tr s1 -> mstep qs s1 l s2 -> mrun qs s (tr ++ [l]) s2.
