(** Model of the worker thread pool: MEQ/src/MTPool.h and MEQ/src/MTPool.cc.

    Simplified: every step is one critical section of the brigade's condition variable
    [cond()].  Starting, cancelling and joining of pthreads, timers, debug output and the work
    an order does are left out; [max_busy_], counters and depths are natural numbers.  The
    vector [workers_] is a list (its reallocation beyond 128 entries is not modelled). *)
From Verif Require Import Base.

(** AbstractWorkOrder, MTPool.h:57-79: the depth, and whatever else the order says *)
Record order {A} := mkorder { o_depth : nat; o_what : A }.
Arguments order : clear implicits.
Arguments mkorder {A} _ _.
(** Brigade, MTPool.h:222-249.  [q_nthr] is the vector [nthr_], [q_nlen] its size (entries
    beyond are never looked at). *)
Record pool {A} := { q_orders : list (order A); q_nthr : nat -> nat; q_nlen : nat; q_nidle : nat }.
Arguments pool : clear implicits.

Definition upd (f : nat -> nat) (d v : nat) : nat -> nat := fun e => if Nat.eqb e d then v else f e.

(** Brigade::Brigade, MTPool.cc:63-85: [nwork] idle threads, 100 zero counters *)
Definition pool_start {A} (nwork : nat) : pool A := {| q_orders := []; q_nthr := fun _ => 0; q_nlen := 100; q_nidle := nwork |}.

(** Brigade::join, MTPool.cc:88-107: note the test [nthr_.size() >= depth], which resizes the
    vector when it is long enough and not when it is too short.  Entries cut off by a resize
    are gone, entries added are 0. *)
Definition pool_join {A} (busy : bool) (d : nat) (p : pool A) : res (pool A) :=
  if busy then
    let n := if Nat.leb d (q_nlen p) then d + 100 else q_nlen p in
    let f := fun e => if Nat.ltb e n then q_nthr p e else 0 in
    if Nat.ltb d n then Ok {| q_orders := q_orders p; q_nthr := upd f d (S (f d)); q_nlen := n; q_nidle := q_nidle p |} else UB
  else Ok {| q_orders := q_orders p; q_nthr := q_nthr p; q_nlen := q_nlen p; q_nidle := S (q_nidle p) |}.

(** placeWorkOrder, MTPool.h:152-159: pushed in front, counters extended when needed *)
Definition pool_place {A} (o : order A) (p : pool A) : pool A :=
  {| q_orders := o :: q_orders p; q_nthr := q_nthr p;
     q_nlen := if Nat.leb (q_nlen p) (o_depth o) then o_depth o + 100 else q_nlen p; q_nidle := q_nidle p |}.

(** awakenWorker, MTPool.cc:139-172: what it does to the threads; for a new worker [nidle_] is
    also increased *)
Inductive awake := ANone | ASignal | ASpawn.
Definition pool_awaken {A} (m : nat) (p : pool A) : res (awake * pool A) :=
  match q_orders p with
  | [] => Ok (ANone, p)
  | o :: _ =>
      if Nat.leb (q_nlen p) (o_depth o) then UB
      else if Nat.leb m (q_nthr p (o_depth o)) then Ok (ANone, p)
      else if Nat.eqb (q_nidle p) 0 then
        Ok (ASpawn, {| q_orders := q_orders p; q_nthr := q_nthr p; q_nlen := q_nlen p; q_nidle := S (q_nidle p) |})
      else Ok (ASignal, p)
  end.

(** one pass through the loop of getWorkOrder, MTPool.cc:206-284, up to a return or a
    [cond().wait()]; [busy] says that the calling thread's state is BUSY.
    - [LTook]    the head of the queue is returned; the thread is BUSY;
    - [LNothing] 0 is returned; the state of the thread is unchanged;
    - [LSleep]   the thread waits on [cond()]; its state is IDLE. *)
Inductive looked {A} := LTook (o : order A) (a : awake) (p : pool A) | LNothing | LSleep (p : pool A).
Arguments looked : clear implicits.
Definition idle_more {A} (p : pool A) : pool A :=
  {| q_orders := q_orders p; q_nthr := q_nthr p; q_nlen := q_nlen p; q_nidle := S (q_nidle p) |}.
Definition pool_take {A} (m : nat) (o : order A) (q : list (order A)) (nidle : nat) (p : pool A) : res (looked A) :=
  bind (pool_awaken m {| q_orders := q; q_nthr := upd (q_nthr p) (o_depth o) (S (q_nthr p (o_depth o))); q_nlen := q_nlen p; q_nidle := nidle |})
    (fun ap => Ok (LTook o (fst ap) (snd ap))).
Definition pool_look {A} (m : nat) (busy wait : bool) (mindepth : nat) (p : pool A) : res (looked A) :=
  match q_orders p with
  | [] => Ok (if wait then LSleep (if busy then idle_more p else p) else LNothing)
  | o :: q =>
      if Nat.ltb (o_depth o) mindepth then Ok LNothing
      else if Nat.leb (q_nlen p) (o_depth o) then UB
      else if busy then
        if Nat.ltb m (q_nthr p (o_depth o)) then Ok (if wait then LSleep (idle_more p) else LNothing)
        else pool_take m o q (q_nidle p) p
      else
        if Nat.leb m (q_nthr p (o_depth o)) then Ok (if wait then LSleep p else LNothing)
        else pool_take m o q (q_nidle p - 1) p
  end.

(** finishWithWorkOrder, MTPool.cc:286-296 *)
Definition pool_finish {A} (d : nat) (p : pool A) : res (pool A) :=
  if Nat.leb (q_nlen p) d then UB
  else Ok {| q_orders := q_orders p; q_nthr := upd (q_nthr p) d (q_nthr p d - 1); q_nlen := q_nlen p; q_nidle := q_nidle p |}.
(** clearQueue, MTPool.cc:298-309: removes the orders of one client *)
Definition pool_clear {A} (mine : order A -> bool) (p : pool A) : pool A :=
  {| q_orders := filter (fun o => negb (mine o)) (q_orders p); q_nthr := q_nthr p; q_nlen := q_nlen p; q_nidle := q_nidle p |}.

(** ** The pool used by arbitrary clients.
    A thread: its state, and the depths of the orders it has obtained and not yet finished with
    (a thread executing an order may obtain further orders, NodeNursery.cc:307,374,516). *)
Record gthread := { g_busy : bool; g_runs : list nat }.
Record gsys := { g_pool : pool unit; g_thr : list gthread }.
Definition fresh : gthread := {| g_busy := false; g_runs := [] |}.
Definition wake_up (a : awake) (l : list gthread) : list gthread := match a with ASpawn => l ++ [fresh] | _ => l end.
(** startWorker/workerLoop (MTPool.cc:122-204) and the polls of NodeNursery.cc; everything else
    about who calls what when is left open: any thread may place orders at any depth, look for
    an order with any arguments, finish with any order it holds; orders may be cleared at any
    time; a sleeping thread may wake up and look at any time. *)
Inductive gstep (m : nat) : gsys -> gsys -> Prop :=
| g_place s o : gstep m s {| g_pool := pool_place o (g_pool s); g_thr := g_thr s |}
| g_awaken s a p : pool_awaken m (g_pool s) = Ok (a, p) -> gstep m s {| g_pool := p; g_thr := wake_up a (g_thr s) |}
| g_take s l1 t l2 wait mind o a p : g_thr s = l1 ++ t :: l2 -> pool_look m (g_busy t) wait mind (g_pool s) = Ok (LTook o a p) ->
    gstep m s {| g_pool := p; g_thr := wake_up a (l1 ++ {| g_busy := true; g_runs := o_depth o :: g_runs t |} :: l2) |}
| g_sleep s l1 t l2 wait mind p : g_thr s = l1 ++ t :: l2 -> pool_look m (g_busy t) wait mind (g_pool s) = Ok (LSleep p) ->
    gstep m s {| g_pool := p; g_thr := l1 ++ {| g_busy := false; g_runs := g_runs t |} :: l2 |}
| g_finish s l1 t l2 r1 d r2 p : g_thr s = l1 ++ t :: l2 -> g_runs t = r1 ++ d :: r2 -> pool_finish d (g_pool s) = Ok p ->
    gstep m s {| g_pool := p; g_thr := l1 ++ {| g_busy := g_busy t; g_runs := r1 ++ r2 |} :: l2 |}
| g_clear s mine : gstep m s {| g_pool := pool_clear mine (g_pool s); g_thr := g_thr s |}.
(** a pool of [nwork] workers, and the thread that runs the forest, which joins as BUSY at
    depth 0 (MeqServer/src/MeqServer.cc:1341) *)
Definition gstart (nwork : nat) : gsys :=
  {| g_pool := match pool_join true 0 (pool_start nwork) with Ok p => p | _ => pool_start nwork end;
     g_thr := {| g_busy := true; g_runs := [] |} :: repeat fresh nwork |}.
Inductive greach (m nwork : nat) : gsys -> Prop :=
| gr_start : greach m nwork (gstart nwork)
| gr_step s t : greach m nwork s -> gstep m s t -> greach m nwork t.
