(** Model of the multithreaded evaluation of a tree of nodes: the synchronous poll of
    MEQ/src/NodeNursery.cc:432-540 running on the worker pool of MEQ/src/MTPool.cc
    (Pool_Model.v), threads interleaved.

    Simplified: a node is a label, the flag saying whether it polls its children in parallel,
    and its enabled children in poll order.  What a node computes is left out; no child fails,
    is missing data or aborts, so polls are not abandoned.  Every node has one parent (in a
    tree nobody waits for a node's execCond, Node.cc:931-941).  A step is a critical section of
    [cond()] (brigade) or of [child_poll_cond_] (nursery), or the evaluation of one node. *)
From Verif Require Import Base Pool_Model.

Inductive tree := Node (label : nat) (parallel : bool) (children : list tree).

(** WorkOrder, MTPool.h:83-118: which poll it belongs to and what to execute.  [w_seq] counts
    the orders placed; it is not in the code and nothing is decided by it. *)
Record work := { w_poll : nat; w_seq : nat; w_tree : tree }.

(** What a thread is doing inside an order it executes (WorkOrder::execute, MTPool.cc:345-359;
    syncPoll, NodeNursery.cc:486-540):
    - [PRun]      executing nodes, the next ones are listed in [f_todo];
    - [PLook p d] in the poll loop of poll [p] (whose children are at depth [d]), about to lock
                  the queue and look for an order (line 516);
    - [PNull p d] has got no order, about to lock child_poll_cond_ (line 528);
    - [PSleep p d] waiting on child_poll_cond_ (line 533);
    - [PDelivered] the result has been delivered, finishWithWorkOrder is next (line 522). *)
Inductive phase := PRun | PLook (p d : nat) | PNull (p d : nat) | PSleep (p d : nat) | PDelivered.
Record frame := { f_order : order work; f_todo : list (nat * tree); f_phase : phase }.
(** a thread: the orders it is executing, innermost first; [h_main] is the thread that joined
    the pool to run the root *)
Record thread := { h_main : bool; h_busy : bool; h_asleep : bool; h_stack : list frame }.
(** [s_polls]: child_retcount_ and numchildren_ of every poll started; [s_log]: the nodes
    executed, latest first, with the depth passed to execute() (Node.cc:921,974) *)
Record sys := { s_pool : pool work; s_thr : list thread; s_polls : list (nat * nat); s_log : list (nat * nat); s_seq : nat }.

Definition root_order (t : tree) : order work := mkorder 0 {| w_poll := 0; w_seq := 0; w_tree := t |}.
Definition begin_frame (o : order work) : frame :=
  {| f_order := o; f_todo := [(o_depth o, w_tree (o_what o))]; f_phase := PRun |}.
Definition worker : thread := {| h_main := false; h_busy := false; h_asleep := false; h_stack := [] |}.
(** MTPool::start(nwork,..) and MeqServer.cc:1341; the main thread is about to execute the root *)
Definition sys_start (nwork : nat) (t : tree) : sys :=
  {| s_pool := match pool_join true 0 (pool_start nwork) with Ok p => p | _ => pool_start nwork end;
     s_thr := {| h_main := true; h_busy := true; h_asleep := false; h_stack := [begin_frame (root_order t)] |} :: repeat worker nwork;
     s_polls := [(0, 1)]; s_log := []; s_seq := 1 |}.

Definition set_thr (l : list thread) (i : nat) (h : thread) : list thread := firstn i l ++ h :: skipn (S i) l.
Definition with_stack (h : thread) (st : list frame) : thread :=
  {| h_main := h_main h; h_busy := h_busy h; h_asleep := h_asleep h; h_stack := st |}.
Definition with_phase (f : frame) (ph : phase) : frame := {| f_order := f_order f; f_todo := f_todo f; f_phase := ph |}.

(** what awakenWorker did: [cond().signal()] wakes one sleeping thread, [j], if there is any; a
    new thread starts at the head of workerLoop *)
Definition sleeping (h : thread) : bool := h_asleep h.
Definition awake_thr (a : awake) (j : nat) (l : list thread) : option (list thread) :=
  match a with
  | ANone => Some l
  | ASpawn => Some (l ++ [worker])
  | ASignal =>
      if existsb sleeping l then
        match nth_error l j with
        | Some h => if h_asleep h then Some (set_thr l j {| h_main := h_main h; h_busy := h_busy h; h_asleep := false; h_stack := h_stack h |}) else None
        | None => None
        end
      else Some l
  end.

(** the thread looks at the queue from the poll loop in frame [f] (line 516-527); [rest] are the
    frames below *)
Definition look_poll (m : nat) (s : sys) (i j : nat) (h : thread) (f : frame) (p d : nat) (rest : list frame) : option sys :=
  match pool_look m (h_busy h) false d (s_pool s) with
  | Ok (LTook o a pl) =>
      match awake_thr a j (set_thr (s_thr s) i {| h_main := h_main h; h_busy := true; h_asleep := false;
                                                  h_stack := begin_frame o :: with_phase f (PLook p d) :: rest |}) with
      | Some l => Some {| s_pool := pl; s_thr := l; s_polls := s_polls s; s_log := s_log s; s_seq := s_seq s |}
      | None => None
      end
  | Ok LNothing =>
      Some {| s_pool := s_pool s; s_thr := set_thr (s_thr s) i (with_stack h (with_phase f (PNull p d) :: rest));
              s_polls := s_polls s; s_log := s_log s; s_seq := s_seq s |}
  | _ => None
  end.
(** workerLoop, MTPool.cc:174-204, at the call of getWorkOrder(true) *)
Definition look_worker (m : nat) (s : sys) (i j : nat) (h : thread) : option sys :=
  match pool_look m (h_busy h) true 0 (s_pool s) with
  | Ok (LTook o a pl) =>
      match awake_thr a j (set_thr (s_thr s) i {| h_main := h_main h; h_busy := true; h_asleep := false; h_stack := [begin_frame o] |}) with
      | Some l => Some {| s_pool := pl; s_thr := l; s_polls := s_polls s; s_log := s_log s; s_seq := s_seq s |}
      | None => None
      end
  | Ok (LSleep pl) =>
      Some {| s_pool := pl; s_thr := set_thr (s_thr s) i {| h_main := h_main h; h_busy := false; h_asleep := true; h_stack := [] |};
              s_polls := s_polls s; s_log := s_log s; s_seq := s_seq s |}
  | _ => None
  end.

(** lines 498-511: an order for every child, the last child placed first *)
Fixpoint number (pid seq d : nat) (cs : list tree) : list (order work) :=
  match cs with
  | [] => []
  | c :: cs => mkorder d {| w_poll := pid; w_seq := seq + length cs; w_tree := c |} :: number pid seq d cs
  end.
Definition place_children (pid seq d : nat) (cs : list tree) (p : pool work) : pool work :=
  fold_right pool_place p (number pid seq d cs).

(** mt_receiveSyncChildResult, lines 432-462: the counter, and broadcast *)
Definition wake_frame (p : nat) (f : frame) : frame :=
  match f_phase f with PSleep p' d => if Nat.eqb p p' then with_phase f (PLook p' d) else f | _ => f end.
Definition wake_poll (p : nat) (l : list thread) : list thread := map (fun h => with_stack h (map (wake_frame p) (h_stack h))) l.
Fixpoint set_poll (l : list (nat * nat)) (p : nat) (v : nat * nat) : list (nat * nat) :=
  match l, p with
  | [], _ => []
  | _ :: l, O => v :: l
  | x :: l, S p => x :: set_poll l p v
  end.
Definition deliver (s : sys) (i : nat) (h : thread) (f : frame) (rest : list frame) : option sys :=
  let p := w_poll (o_what (f_order f)) in
  match nth_error (s_polls s) p with
  | Some (ret, num) =>
      let l := set_thr (s_thr s) i (with_stack h (with_phase f PDelivered :: rest)) in
      Some {| s_pool := s_pool s; s_thr := if Nat.leb num (S ret) then wake_poll p l else l;
              s_polls := set_poll (s_polls s) p (S ret, num); s_log := s_log s; s_seq := s_seq s |}
  | None => None
  end.

(** what thread [i] does next; [j] is the thread woken if a signal is sent *)
Definition step (m : nat) (s : sys) (i j : nat) : option sys :=
  match nth_error (s_thr s) i with
  | None => None
  | Some h =>
      match h_stack h with
      | [] => if h_asleep h then None else look_worker m s i j h
      | f :: rest =>
          match f_phase f with
          | PRun =>
              match f_todo f with
              | [] => deliver s i h f rest
              | (d, Node l par cs) :: todo =>
                  if par && Nat.leb 2 (length cs) then     (* mt_checkBrigadeAvailability, lines 171-184 *)
                    let pid := length (s_polls s) in
                    let f' := {| f_order := f_order f; f_todo := todo; f_phase := PLook pid (S d) |} in
                    look_poll m
                      {| s_pool := place_children pid (s_seq s) (S d) cs (s_pool s);
                         s_thr := s_thr s; s_polls := s_polls s ++ [(0, length cs)]; s_log := (d, l) :: s_log s; s_seq := s_seq s + length cs |}
                      i j h f' pid (S d) rest
                  else                                      (* lines 541-570: children executed one after the other *)
                    Some {| s_pool := s_pool s;
                            s_thr := set_thr (s_thr s) i (with_stack h ({| f_order := f_order f; f_todo := map (pair (S d)) cs ++ todo; f_phase := PRun |} :: rest));
                            s_polls := s_polls s; s_log := (d, l) :: s_log s; s_seq := s_seq s |}
              end
          | PLook p d => look_poll m s i j h f p d rest
          | PNull p d =>                                    (* lines 528-537 *)
              match nth_error (s_polls s) p with
              | Some (ret, num) =>
                  let ph := if Nat.ltb ret num then PSleep p d else PRun in
                  Some {| s_pool := s_pool s; s_thr := set_thr (s_thr s) i (with_stack h (with_phase f ph :: rest));
                          s_polls := s_polls s; s_log := s_log s; s_seq := s_seq s |}
              | None => None
              end
          | PSleep _ _ => None
          | PDelivered =>
              if h_main h && Nat.eqb (length rest) 0 then None
              else match pool_finish (o_depth (f_order f)) (s_pool s) with
                   | Ok pl => Some {| s_pool := pl; s_thr := set_thr (s_thr s) i (with_stack h rest);
                                      s_polls := s_polls s; s_log := s_log s; s_seq := s_seq s |}
                   | _ => None
                   end
          end
      end
  end.

(** a thread waiting on a condition variable may wake up without reason *)
Definition wake (s : sys) (i : nat) : option sys :=
  match nth_error (s_thr s) i with
  | None => None
  | Some h =>
      match h_stack h with
      | [] => if h_asleep h then
                Some {| s_pool := s_pool s; s_thr := set_thr (s_thr s) i {| h_main := h_main h; h_busy := h_busy h; h_asleep := false; h_stack := [] |};
                        s_polls := s_polls s; s_log := s_log s; s_seq := s_seq s |}
              else None
      | f :: rest =>
          match f_phase f with
          | PSleep p d => Some {| s_pool := s_pool s; s_thr := set_thr (s_thr s) i (with_stack h (with_phase f (PLook p d) :: rest));
                                  s_polls := s_polls s; s_log := s_log s; s_seq := s_seq s |}
          | _ => None
          end
      end
  end.

Inductive reach (m nwork : nat) (t : tree) : sys -> Prop :=
| r_start : reach m nwork t (sys_start nwork t)
| r_step s i j s' : reach m nwork t s -> step m s i j = Some s' -> reach m nwork t s'
| r_wake s i s' : reach m nwork t s -> wake s i = Some s' -> reach m nwork t s'.
(** a schedule: which thread acts, and whom it wakes *)
Fixpoint run (m : nat) (s : sys) (sched : list (nat * nat)) : option sys :=
  match sched with
  | [] => Some s
  | (i, j) :: sched => match step m s i j with Some s' => run m s' sched | None => None end
  end.
