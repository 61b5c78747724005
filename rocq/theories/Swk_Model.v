(** MeqNodes/src/Solver.cc: the worker threads of the Solver, as an interleaving system.

    A step is what a thread does between two operations on the locks.  Lock C is worker_cond_, lock E is
    worker_exit_cond_, each a mutex with a condition variable.  All shared data are read and written under C,
    under E, or (the subsolver being solved) by one thread only - which is among the things proved.  A flag of
    wt_active_ is read under C, written by its thread under E and by the main thread under both; the flags are
    taken to be separate variables, as they would be if wt_active_ were not a std::vector<bool>.

    Left out: what a subsolver computes (its outcome is part of the state), flushing of parm tables by a worker
    (flushTablesInWorkerThread, never called), exceptions that are not std::exception, wt_num_active_ (never read). *)
From Verif Require Import Base.

(** What Subsolver::solve (1355-1448) will do when called: return true, return false, throw *)
Inductive outcome := Converges | Goes_on | Throws.
(** A subsolver: Subsolver::converged, and the outcome *)
Record job := { j_conv : bool; j_out : outcome }.

(** Where a thread is.  First those common to both kinds of thread *)
Inductive pc :=
| Loop                       (* holds C; the test of processSolversLoop, 1670 *)
| Solve (k : nat)            (* in the solve() of subsolver k, 1691, without C *)
| Back (k : nat)             (* solve() is over; about to lock C, 1696 or 1701 *)
(* workers *)
| CLock                      (* about to lock C, 1715 or 1751 *)
| Head                       (* holds C; 1720-1724 and 1734 *)
| Sleep                      (* in worker_cond_.wait(), 1721 *)
| Wake                       (* woken up, about to have C again *)
| After                      (* holds C; behind the call of processSolversLoop, 1736-1739 *)
| ELock                      (* about to lock E, 1740 *)
| Mark                       (* holds E; 1741-1750 *)
| Exited                     (* 1724 *)
(* the main thread *)
| MIdle                      (* outside *)
| MStart                     (* called activateSubsolverWorkers; about to lock C, 1609 *)
| MLockE                     (* holds C; about to lock E, 1610 *)
| MInit                      (* holds C and E; 1612-1618 *)
| MExit                      (* holds C and E; 1621 *)
| MSleep                     (* in worker_exit_cond_.wait(), 1626 *)
| MWake                      (* woken up, about to have E again *)
| MCheck                     (* holds E; 1628-1634 *)
| MDone                      (* returned, or threw wt_exceptions_, 1636-1639 *)
| MStop                      (* called stopWorkerThreads; about to lock C, 1583 *)
| MStopping                  (* holds C; 1584-1586 *)
| MJoin                      (* 1589-1590 *)
| MStopped.                  (* 1591 *)
Record worker := { w_pc : pc; w_active : bool }.  (* wt_active_[wt_num] *)
Inductive tid := Main | W (i : nat).

Record state := {
  main : pc; workers : list worker;
  own_c : option tid; own_e : option tid;
  mt : bool;                 (* mt_solve_ *)
  loop : bool;               (* wt_solve_loop_ *)
  jobs : list job;           (* subsolvers_ *)
  num : nat;                 (* wt_num_ss_ *)
  nconv : nat;               (* num_conv_ *)
  exc : nat;                 (* the number of wt_exceptions_ *)
  calls : list nat;          (* subsolvers whose solve() was called in this activation, in this order *)
  ended : list nat }.        (* those whose outcome was taken note of *)

Definition no_job : job := {| j_conv := true; j_out := Goes_on |}.
Definition nojob (js : list job) (k : nat) : job := nth k js no_job.

(** setting fields *)
Definition set_main (m : pc) (s : state) : state :=
  {| main := m; workers := workers s; own_c := own_c s; own_e := own_e s; mt := mt s; loop := loop s; jobs := jobs s;
     num := num s; nconv := nconv s; exc := exc s; calls := calls s; ended := ended s |}.
Definition set_workers (ws : list worker) (s : state) : state :=
  {| main := main s; workers := ws; own_c := own_c s; own_e := own_e s; mt := mt s; loop := loop s; jobs := jobs s;
     num := num s; nconv := nconv s; exc := exc s; calls := calls s; ended := ended s |}.
Definition set_c (o : option tid) (s : state) : state :=
  {| main := main s; workers := workers s; own_c := o; own_e := own_e s; mt := mt s; loop := loop s; jobs := jobs s;
     num := num s; nconv := nconv s; exc := exc s; calls := calls s; ended := ended s |}.
Definition set_e (o : option tid) (s : state) : state :=
  {| main := main s; workers := workers s; own_c := own_c s; own_e := o; mt := mt s; loop := loop s; jobs := jobs s;
     num := num s; nconv := nconv s; exc := exc s; calls := calls s; ended := ended s |}.
Definition set_mt (b : bool) (s : state) : state :=
  {| main := main s; workers := workers s; own_c := own_c s; own_e := own_e s; mt := b; loop := loop s; jobs := jobs s;
     num := num s; nconv := nconv s; exc := exc s; calls := calls s; ended := ended s |}.
Definition set_loop (b : bool) (s : state) : state :=
  {| main := main s; workers := workers s; own_c := own_c s; own_e := own_e s; mt := mt s; loop := b; jobs := jobs s;
     num := num s; nconv := nconv s; exc := exc s; calls := calls s; ended := ended s |}.
Definition set_counts (n c x : nat) (cs es : list nat) (s : state) : state :=
  {| main := main s; workers := workers s; own_c := own_c s; own_e := own_e s; mt := mt s; loop := loop s; jobs := jobs s;
     num := n; nconv := c; exc := x; calls := cs; ended := es |}.
Fixpoint upd {A} (l : list A) (i : nat) (x : A) : list A :=
  match l, i with [], _ => [] | _ :: l, O => x :: l | y :: l, S i => y :: upd l i x end.

(** the position of a thread *)
Definition at_pc (s : state) (t : tid) : option pc :=
  match t with Main => Some (main s) | W i => option_map w_pc (nth_error (workers s) i) end.
Definition goto (t : tid) (p : pc) (s : state) : state :=
  match t with
  | Main => set_main p s
  | W i => match nth_error (workers s) i with
           | Some w => set_workers (upd (workers s) i {| w_pc := p; w_active := w_active w |}) s
           | None => s
           end
  end.
(** worker_cond_.broadcast(), worker_exit_cond_.broadcast() *)
Definition wake (w : worker) : worker := match w_pc w with Sleep => {| w_pc := Wake; w_active := w_active w |} | _ => w end.
Definition broadcast_c (s : state) : state := set_workers (map wake (workers s)) s.
Definition broadcast_e (s : state) : state := match main s with MSleep => set_main MWake s | _ => s end.
(** the code behind the loop: the caller of processSolversLoop goes on, 1621 or 1736 *)
Definition behind (t : tid) : pc := match t with Main => MExit | W _ => After end.
(** 1709 *)
Definition leave (t : tid) (s : state) : state := goto t (behind t) (set_loop false s).

(** One step of thread [t]; [None]: it cannot go on *)
Definition run (t : tid) (s : state) : option state :=
  match at_pc s t with
  | None => None
  | Some p =>
    match p with
    | Loop =>
        if num s <? length (jobs s) then
          let k := num s in
          if j_conv (nojob (jobs s) k)
          then Some (set_counts (S k) (S (nconv s)) (exc s) (calls s) (ended s) s)
          else Some (goto t (Solve k) (set_c None (set_counts (S k) (nconv s) (exc s) (calls s ++ [k]) (ended s) s)))
        else Some (leave t s)
    | Solve k => Some (goto t (Back k) s)
    | Back k =>
        match own_c s with
        | Some _ => None
        | None =>
            let s := set_c (Some t) s in
            match j_out (nojob (jobs s) k) with
            | Converges => Some (goto t Loop (set_counts (num s) (S (nconv s)) (exc s) (calls s) (ended s ++ [k]) s))
            | Goes_on => Some (goto t Loop (set_counts (num s) (nconv s) (exc s) (calls s) (ended s ++ [k]) s))
            | Throws => Some (leave t (set_counts (num s) (nconv s) (S (exc s)) (calls s) (ended s ++ [k]) s))
            end
        end
    | CLock | Wake => match own_c s with Some _ => None | None => Some (goto t Head (set_c (Some t) s)) end
    | Head =>
        match t with
        | Main => None
        | W i =>
            match nth_error (workers s) i with
            | None => None
            | Some w =>
                if negb (mt s) then Some (goto t Exited (set_c None s))
                else if negb (w_active w) then Some (goto t Sleep (set_c None s))
                else if loop s then Some (goto t Loop s)
                else Some (goto t After s)
            end
        end
    | After => Some (goto t ELock (set_c None s))  (* only active workers come here: the test at 1736 *)
    | ELock => match own_e s with Some _ => None | None => Some (goto t Mark (set_e (Some t) s)) end
    | Mark =>
        match t with
        | Main => None
        | W i =>
            let ws := upd (workers s) i {| w_pc := CLock; w_active := false |} in
            let s := set_e None (set_workers ws s) in
            Some (if existsb w_active ws then s else broadcast_e s)
        end
    | Sleep | Exited => None
    | MIdle | MDone | MStopped => None
    | MStart => match own_c s with Some _ => None | None => Some (set_main MLockE (set_c (Some Main) s)) end
    | MLockE => match own_e s with Some _ => None | None => Some (set_main MInit (set_e (Some Main) s)) end
    | MInit =>
        let s := set_loop true (set_counts 0 (nconv s) 0 [] [] s) in
        Some (set_main Loop (broadcast_c (set_workers (map (fun w => {| w_pc := w_pc w; w_active := true |}) (workers s)) s)))
    | MExit => Some (set_main MSleep (set_e None (set_c None s)))
    | MSleep => None
    | MWake => match own_e s with Some _ => None | None => Some (set_main MCheck (set_e (Some Main) s)) end
    | MCheck => if existsb w_active (workers s) then Some (set_main MSleep (set_e None s))
                else Some (set_main MDone (set_e None s))
    | MStop => match own_c s with Some _ => None | None => Some (set_main MStopping (set_c (Some Main) s)) end
    | MStopping => Some (set_main MJoin (set_c None (broadcast_c (set_mt false s))))
    | MJoin => if forallb (fun w => match w_pc w with Exited => true | _ => false end) (workers s)
               then Some (set_main MStopped (set_workers [] s)) else None
    end
  end.

(** Steps: of a thread; a wait that returns without a broadcast (pthread_cond_wait allows it); and what the Solver
    does outside: getResult calls activateSubsolverWorkers when there are threads (1086-1092), setStateImpl starts
    and stops the threads (1532-1536, 1555-1575); it may set mt_solve_ before it calls stopWorkerThreads, the
    destructor (170) does not *)
Inductive label := Thr (t : tid) | Spurious (t : tid) | Outside.
Definition fresh_worker : worker := {| w_pc := CLock; w_active := false |}.
Definition activate (js : list job) (s : state) : state :=
  {| main := MStart; workers := workers s; own_c := own_c s; own_e := own_e s; mt := mt s; loop := loop s; jobs := js;
     num := num s; nconv := 0; exc := exc s; calls := calls s; ended := ended s |}.
Definition launch (n : nat) (s : state) : state :=
  {| main := MIdle; workers := repeat fresh_worker n; own_c := own_c s; own_e := own_e s; mt := true; loop := false;
     jobs := jobs s; num := num s; nconv := nconv s; exc := exc s; calls := calls s; ended := ended s |}.
Inductive step : state -> label -> state -> Prop :=
| step_run s t s' : run t s = Some s' -> step s (Thr t) s'
| step_spurious_w s i : at_pc s (W i) = Some Sleep -> step s (Spurious (W i)) (goto (W i) Wake s)
| step_spurious_m s : main s = MSleep -> step s (Spurious Main) (set_main MWake s)
| step_activate s js : main s = MIdle \/ main s = MDone -> workers s <> [] -> step s Outside (activate js s)
| step_stop s b : main s = MIdle \/ main s = MDone -> workers s <> [] -> step s Outside (set_main MStop (set_mt b s))
| step_launch s n : main s = MStopped -> n <> 0 -> step s Outside (launch n s).
(** no threads yet *)
Definition state0 : state :=
  {| main := MStopped; workers := []; own_c := None; own_e := None; mt := false; loop := false; jobs := []; num := 0; nconv := 0;
     exc := 0; calls := []; ended := [] |}.
Inductive steps : state -> list label -> state -> Prop :=
| steps_nil s : steps s [] s
| steps_cons s l s1 ls s2 : step s l s1 -> steps s1 ls s2 -> steps s (l :: ls) s2.
Definition reachable (s : state) : Prop := exists ls, steps state0 ls s.

(** the loop of getResult without worker threads, 1095-1103, with the test at the start of solve(), 1358-1360:
    num_conv_, or [None] when one throws *)
Fixpoint one_by_one (js : list job) (n : nat) : option nat :=
  match js with
  | [] => Some n
  | j :: js => if j_conv j then one_by_one js (S n)
               else match j_out j with Converges => one_by_one js (S n) | Goes_on => one_by_one js n | Throws => None end
  end.
