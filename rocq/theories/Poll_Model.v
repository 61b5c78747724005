(** Model of MEQ/src/NodeNursery.cc: the child poll order and synchronous polls, single- and
    multithreaded. *)
From Coq Require Import String.
From Verif Require Import Base.
Local Open Scope Z_scope.

(** ** setChildPollOrder, NodeNursery.cc:117-146 *)
Fixpoint set_nat {A} (n : nat) (x : A) (l : list A) : list A :=
  match l, n with [], _ => [] | _ :: l', O => x :: l' | y :: l', S n' => y :: set_nat n' x l' end.
(** the loop over ich, lines 126-135: the first valid child of that name *)
Fixpoint find_child (nm : string) (i : nat) (ch : list (option string)) : option nat :=
  match ch with
  | [] => None
  | Some s :: ch' => if String.eqb s nm then Some i else find_child nm (S i) ch'
  | None :: ch' => find_child nm (S i) ch'
  end.
(** the loop over the names: child_poll_order_, specified and nord, and whether it throws *)
Fixpoint order_names (ch : list (option string)) (names : list string) (ord : list nat) (spec : list bool) (nord : nat) : list nat * res (list bool * nat) :=
  match names with
  | [] => (ord, Ok (spec, nord))
  | nm :: names' =>
    match find_child nm 0 ch with
    | None => (ord, Err)
    | Some ich => if nth ich spec false then (ord, Err)
                  else order_names ch names' (set_nat nord ich ord) (set_nat ich true spec) (S nord)
    end
  end.
(** the children left over, lines 139-144 *)
Fixpoint order_rest (i : nat) (spec : list bool) (ord : list nat) (nord : nat) : list nat * nat :=
  match spec with
  | [] => (ord, nord)
  | true :: spec' => order_rest (S i) spec' ord nord
  | false :: spec' => order_rest (S i) spec' (set_nat nord i ord) (S nord)
  end.
(** the order afterwards, and whether the call throws *)
Definition setChildPollOrder (ch : list (option string)) (ord : list nat) (names : list string) : list nat * res unit :=
  if Nat.ltb (length ch) (length names) then (ord, Err)
  else match order_names ch names ord (repeat false (length ch)) 0 with
  | (ord1, Ok (spec, nord)) =>
    let (ord2, n2) := order_rest 0 spec ord1 nord in
    (ord2, if Nat.eqb n2 (length ch) then Ok tt else Err)
  | (ord1, _) => (ord1, Err)
  end.
(** NodeNursery.cc:62-64 *)
Definition default_order (n : nat) : list nat := seq 0 n.

(** ** syncPoll *)
(** NodeFace.h:62-79, RequestId.h: RQIDM_NBITS = 16 *)
Definition RES_MISSING : Z := 0x04 * 2 ^ 16.
Definition RES_ABORT : Z := 0x40 * 2 ^ 16.
Definition RES_FAIL : Z := 0x80 * 2 ^ 16.
Definition has (code bit : Z) : bool := negb (Z.land code bit =? 0).
(** NodeNursery.h:44-61 *)
Inductive policy := PolIgnore | PolAbandon | PolCollect.
Definition is_abandon (p : policy) : bool := match p with PolAbandon => true | _ => false end.
Definition is_ignore (p : policy) : bool := match p with PolIgnore => true | _ => false end.

Section Poll.
(** results of children, and the failed VellSets in one *)
Context {R F : Type}.
Variable fails_of : R -> list F.
(** policies, poll order, which children are valid and enabled *)
Record cfg := { c_fail : policy; c_missing : policy; c_order : list nat; c_enabled : nat -> bool }.

(** what a poll collects: childres, child_retcodes_, child_cumul_retcode_, child_fails_ *)
Record got := { g_res : nat -> option R; g_code : nat -> Z; g_cumul : Z; g_fails : list R }.
Definition put {A} (f : nat -> A) (i : nat) (x : A) : nat -> A := fun j => if Nat.eqb j i then x else f j.
Definition no_fails (g : got) : got := {| g_res := g_res g; g_code := g_code g; g_cumul := 0; g_fails := [] |}.
(** a disabled child, line 509 and 577 *)
Definition zero_code (g : got) (i : nat) : got := {| g_res := g_res g; g_code := put (g_code g) i 0; g_cumul := g_cumul g; g_fails := g_fails g |}.
(** store result and code; record a fail unless the code says otherwise *)
Definition store (g : got) (i : nat) (c : Z) (r : R) (record : bool) : got :=
  {| g_res := put (g_res g) i (Some r); g_code := put (g_code g) i c; g_cumul := Z.lor (g_cumul g) c;
     g_fails := if record then g_fails g ++ [r] else g_fails g |}.

(** single-threaded loop, lines 550-578; [exec i] is what child [i] returns *)
Fixpoint st_loop (cf : cfg) (exec : nat -> Z * R) (ord : list nat) (g : got) : got :=
  match ord with
  | [] => g
  | i :: ord' =>
    if c_enabled cf i then
      let (c, r) := exec i in
      if has c RES_ABORT then store g i c r false
      else if has c RES_FAIL then
        if is_abandon (c_fail cf) then store g i c r true else st_loop cf exec ord' (store g i c r true)
      else if has c RES_MISSING && is_abandon (c_missing cf) then store g i c r false
      else st_loop cf exec ord' (store g i c r false)
    else st_loop cf exec ord' (zero_code g i)
  end.

(** the end of a poll, lines 581-617, when the abort flag is not up: the code returned, and the
    VellSets of the fail result if one is made *)
Definition finish (cf : cfg) (g : got) : Z * option (list F) :=
  let failed := match g_fails g with [] => false | _ => true end in
  let c1 := if is_ignore (c_fail cf) then Z.ldiff (g_cumul g) RES_FAIL else g_cumul g in
  (if is_ignore (c_missing cf) then Z.ldiff c1 RES_MISSING else c1,
   if is_ignore (c_fail cf) then None else if failed then Some (flat_map fails_of (g_fails g)) else None).

(** ** the multithreaded poll as a state machine.
    A child polled is [(i, k)]: child number and which poll it belongs to.  [m_queue]: orders
    of this nursery on the pool's queue, front first; [m_busy]: orders a thread has taken and
    not delivered; [m_clear]: threads about to call clearQueue; [m_parent]: the polling
    thread. *)
Inductive parent := PRun | PSleep | PDone.
Record mt := { m_k : nat; m_queue : list (nat * nat); m_busy : list (nat * nat); m_clear : nat; m_got : got;
               m_ret : nat; m_num : nat; m_abandon : bool; m_parent : parent }.

(** lines 483-510: orders are pushed in front, last child in the order first *)
Definition place (cf : cfg) (k : nat) : list (nat * nat) := map (fun i => (i, k)) (filter (c_enabled cf) (c_order cf)).
Definition zero_codes (cf : cfg) (g : got) : got :=
  fold_right (fun i g => if c_enabled cf i then g else zero_code g i) g (c_order cf).
Definition start (cf : cfg) (k : nat) (queue busy : list (nat * nat)) (clear : nat) (g : got) : mt :=
  {| m_k := k; m_queue := place cf k ++ queue; m_busy := busy; m_clear := clear; m_got := zero_codes cf (no_fails g);
     m_ret := 0; m_num := length (place cf k); m_abandon := false; m_parent := PRun |}.

(** mt_receiveSyncChildResult, lines 432-462, and whether clearQueue follows, 465-470.
    polling_ is true throughout. *)
Definition abandons (cf : cfg) (c : Z) : bool :=
  if has c RES_FAIL then is_abandon (c_fail cf)
  else if has c RES_MISSING then is_abandon (c_missing cf)
  else has c RES_ABORT.
Definition receive (cf : cfg) (s : mt) (i : nat) (c : Z) (r : R) (busy : list (nat * nat)) : mt :=
  if m_abandon s then
    {| m_k := m_k s; m_queue := m_queue s; m_busy := busy; m_clear := m_clear s; m_got := m_got s;
       m_ret := m_ret s; m_num := m_num s; m_abandon := true; m_parent := m_parent s |}
  else
    let ret := S (m_ret s) in
    {| m_k := m_k s; m_queue := m_queue s; m_busy := busy; m_clear := if abandons cf c then S (m_clear s) else m_clear s;
       m_got := store (m_got s) i c r (has c RES_FAIL);
       m_ret := ret; m_num := m_num s; m_abandon := abandons cf c;
       m_parent := if Nat.leb (m_num s) ret then match m_parent s with PSleep => PRun | p => p end else m_parent s |}.

(** one step of some thread; [exec k i] is what child [i] returns for the request of poll [k] *)
Inductive mstep (cf : cfg) (exec : nat -> nat -> Z * R) : mt -> mt -> Prop :=
| m_take s w q : m_queue s = w :: q ->                       (* getWorkOrder, MTPool.cc:274 *)
    mstep cf exec s {| m_k := m_k s; m_queue := q; m_busy := w :: m_busy s; m_clear := m_clear s; m_got := m_got s;
                       m_ret := m_ret s; m_num := m_num s; m_abandon := m_abandon s; m_parent := m_parent s |}
| m_deliver s b1 b2 i k c r : m_busy s = b1 ++ (i, k) :: b2 -> exec k i = (c, r) ->
    mstep cf exec s (receive cf s i c r (b1 ++ b2))
| m_clearq s n : m_clear s = S n ->                          (* clearQueue, MTPool.cc:297-308 *)
    mstep cf exec s {| m_k := m_k s; m_queue := []; m_busy := m_busy s; m_clear := n; m_got := m_got s;
                       m_ret := m_ret s; m_num := m_num s; m_abandon := m_abandon s; m_parent := m_parent s |}
| m_sleep s : m_parent s = PRun -> (m_ret s < m_num s)%nat -> m_abandon s = false ->   (* lines 529-533 *)
    mstep cf exec s {| m_k := m_k s; m_queue := m_queue s; m_busy := m_busy s; m_clear := m_clear s; m_got := m_got s;
                       m_ret := m_ret s; m_num := m_num s; m_abandon := m_abandon s; m_parent := PSleep |}
| m_done s : m_parent s = PRun -> ((m_num s <= m_ret s)%nat \/ m_abandon s = true) ->  (* lines 537-538 *)
    mstep cf exec s {| m_k := m_k s; m_queue := m_queue s; m_busy := m_busy s; m_clear := m_clear s; m_got := m_got s;
                       m_ret := m_ret s; m_num := m_num s; m_abandon := m_abandon s; m_parent := PDone |}.
(** waking up without a broadcast (pthread_cond_wait allows it) *)
Inductive mwake : mt -> mt -> Prop :=
| m_wake s : m_parent s = PSleep ->
    mwake s {| m_k := m_k s; m_queue := m_queue s; m_busy := m_busy s; m_clear := m_clear s; m_got := m_got s;
               m_ret := m_ret s; m_num := m_num s; m_abandon := m_abandon s; m_parent := PRun |}.
(** the next poll of the same nursery, once this one has returned *)
Inductive mnext (cf : cfg) : mt -> mt -> Prop :=
| m_next s : m_parent s = PDone -> mnext cf s (start cf (S (m_k s)) (m_queue s) (m_busy s) (m_clear s) (m_got s)).
Inductive msteps (cf : cfg) (exec : nat -> nat -> Z * R) : mt -> mt -> Prop :=
| ms_refl s : msteps cf exec s s
| ms_step s t u : mstep cf exec s t \/ mwake s t \/ mnext cf s t -> msteps cf exec t u -> msteps cf exec s u.
End Poll.
Arguments got : clear implicits.
Arguments mt : clear implicits.
