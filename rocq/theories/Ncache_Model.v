(** Model of the result cache of a node: MEQ/src/Node.cc (execute, getCachedResult,
    cacheResult, holdChildCaches, holdCache, clearCache, pollChildren) and MEQ/src/Node.h:930-979
    (class Cache), on a graph of nodes, single-threaded (NodeNursery.cc:550-617, 658-677).
    Simplified: a node's getResult() (with checkChildCells and the setting of cells in the
    result) and discoverSpids() are functions of the child results and the request; a node is
    listed with its enabled children in poll order; child_results_ holds the results of the
    current poll only.  Left out: request riders, state changes of nodes
    (propagateStateDependency), the forest's abort flag, statistics, events, logging. *)
From Verif Require Import Base Hiid_Model Rqid_Model Poll_Model.
Local Open Scope Z_scope.

(** NodeFace.h:62-79 *)
Definition RES_UPDATED : Z := 0x01 * 2 ^ 16.
Definition RES_IGNORE_TYPE : Z := 0x02 * 2 ^ 16.
Definition RES_WAIT : Z := 0x20 * 2 ^ 16.
(** Request.h:59 *)
Definition DEPMASK_TYPE : Z := 1.

(** Node.h:234-243 *)
Definition CACHE_NEVER : Z := -10.
Definition CACHE_MINIMAL : Z := -1.
Definition CACHE_DEFAULT : Z := 0.
Definition CACHE_ALWAYS : Z := 20.

(** Request.h:50-56: the atoms naming request types (generated at build time) *)
Record rtypes := { EVAL : aid; EVAL_SINGLE : aid; EVAL_DOUBLE : aid; DISCOVER_SPIDS : aid; PARM_UPDATE : aid }.
(** Request.h:61-62 *)
Definition rq_type (id : hiid) : aid := match id with [] => 0 | x :: _ => x end.
(** Request.h:77-90 *)
Definition evalMode (t : rtypes) (ty : aid) : Z :=
  if (ty =? EVAL t) || (ty =? 0) then 0
  else if ty =? EVAL_SINGLE t then 1
  else if ty =? EVAL_DOUBLE t then 2
  else -1.

(** What the cache reads of a request, Request.h:100-170: id, nextId, hasCells *)
Record request := { rq_id : hiid; rq_next : hiid; rq_cells : bool }.

Section Cache.
Context {R : Type}.
Variable T : rtypes.
(** an empty Result, one with an empty VellSet (Node.cc:1053), a Result with the perturbed sets
    removed (567-569), and the Result made of the fails of others (NodeNursery.cc:591-605) *)
Variables (r_empty r_missing : R) (strip : R -> R) (mkfail : list R -> R).

(** A child result reference that may be invalid is [None]. *)
Record node := {
  n_children : list nat; n_step : list nat;              (* enabled children and stepchildren, in poll order *)
  n_fail : policy; n_missing : policy;                   (* NodeNursery.h:44-61 *)
  n_active : bool;                                       (* CS_ACTIVE *)
  n_deps : Z;                                            (* getDependMask() *)
  n_eval : list (option R) -> request -> Z * option R;   (* getResult(): code and result *)
  n_spids : list (option R) -> option R;                 (* discoverSpids(), Node.cc:864-894 *)
  n_policy : Z;                                          (* cache_policy_ *)
  n_npar : Z; n_nact : Z;                                (* pcparents_->npar, nact *)
  n_iter : Z; n_domain : Z }.                            (* symdeps().getMask(FIteration), domain_depend_mask_ *)

(** cache_ (Node.h:930-979), actual_cache_policy_, pcparents_->nhint, nhold, current_request_
    and current_reqid_, child_retcodes_ of the two nurseries *)
Record nst := {
  k_valid : bool; k_result : option R; k_rqid : hiid; k_code : Z; k_ignore : bool;
  k_policy : Z; k_nhint : Z; k_nhold : Z; k_cur : option hiid; k_codes : list Z; k_scodes : list Z }.
Definition state := nat -> nst.
(** Node.cc:88-104 (actual_cache_policy_ is not initialised; no hint arrives before the first
    evaluation sets it) *)
Definition nst0 : nst :=
  {| k_valid := false; k_result := None; k_rqid := []; k_code := 0; k_ignore := false;
     k_policy := 0; k_nhint := 0; k_nhold := 0; k_cur := None; k_codes := []; k_scodes := [] |}.

(** Cache::valid, Node.h:951-954 *)
Definition k_isvalid (k : nst) : bool := k_valid k && match k_result k with Some _ => true | None => false end.
(** Cache::clear, Node.h:943-949 *)
Definition clearCache (k : nst) : nst :=
  {| k_valid := false; k_result := if has (k_code k) RES_FAIL then k_result k else None;
     k_rqid := k_rqid k; k_code := k_code k; k_ignore := k_ignore k;
     k_policy := k_policy k; k_nhint := k_nhint k; k_nhold := k_nhold k; k_cur := k_cur k;
     k_codes := k_codes k; k_scodes := k_scodes k |}.
Definition with_hints (k : nst) (h o : Z) : nst :=
  {| k_valid := k_valid k; k_result := k_result k; k_rqid := k_rqid k; k_code := k_code k; k_ignore := k_ignore k;
     k_policy := k_policy k; k_nhint := h; k_nhold := o; k_cur := k_cur k; k_codes := k_codes k; k_scodes := k_scodes k |}.
Definition with_ignore (k : nst) (b : bool) : nst :=
  {| k_valid := k_valid k; k_result := k_result k; k_rqid := k_rqid k; k_code := k_code k; k_ignore := b;
     k_policy := k_policy k; k_nhint := k_nhint k; k_nhold := k_nhold k; k_cur := k_cur k;
     k_codes := k_codes k; k_scodes := k_scodes k |}.
Definition with_cur (k : nst) (id : hiid) : nst :=
  {| k_valid := k_valid k; k_result := k_result k; k_rqid := k_rqid k; k_code := k_code k; k_ignore := k_ignore k;
     k_policy := k_policy k; k_nhint := k_nhint k; k_nhold := k_nhold k; k_cur := Some id;
     k_codes := k_codes k; k_scodes := k_scodes k |}.
Definition with_codes (k : nst) (cs ss : list Z) : nst :=
  {| k_valid := k_valid k; k_result := k_result k; k_rqid := k_rqid k; k_code := k_code k; k_ignore := k_ignore k;
     k_policy := k_policy k; k_nhint := k_nhint k; k_nhold := k_nhold k; k_cur := k_cur k;
     k_codes := cs; k_scodes := ss |}.

(** new_request_, Node.cc:965-968 *)
Definition isnew (k : nst) (rq : request) : bool :=
  match k_cur k with
  | None => true
  | Some id => match rq_id rq with [] => true | _ => negb (hiid_eqb (rq_id rq) id) end
  end.
Definition isempty (id : hiid) : bool := match id with [] => true | _ => false end.

(** getCachedResult, Node.cc:507-602; has_state_dep_ is false *)
Inductive look := Hit (k : nst) (code : Z) (r : option R) | Miss (k : nst).
Definition getCached (nd : node) (k : nst) (rq : request) : look :=
  if negb (k_isvalid k) then Miss k
  else if isempty (rq_id rq) || isempty (k_rqid k) then Miss (clearCache k)
  else if (rq_type (rq_id rq) =? PARM_UPDATE T) && negb (has (k_code k) (n_iter nd)) then
    Hit (with_ignore k true) 0 (Some r_empty)
  else
    let diff := Z.land (diffMask (rq_id rq) (k_rqid k)) (k_code k) in
    let hit r := Hit (if isnew k rq then with_hints k 0 0 else k) (k_code k) r in
    if diff =? 0 then hit (k_result k)
    else if (diff =? DEPMASK_TYPE) && (evalMode T (rq_type (rq_id rq)) =? 0)
            && (0 <? evalMode T (rq_type (k_rqid k))) then hit (option_map strip (k_result k))
    else Miss (clearCache k).

Definition set (s : state) (i : nat) (k : nst) : state := fun j => if Nat.eqb j i then k else s j.

(** holdCache, Node.cc:743-761 *)
Definition holdCache (nd : node) (k : nst) (hold : bool) : nst :=
  let k := with_hints k (k_nhint k + 1) (if hold then k_nhold k + 1 else k_nhold k) in
  if negb (k_ignore k) && has (k_code k) (n_domain nd) && (k_policy k <? CACHE_ALWAYS)
     && ((if n_nact nd =? 0 then n_npar nd else n_nact nd) <=? k_nhint k)
     && ((k_policy k <=? CACHE_MINIMAL) || (k_nhold k =? 0))
  then clearCache k else k.

Variable g : nat -> node.
(** forest().cachePolicy() *)
Variable fpolicy : Z.

(** holdChildCaches, Node.cc:721-740, for the children or the stepchildren *)
Fixpoint holdChildren (hold : bool) (diff : Z) (kids : list nat) (codes : list Z) (s : state) : state :=
  match kids with
  | [] => s
  | c :: kids' =>
      let h := hold && negb (has (hd 0 codes) diff) in
      holdChildren hold diff kids' (tl codes) (set s c (holdCache (g c) (s c) h))
  end.

(** cacheResult, Node.cc:606-706 *)
Definition cacheResult (s : state) (i : nat) (rq : request) (rc : Z) (r : option R) : state * Z :=
  let nd := g i in
  let k := s i in
  let npar := if n_nact nd =? 0 then n_npar nd else n_nact nd in
  let pol := if n_policy nd =? CACHE_DEFAULT then fpolicy else n_policy nd in
  let diff := diffMask (rq_id rq) (rq_next rq) in
  let rc := if has rc RES_IGNORE_TYPE then rc else Z.lor rc DEPMASK_TYPE in
  let longcache :=
    if has rc RES_FAIL then true
    else if pol <=? CACHE_NEVER then false
    else if pol <=? CACHE_MINIMAL then false
    else if pol <? CACHE_ALWAYS then negb (has diff rc) else true in
  let do_cache :=
    if has rc RES_FAIL then true
    else if pol <=? CACHE_NEVER then false
    else if pol <=? CACHE_MINIMAL then 1 <? npar
    else if pol <? CACHE_ALWAYS then longcache || (1 <? npar) else true in
  let s := holdChildren (negb longcache) diff (n_step nd) (k_scodes k)
             (holdChildren (negb longcache) diff (n_children nd) (k_codes k) s) in
  let stored :=
    {| k_valid := true; k_result := r; k_rqid := rq_id rq; k_code := Z.ldiff rc RES_UPDATED; k_ignore := false;
       k_policy := pol; k_nhint := 0; k_nhold := 0; k_cur := k_cur k; k_codes := k_codes k; k_scodes := k_scodes k |} in
  let dropped :=
    clearCache {| k_valid := k_valid k; k_result := k_result k; k_rqid := k_rqid k; k_code := k_code k; k_ignore := false;
       k_policy := pol; k_nhint := 0; k_nhold := 0; k_cur := k_cur k; k_codes := k_codes k; k_scodes := k_scodes k |} in
  (set s i (if do_cache then stored else dropped), rc).

(** ** Polls.  A child that was not polled has no entry. *)
Definition answer := option (Z * option R).
(** the loop of syncPoll, NodeNursery.cc:554-578: when it breaks off *)
Definition stops (nd : node) (c : Z) : bool :=
  has c RES_ABORT
  || (if has c RES_FAIL then is_abandon (n_fail nd) else has c RES_MISSING && is_abandon (n_missing nd)).
Fixpoint pollWith (ex : state -> nat -> state * (Z * option R)) (stop : Z -> bool) (kids : list nat) (s : state)
  : state * list answer :=
  match kids with
  | [] => (s, [])
  | c :: kids' =>
      let (s1, a) := ex s c in
      if stop (fst a) then (s1, Some a :: map (fun _ => None) kids')
      else let (s2, l) := pollWith ex stop kids' s1 in (s2, Some a :: l)
  end.
(** child_retcodes_ after a poll; those of children not polled are left *)
Fixpoint newcodes (old : list Z) (l : list answer) : list Z :=
  match l with
  | [] => []
  | a :: l' => (match a with Some (c, _) => c | None => hd 0 old end) :: newcodes (tl old) l'
  end.

(** child_cumul_retcode_ and child_fails_ *)
Definition cumul (l : list answer) : Z :=
  fold_left (fun m a => match a with Some (c, _) => Z.lor m c | None => m end) l 0.
Definition failed (l : list answer) : list (option R) :=
  flat_map (fun a => match a with
                     | Some (c, r) => if negb (has c RES_ABORT) && has c RES_FAIL then [r] else []
                     | None => [] end) l.
(** NodeNursery.cc:588-611: the code and the fail result *)
Definition pollCode (nd : node) (l : list answer) : Z :=
  let c1 := if is_ignore (n_fail nd) then Z.ldiff (cumul l) RES_FAIL else cumul l in
  if is_ignore (n_missing nd) then Z.ldiff c1 RES_MISSING else c1.
Definition pollFail (nd : node) (l : list answer) : option R :=
  if is_ignore (n_fail nd) then None
  else match failed l with
       | [] => None
       | fs => Some (mkfail (flat_map (fun r => match r with Some x => [x] | None => [] end) fs))
       end.
(** pollChildren, Node.cc:905-911: whether the stepchildren are left out; the missing data test
    looks at the fail policy *)
Definition skipStep (nd : node) (c : Z) : bool :=
  has c RES_ABORT || (has c RES_FAIL && is_abandon (n_fail nd)) || (has c RES_MISSING && is_abandon (n_fail nd)).

(** ** What a node makes of the answers, Node.cc:1029-1151: the code and the result, and whether
    they are offered to the cache *)
Definition results (l : list answer) : list (option R) := map (fun a => match a with Some (_, r) => r | None => None end) l.
Definition conclude (nd : node) (rq : request) (l : list answer) : bool * (Z * option R) :=
  let rc := pollCode nd l in
  let ref := pollFail nd l in
  if has rc RES_WAIT then (false, (rc, ref))
  else if has rc RES_FAIL then (true, (rc, ref))
  else if has rc RES_MISSING then (true, (rc, Some r_missing))
  else
    let rc := Z.lor rc (n_deps nd) in
    let full r := match r with Some _ => r | None => Some r_empty end in
    if rq_cells rq then
      if 0 <=? evalMode T (rq_type (rq_id rq)) then
        let (c, r) := n_eval nd (results l) rq in
        let rc := Z.lor rc c in
        if has c RES_WAIT then (false, (rc, r)) else (true, (rc, full r))
      else if rq_type (rq_id rq) =? DISCOVER_SPIDS T then (true, (rc, full (n_spids nd (results l))))
      else (true, (rc, full ref))
    else (true, (rc, full ref)).

(** Node::execute, Node.cc:919-1196; [f] bounds the depth of the graph below node [i] *)
Fixpoint execute (f : nat) (rq : request) (s : state) (i : nat) : state * (Z * option R) :=
  match f with
  | O => (s, (0, None))
  | S f' =>
    match getCached (g i) (s i) rq with
    | Hit k c r => (set s i k, (c, r))
    | Miss k =>
        let s0 := set s i (if isnew (s i) rq then with_cur k (rq_id rq) else k) in
        if negb (n_active (g i)) then
          let (s', rc) := cacheResult s0 i rq 0 (Some r_empty) in (s', (Z.lor rc RES_UPDATED, Some r_empty))
        else
          let (s1, l) := pollWith (execute f' rq) (stops (g i)) (n_children (g i)) s0 in
          let s1 := set s1 i (with_codes (s1 i) (newcodes (k_codes (s1 i)) l) (k_scodes (s1 i))) in
          let s2 :=
            if skipStep (g i) (pollCode (g i) l) then s1
            else let (s2, m) := pollWith (execute f' rq) (fun c => has c RES_ABORT) (n_step (g i)) s1 in
                 set s2 i (with_codes (s2 i) (k_codes (s2 i)) (newcodes (k_scodes (s2 i)) m)) in
          let '(keep, (rc, r)) := conclude (g i) rq l in
          if keep then let (s', rc') := cacheResult s2 i rq rc r in (s', (Z.lor rc' RES_UPDATED, r))
          else (s2, (rc, r))
    end
  end.

(** A history of requests, each given to some node; the answers *)
Fixpoint serve (f : nat) (s : state) (h : list (nat * request)) : state * list (Z * option R) :=
  match h with
  | [] => (s, [])
  | (i, rq) :: h' =>
      let (s1, a) := execute f rq s i in
      let (s2, l) := serve f s1 h' in (s2, a :: l)
  end.
End Cache.
Arguments node : clear implicits.
Arguments nst : clear implicits.
Arguments state : clear implicits.
Arguments answer : clear implicits.
