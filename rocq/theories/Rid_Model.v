(** Request riders and Node::execute: MEQ/src/Rider.cc, Request.cc:124-163, Node_commands.cc:116-204,
    Node.cc:917-1197 and Solver.cc:1450-1491.
    Records are held in a heap, since Rider.cc hands out references into records that other requests may
    share.  References never dangle (C06), so the heap is a list and a record an index into it.
    Simplified: a Record in place of a list of commands is refused; lists hold records; hash maps are
    lists in the order in which they are iterated. *)
From Coq Require Import String.
From Verif Require Import Base Hiid_Model Rqid_Model Poll_Model Ncache_Model.
Local Open Scope Z_scope.
Open Scope list_scope.

(** ** Records *)
(** what a field holds: a reference to a record, a list of records, strings, integers, anything else *)
Inductive val := VRec (a : nat) | VList (l : list nat) | VStrs (l : list string) | VInts (l : list Z) | VOther.
Notation rcd := (list (list Z * val)) (only parsing).
Notation heap := (list (list (list Z * val))) (only parsing).
Definition deref (h : heap) (a : nat) : rcd := nth a h [].
Fixpoint field (r : rcd) (f : list Z) : option val :=
  match r with [] => None | (g, v) :: r => if hiid_eqb g f then Some v else field r f end.
Fixpoint put_field (r : rcd) (f : list Z) (v : val) : rcd :=
  match r with [] => [(f, v)] | (g, w) :: r => if hiid_eqb g f then (g, v) :: r else (g, w) :: put_field r f v end.
Definition write (h : heap) (a : nat) (r : rcd) : heap := firstn a h ++ match skipn a h with [] => [] | _ :: t => r :: t end.
(** rec[f] <<= new Record *)
Definition put_new (h : heap) (a : nat) (f : list Z) : heap * nat :=
  (write h a (put_field (deref h a) f (VRec (length h))) ++ [[]], length h).

(** MeqVocabulary.h:51,74-76; the atoms are numbered at build time *)
Record vocab := { AidCommand : Z; AidAll : Z; AidBy : Z; AidNodeIndex : Z; AidList : Z; AidName : Z; AidUpdate : Z; AidParm : Z }.
Section Riders.
Variable W : vocab.
Definition FCommandAll := [AidCommand W; AidAll W].
Definition FCommandByNodeIndex := [AidCommand W; AidBy W; AidNodeIndex W].
Definition FCommandByList := [AidCommand W; AidBy W; AidList W].
Definition FName := [AidName W].
Definition FNodeIndex := [AidNodeIndex W].
Definition FUpdateParm := [AidUpdate W; AidParm W].

(** a Request: the record in its rider field; whether prider_ is set (the field is then protected, Request.cc:124-135);
    whether the reference to the Request has to be copied before it is written to *)
Record rq := { q_rider : option nat; q_seen : bool; q_shared : bool }.
(** Request.cc:124-135 *)
Definition validateRider (q : rq) : rq :=
  {| q_rider := q_rider q; q_seen := match q_rider q with Some _ => true | None => false end; q_shared := q_shared q |}.
(** Request.cc:137-147 *)
Definition clearRider (q : rq) : rq := {| q_rider := None; q_seen := false; q_shared := q_shared q |}.
(** Request.cc:149-163: the field gets a copy of the reference *)
Definition copyRider (q other : rq) : rq :=
  match q_rider other with
  | Some a => validateRider {| q_rider := Some a; q_seen := q_seen q; q_shared := q_shared q |}
  | None => clearRider q
  end.

(** ** Rider.cc *)
Definition NEW_RIDER : Z := 1.
Definition NEW_GROUPREC : Z := 2.
Definition NEW_CMDREC : Z := 4.
Definition NEW_ALL : Z := 7.
Definition flagged (flags m : Z) : bool := negb (Z.land flags m =? 0).
(** getOrInsert, lines 31-47, on a record.  exists() has resolved the hook without asking to write
    (Container.h:909-912), so that as_wp() finds its target (Container.cc:143-150, get_address_bo 536-590) and does not
    copy a record that is shared. *)
Definition getOrInsert (h : heap) (a : nat) (f : list Z) (replace : bool) : res (heap * nat) :=
  if replace then Ok (put_new h a f) else
  match field (deref h a) f with
  | Some (VRec b) => Ok (h, b)
  | Some _ => Err
  | None => Ok (put_new h a f)
  end.
(** the same for a DMI::Vec: the field is made an empty list *)
Definition getOrInsertVec (h : heap) (a : nat) (f : list Z) (replace : bool) : res heap :=
  if replace then Ok (write h a (put_field (deref h a) f (VList []))) else
  match field (deref h a) f with
  | Some (VList _) => Ok h
  | Some _ => Err
  | None => Ok (write h a (put_field (deref h a) f (VList [])))
  end.
(** getRider, lines 65-68.  Writing to an existing field asks for DMI::WRITE unless the target is known: always
    when replacing, and when the Request has to be copied first (Container.cc:138-150; the copy is validated, Request.cc:38-44);
    this is refused if the field is protected (Record.cc:355). *)
Definition getRider (h : heap) (q : rq) (flags : Z) : res (heap * rq * nat) :=
  let fresh := (h ++ [[]], {| q_rider := Some (length h); q_seen := false; q_shared := false |}, length h) in
  match q_rider q with
  | None => Ok fresh
  | Some a =>
      if flagged flags NEW_RIDER then if q_seen q || q_shared q then Err else Ok fresh
      else if q_shared q then Err else Ok (h, q, a)
  end.
(** Rider::clear, lines 58-63: Record::remove refuses protected fields, Record.cc:397-412; the Request is copied, and so validated,
    if it is shared *)
Definition clear (q : rq) : res rq :=
  match q_rider q with
  | None => Ok q
  | Some _ => if q_seen q || q_shared q then Err else Ok (clearRider q)
  end.
(** getGroupRec, lines 74-78 *)
Definition getGroupRec (h : heap) (q : rq) (group : list Z) (flags : Z) : res (heap * rq * nat) :=
  bind (getRider h q flags) (fun '(h, q, a) =>
  bind (getOrInsert h a group (flagged flags (NEW_GROUPREC + NEW_RIDER))) (fun '(h, b) => Ok (h, q, b))).
(** getCmdRec_All, lines 85-90 *)
Definition getCmdRec_All (h : heap) (q : rq) (group : list Z) (flags : Z) : res (heap * rq * nat) :=
  bind (getGroupRec h q group flags) (fun '(h, q, a) =>
  bind (getOrInsert h a FCommandAll (flagged flags NEW_ALL)) (fun '(h, b) => Ok (h, q, b))).
(** getCmdRec_ByNodeIndex, lines 97-102 *)
Definition getCmdRec_ByNodeIndex (h : heap) (q : rq) (group : list Z) (flags : Z) : res (heap * rq * nat) :=
  bind (getGroupRec h q group flags) (fun '(h, q, a) =>
  bind (getOrInsert h a FCommandByNodeIndex (flagged flags NEW_ALL)) (fun '(h, b) => Ok (h, q, b))).
(** getCmdRec_ByList, lines 109-114: the field is that of the commands by node index.  Returns the record that has it. *)
Definition getCmdRec_ByList (h : heap) (q : rq) (group : list Z) (flags : Z) : res (heap * rq * nat) :=
  bind (getGroupRec h q group flags) (fun '(h, q, a) =>
  bind (getOrInsertVec h a FCommandByNodeIndex (flagged flags NEW_ALL)) (fun h => Ok (h, q, a))).

(** ** Solver::fillRider, Solver.cc:1450-1491: for each parm the record with its updates *)
Definition add_parm (h : heap) (cmds : nat) (p : Z * rcd) : heap :=
  let (h, top) := put_new h cmds [fst p] in
  let (h, cmd) := put_new h top FUpdateParm in
  write h cmd (snd p).
Definition fillRider (h : heap) (q : rq) (parm_group : list Z) (parms : list (Z * rcd)) : res (heap * rq) :=
  bind (getCmdRec_ByNodeIndex h (clearRider q) parm_group NEW_GROUPREC) (fun '(h, q, a) =>
  Ok (fold_left (fun h p => add_parm h a p) parms h, validateRider q)).

(** ** Node_commands.cc *)
Record nodeid := { nd_groups : list (list Z); nd_index : Z; nd_name : string }.
(** a call of processCommand *)
Definition call := (list Z * list (list Z * val))%type.
(** processCommand of the node class: what it returns, or an exception *)
Variable pc : list call -> call -> option Z.
(** what was called so far, and the code so far or an exception *)
Notation out := (list call * option Z)%type.
Definition andThen (o : out) (k : list call -> Z -> out) : out := match o with (log, Some c) => k log c | (log, None) => (log, None) end.
(** processCommands, lines 116-132 *)
Fixpoint processCommands (h : heap) (fs : rcd) (log : list call) (code : Z) : out :=
  match fs with
  | [] => (log, Some code)
  | (c, v) :: fs =>
      if hiid_eqb c FName || hiid_eqb c FNodeIndex then processCommands h fs log code
      else match v with
           | VRec a => let x := (c, deref h a) in
                       match pc log x with
                       | Some k => processCommands h fs (log ++ [x]) (Z.lor code k)
                       | None => (log ++ [x], None)
                       end
           | _ => (log, None)
           end
  end.
(** lines 163-181: the names and indices of an entry; None is an exception *)
Definition names_of (e : rcd) : option (list string) :=
  match field e FName with None => Some [] | Some (VStrs l) => Some l | Some _ => None end.
Definition indices_of (e : rcd) : option (list Z) :=
  match field e FNodeIndex with None => Some [] | Some (VInts l) => Some l | Some _ => None end.
(** lines 175-179 *)
Definition entry_matches (nd : nodeid) (names : list string) (indices : list Z) : bool :=
  existsb (Z.eqb (nd_index nd)) indices || existsb (String.eqb (nd_name nd)) names
  || match names, indices with [], [] => true | _, _ => false end.
(** lines 160-187 *)
Fixpoint by_list (h : heap) (nd : nodeid) (l : list nat) (log : list call) (code : Z) : out :=
  match l with
  | [] => (log, Some code)
  | a :: l =>
      match names_of (deref h a), indices_of (deref h a) with
      | Some names, Some indices =>
          if entry_matches nd names indices then processCommands h (deref h a) log code else by_list h nd l log code
      | _, _ => (log, None)
      end
  end.
(** lines 147-203, one group that the rider has *)
Definition one_group (h : heap) (nd : nodeid) (g : rcd) (log : list call) (code : Z) : out :=
  andThen (match field g FCommandAll with
           | None => (log, Some code)
           | Some (VRec a) => processCommands h (deref h a) log code
           | Some _ => (log, None)
           end) (fun log code =>
  andThen (match field g FCommandByList with
           | None => (log, Some code)
           | Some (VList l) => by_list h nd l log code
           | Some _ => (log, None)
           end) (fun log code =>
  match field g FCommandByNodeIndex with
  | None => (log, Some code)
  | Some (VRec a) => match field (deref h a) [nd_index nd] with
                     | None => (log, Some code)
                     | Some (VRec b) => processCommands h (deref h b) log code
                     | Some _ => (log, None)
                     end
  | Some _ => (log, None)
  end)).
(** lines 141-203 *)
Fixpoint groups (h : heap) (nd : nodeid) (rider : rcd) (gs : list (list Z)) (log : list call) (code : Z) : out :=
  match gs with
  | [] => (log, Some code)
  | g :: gs =>
      match field rider g with
      | None => groups h nd rider gs log code
      | Some (VRec a) => andThen (one_group h nd (deref h a) log code) (groups h nd rider gs)
      | Some _ => (log, None)
      end
  end.
(** processRequestRider, lines 134-204 *)
Definition processRequestRider (h : heap) (nd : nodeid) (q : rq) : out :=
  match q_seen q, q_rider q with
  | true, Some a => groups h nd (deref h a) (nd_groups nd) [] 0
  | _, _ => ([], Some 0)
  end.
End Riders.

(** ** Node::execute, Node.cc:917-1197 *)
(** NodeFace.h:62-79 are in Ncache_Model and Poll_Model.  What a call does, in order *)
Inductive act (R : Type) :=
| ACommand (c : call) | APoll | AGetResult | ADiscover
| ACache (code : Z) (r : option R)      (* cacheResult *)
| AError.                               (* postError *)
Arguments ACommand {R}. Arguments APoll {R}. Arguments AGetResult {R}. Arguments ADiscover {R}. Arguments ACache {R}. Arguments AError {R}.
Section Execute.
Context {R C : Type}.
Variables (r_empty r_missing r_fail : R).           (* lines 1013, 1053-1054, 1158-1162 *)
Variables (hasCells : R -> bool) (setCells : R -> C -> R).
Variable T : rtypes.
(** What the node is surrounded by.  None stands for an exception. *)
Inductive lookup := LHit (code : Z) (r : option R) | LMiss | LThrow.
Record world := {
  w_abort : nat -> bool;                            (* forest().abortFlag() at lines 960, 1032 and 1126 *)
  w_lookup : lookup;                                (* getCachedResult, 977 *)
  w_rider : bool;                                   (* req.hasRider() *)
  w_commands : list call * option Z;                (* processRequestRider, 1006 *)
  w_active : bool;                                  (* CS_ACTIVE after the commands *)
  w_poll : option (Z * option R);                   (* pollChildren, 1031, and the result it sets, if any *)
  w_deps : Z;                                       (* getDependMask() *)
  w_childcells : option (option C);                 (* checkChildCells, 1067 *)
  w_get : option (Z * option R);                    (* getResult, 1079 *)
  w_spids : option (Z * option R);                  (* discoverSpids, 1099 *)
  w_cache : Z -> option R -> option Z }.            (* cacheResult *)
(** the request: its id and its cells *)
Record ask := { a_id : list Z; a_cells : option C }.
(** how it ends: a code, and the result reference; or an exception, which ends the process since execute() is declared throw() *)
Inductive ending := Returned (code : Z) (r : option R) | Terminated.
(** current_request_ and current_reqid_ after the call; what was done; how it ended *)
Record done := { o_cur : option (list Z); o_acts : list (act R); o_end : ending }.

Definition newer (ref r : option R) : option R := match r with Some _ => r | None => ref end.
Definition full (r : option R) : option R := match r with Some _ => r | None => Some r_empty end.
(** lines 1155-1196: an exception, with the code so far *)
Definition failed (w : world) (cur : option (list Z)) (acts : list (act R)) (retcode : Z) : done :=
  let code := Z.lor retcode RES_FAIL in
  {| o_cur := cur; o_acts := acts ++ [AError; ACache code (Some r_fail)];
     o_end := match w_cache w code (Some r_fail) with Some c => Returned (Z.lor c RES_UPDATED) (Some r_fail) | None => Terminated end |}.
(** lines 1016-1018, 1045-1047, 1055-1057, 1151-1153 *)
Definition finish (w : world) (cur : option (list Z)) (acts : list (act R)) (retcode : Z) (ref : option R) : done :=
  match w_cache w retcode ref with
  | Some c => {| o_cur := cur; o_acts := acts ++ [ACache retcode ref]; o_end := Returned (Z.lor c RES_UPDATED) ref |}
  | None => failed w cur (acts ++ [ACache retcode ref]) retcode
  end.
Definition stop (cur : option (list Z)) (acts : list (act R)) (code : Z) (ref : option R) : done := {| o_cur := cur; o_acts := acts; o_end := Returned code ref |}.
(** lines 1126-1153 *)
Definition conclude (w : world) (cur : option (list Z)) (acts : list (act R)) (retcode : Z) (ref : option R) : done :=
  if w_abort w 2 then stop cur acts RES_ABORT ref else finish w cur acts retcode (full ref).
(** lines 1020-1125 *)
Definition evaluate (w : world) (rq : ask) (cur : option (list Z)) (acts : list (act R)) (retcode : Z) (ref : option R) : done :=
  let retcode := match a_cells rq with Some _ => 0 | None => retcode end in
  let acts := acts ++ [APoll] in
  match w_poll w with
  | None => failed w cur acts retcode
  | Some (pcode, r) =>
      let retcode := Z.lor retcode pcode in
      let ref := newer ref r in
      if w_abort w 1 then stop cur acts RES_ABORT ref
      else if has retcode RES_WAIT then stop cur acts retcode ref
      else if has retcode RES_FAIL then finish w cur acts retcode ref
      else if has retcode RES_MISSING then finish w cur acts retcode (Some r_missing)
      else
        let retcode := Z.lor retcode (w_deps w) in
        match a_cells rq with
        | None => conclude w cur acts retcode ref
        | Some cells =>
            match w_childcells w with
            | None => failed w cur acts retcode
            | Some rc =>
                let rescells := match rc with Some c => c | None => cells end in
                if 0 <=? evalMode T (rq_type (a_id rq)) then
                  match w_get w with
                  | None => failed w cur (acts ++ [AGetResult]) retcode
                  | Some (code, r) =>
                      let retcode := Z.lor retcode code in
                      let ref := newer ref r in
                      if has code RES_WAIT then stop cur (acts ++ [AGetResult]) retcode ref
                      else conclude w cur (acts ++ [AGetResult]) retcode
                             (match ref with Some x => Some (if hasCells x then x else setCells x rescells) | None => None end)
                  end
                else if rq_type (a_id rq) =? DISCOVER_SPIDS T then
                  match w_spids w with
                  | None => failed w cur (acts ++ [ADiscover]) retcode
                  | Some (code, r) => conclude w cur (acts ++ [ADiscover]) (Z.lor retcode (Z.lor code (w_deps w))) (newer ref r)
                  end
                else conclude w cur acts retcode ref
            end
        end
  end.
(** new_request_, lines 967-969 *)
Definition is_new (cur : option (list Z)) (rq : ask) : bool :=
  match cur with None => true | Some id => match a_id rq with [] => true | _ => negb (hiid_eqb (a_id rq) id) end end.
(** lines 953-1019; [cur] is the id of the current request and [ref] the reference passed by the caller *)
Definition execute (w : world) (cur : option (list Z)) (rq : ask) (ref : option R) : done :=
  if w_abort w 0 then stop cur [] RES_ABORT ref else
  match w_lookup w with
  | LThrow => failed w cur [] 0
  | LHit code r => stop cur [] code (newer ref r)
  | LMiss =>
      let '(cur, acts, retcode) :=
        if is_new cur rq then
          if w_rider w then (Some (a_id rq), map ACommand (fst (w_commands w)), snd (w_commands w)) else (Some (a_id rq), [], Some 0)
        else (cur, [], Some 0) in
      match retcode with
      | None => failed w cur acts 0
      | Some retcode =>
          if w_active w then evaluate w rq cur acts retcode ref else finish w cur acts retcode (full ref)
      end
  end.
End Execute.
Arguments lookup : clear implicits.
Arguments world : clear implicits.
Arguments done : clear implicits.
Arguments ending : clear implicits.
Arguments ask : clear implicits.
