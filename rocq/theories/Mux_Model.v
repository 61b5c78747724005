(** Model of the node that runs a stream of visibilities through a tree:
    MeqServer/src/VisDataMux.{h,cc}.

    What the node does is recorded in a log of actions: the calls of its handlers
    (spigots and sinks), the requests sent to its children, and the events posted to the
    output channel.  How the others answer is up to an environment, which is asked with the
    log up to and including the action concerned.

    Simplifications.
    - A tile (called a chunk here, as in the status messages of the node) is its two
      antennas, its sequence number, which of its rows have a time, and an identity; the
      header is the number of stations and whether all of its fields are there.
    - Request ids are pairs of the number of the dataset and the number within the
      dataset (startSnippet, deliverHeader); for the sub-ids see Rqid_Model.
    - The results of the children polled are logged in the order in which they come in;
      that order is the environment's.
    - A tile none of whose rows has a time makes fillCells throw.  (The loop of
      VisDataMux.cc:586-588 looks at row [nrow] before it compares with [nrow], hence
      reads beyond the array first.)
    - Left out: aborting (the abort flag is never set), the Python callbacks, output
      columns and tile formats, timers, status events, the input channel failing. *)
From Verif Require Import Base Vis_Model.
Local Open Scope Z_scope.

(** A tile *)
Record chunk := mkChunk {
  m_ant1 : Z;
  m_ant2 : Z;
  m_seq : Z;
  m_rows : list bool;      (* for every row: time(row) != 0 *)
  m_id : nat }.

Definition rq := (nat * nat)%type.

(** What the node does *)
Inductive action : Type :=
| AHeader (h : nat)                                   (* handler h gets the header *)
| ATile (h : nat) (r : rq) (c : chunk) (a b : nat)    (* handler h gets a tile, request, rows a..b *)
| AFooter (h : nat)
| ARun (n : nat) (r : rq)                             (* child n = 0, 1, 2 (start, pre, post) is executed *)
| APoll (i : nat) (r : rq)                            (* sink number i answers a request *)
| OHeader                                             (* posted to the output channel *)
| OData (t : nat)
| OFooter.

(** The answer of a child: a fail or an exception; no result (VisDataMux.cc:531: RES_WAIT
    or RES_ABORT); a result, with a tile or without *)
Inductive answer : Type := CFail | CWait | CDone (t : option nat).

Record env := mkEnv {
  e_handler : list action -> bool;     (* the handler called last did not throw *)
  e_child : list action -> answer;     (* the child run last *)
  e_cells : chunk -> bool;             (* the rest of fillCells does not throw *)
  e_order : list action -> list nat -> list nat;
  e_valid : nat -> bool;               (* children().isChildValid(n), n = 0, 1, 2 *)
  e_output : bool;                     (* output_channel_.valid() *)
  e_max : Z }.                         (* max_tiles_ *)

(** The state of the node, and the log.  VisDataMux.h:107-150 *)
Record mux := mkMux {
  handlers : list (list nat);
  kids : list (list nat);              (* child_indices_ *)
  have : list bool;                    (* have_tile_ *)
  cur : Z;                             (* current_seqnr_ *)
  next : rq;                           (* next_rqid_ *)
  now : option rq;                     (* current_req_ *)
  rows : nat * nat;                    (* current_range_ *)
  ntiles : Z;                          (* num_tiles_ *)
  cached : bool;                       (* cached_header_.valid() *)
  log : list action }.

(** C++: std::vector::resize *)
Definition resize {A} (n : nat) (d : A) (l : list A) : list A :=
  firstn n l ++ repeat d (n - length l).

Definition set_nth {A} (i : nat) (x : A) (l : list A) : list A :=
  firstn i l ++ match skipn i l with [] => [] | _ :: l' => x :: l' end.

Definition say (a : action) (m : mux) : mux :=
  mkMux (handlers m) (kids m) (have m) (cur m) (next m) (now m) (rows m) (ntiles m)
    (cached m) (log m ++ [a]).
Definition with_cached (b : bool) (m : mux) : mux :=
  mkMux (handlers m) (kids m) (have m) (cur m) (next m) (now m) (rows m) (ntiles m) b (log m).
Definition with_ntiles (n : Z) (m : mux) : mux :=
  mkMux (handlers m) (kids m) (have m) (cur m) (next m) (now m) (rows m) n (cached m) (log m).
Definition with_cur (s : Z) (m : mux) : mux :=
  mkMux (handlers m) (kids m) (have m) s (next m) (now m) (rows m) (ntiles m) (cached m) (log m).
Definition with_have (l : list bool) (m : mux) : mux :=
  mkMux (handlers m) (kids m) l (cur m) (next m) (now m) (rows m) (ntiles m) (cached m) (log m).

(** VisDataMux.h:104-105 *)
Definition formDataId (a b : Z) : Z := ifrNumber a b.

(** VisDataMux.cc:585-591: the first and the last row that have a time *)
Fixpoint firstValid (l : list bool) : option nat :=
  match l with
  | [] => None
  | true :: _ => Some 0%nat
  | false :: l' => option_map S (firstValid l')
  end.
Definition validRange (l : list bool) : option (nat * nat) :=
  match firstValid l, firstValid (rev l) with
  | Some a, Some b => Some (a, (length l - 1 - b)%nat)
  | _, _ => None
  end.

(** Calling handlers one after the other: VisDataMux.cc:318-330, 377-384, 403-412.  An
    exception is noted and the next handler is called. *)
Fixpoint callAll (E : env) (f : nat -> action) (l : list nat) (m : mux) : mux * bool :=
  match l with
  | [] => (m, true)
  | h :: l' =>
      let m1 := say (f h) m in
      let ok := e_handler E (log m1) in
      let '(m2, ok2) := callAll E f l' m1 in
      (m2, ok && ok2)
  end.

(** The execution of child [n] of the first three, if it is there: VisDataMux.cc:445-461,
    476-496, 555-575 *)
Definition runChild (E : env) (n : nat) (r : rq) (m : mux) : mux * bool :=
  if e_valid E n then
    let m1 := say (ARun n r) m in
    (m1, match e_child E (log m1) with CFail => false | _ => true end)
  else (m, true).

(** VisDataMux.cc:253-338.  [complete]: no field of the header is missing. *)
Definition deliverHeader (E : env) (nstations : Z) (complete : bool) (m : mux) : mux * bool :=
  let n := if 0 <? nstations then nstations else 30 in
  let maxdid := Z.to_nat (formDataId (n - 1) (n - 1) + 1) in
  let m1 := mkMux (resize maxdid [] (handlers m)) (resize maxdid [] (kids m))
                  (repeat false maxdid) (-1) (S (fst (next m)), 0%nat) (now m) (rows m)
                  (ntiles m) (cached m) (log m) in
  if complete then
    let '(m2, ok) := callAll E AHeader (concat (handlers m1)) m1 in
    (with_cached true m2, ok)
  else (m1, false).

(** VisDataMux.cc:423-466 with fillCells (582-620).  When fillCells throws, the next
    request id has been used up, but the current request and have_tile_ stay. *)
Definition startSnippet (E : env) (c : chunk) (m : mux) : mux * bool :=
  let r := next m in
  let nx := (fst r, S (snd r)) in
  match validRange (m_rows c) with
  | None =>
      (mkMux (handlers m) (kids m) (have m) (cur m) nx (now m) (rows m) (ntiles m)
         (cached m) (log m), false)
  | Some rng =>
      if e_cells E c then
        runChild E 0 r
          (mkMux (handlers m) (kids m) (repeat false (length (handlers m))) (cur m) nx
             (Some r) rng (ntiles m) (cached m) (log m))
      else
        (mkMux (handlers m) (kids m) (have m) (cur m) nx (now m) rng (ntiles m)
           (cached m) (log m), false)
  end.

(** VisDataMux.cc:500-509: the children enabled; enabling a child twice is the same as once *)
Definition enabled (m : mux) : list nat :=
  nodup Nat.eq_dec (flat_map (fun '(k, b) => if b : bool then k else []) (combine (kids m) (have m))).

(** VisDataMux.cc:533-547: the tile in a result goes to the output *)
Definition output (E : env) (t : nat) (m : mux) : mux :=
  if e_output E then
    let m1 := if cached m then with_cached false (say OHeader m) else m in
    say (OData t) m1
  else m.

(** VisDataMux.cc:512-552 *)
Fixpoint pollAll (E : env) (r : rq) (l : list nat) (m : mux) : mux * bool :=
  match l with
  | [] => (m, true)
  | i :: l' =>
      let m1 := say (APoll i r) m in
      match e_child E (log m1) with
      | CFail => let '(m2, _) := pollAll E r l' m1 in (m2, false)
      | CWait | CDone None => pollAll E r l' m1
      | CDone (Some t) => pollAll E r l' (output E t m1)
      end
  end.

(** VisDataMux.cc:468-580.  Without a current request the poll throws (511). *)
Definition endSnippet (E : env) (m : mux) : mux * bool :=
  match now m with
  | None => (m, false)
  | Some r =>
      let '(m1, ok1) := runChild E 1 r m in
      let '(m2, ok2) := pollAll E r (e_order E (log m1) (enabled m1)) m1 in
      let '(m3, ok3) := runChild E 2 r m2 in
      (m3, ok1 && ok2 && ok3)
  end.

Definition over (E : env) (m : mux) : bool := (0 <=? e_max E) && (e_max E <? ntiles m).

(** VisDataMux.cc:372-388: from the delivery of the tile on *)
Definition handOut (E : env) (c : chunk) (ok : bool) (m : mux) : mux * bool :=
  let did := Z.to_nat (formDataId (m_ant1 c) (m_ant2 c)) in
  let m1 := with_have (set_nth did true (have m)) m in
  let l := nth did (handlers m1) [] in
  match now m1 with
  | None => (m1, ok && match l with [] => true | _ => false end)
  | Some r =>
      let '(m2, ok2) := callAll E (fun h => ATile h r c (fst (rows m1)) (snd (rows m1))) l m1 in
      (m2, ok && ok2)
  end.

(** VisDataMux.cc:341-389 *)
Definition deliverTile (E : env) (c : chunk) (m : mux) : mux * bool :=
  if over E m then (m, true)
  else
    let did := formDataId (m_ant1 c) (m_ant2 c) in
    if Z.of_nat (length (handlers m)) <? did then (m, true)
    else if m_seq c =? cur m then handOut E c true m
    else
      let '(m1, ok1) := if 0 <=? cur m then endSnippet E m else (m, true) in
      let m2 := with_ntiles (ntiles m1 + 1) m1 in
      if over E m2 then (m2, true)
      else
        let '(m3, ok3) := startSnippet E c (with_cur (m_seq c) m2) in
        handOut E c (ok1 && ok3) m3.

(** VisDataMux.cc:391-421 *)
Definition deliverFooter (E : env) (m : mux) : mux * bool :=
  let '(m1, ok1) :=
    if over E m then (m, true)
    else
      let '(m1, ok1) := if 0 <=? cur m then endSnippet E m else (m, true) in
      let '(m2, ok2) := callAll E AFooter (concat (handlers m1)) m1 in
      (m2, ok1 && ok2) in
  (if e_output E then say OFooter m1 else m1, ok1).

(** The events of the input *)
Inductive event : Type :=
| EHeader (nstations : Z) (complete : bool)
| EData (c : chunk)
| EFooter
| EOther.

(** VisDataMux.cc:666-765: the loop.  [open] is [stream_state==VisData::DATA], [had]
    is had_data, [failed] is fail_list->isFail().  An event out of sequence is thrown out
    of the loop (696, 708, 735), caught (793-801) and added to the fails. *)
Fixpoint pollLoop (E : env) (l : list event) (open had failed : bool) (m : mux) : mux * bool :=
  match l with
  | [] => (m, failed || open || negb had)                     (* 767-773 *)
  | EData c :: l' =>
      if open then
        let '(m1, ok) := deliverTile E c m in pollLoop E l' open had (failed || negb ok) m1
      else (m, true)
  | EFooter :: l' =>
      if open then
        let '(m1, ok) := deliverFooter E m in pollLoop E l' false had (failed || negb ok) m1
      else (m, true)
  | EHeader n complete :: l' =>
      if open then (m, true)
      else
        let '(m1, ok) := deliverHeader E n complete m in
        pollLoop E l' true true (failed || negb ok) (with_ntiles 0 m1)
  | EOther :: l' => pollLoop E l' open had failed m
  end.

(** VisDataMux.cc:623-827: the final state, and whether RES_FAIL is returned.  The cached
    header is dropped at the start (664). *)
Definition pollChildren (E : env) (l : list event) (m : mux) : mux * bool :=
  pollLoop E l false false false (with_cached false m).
