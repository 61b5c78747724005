(** What is expected of riders and of Node::execute; independent of the model's functions. *)
From Coq Require Import String.
From Verif Require Import Base Rid_Model Ncache_Model Poll_Model.
Local Open Scope Z_scope.
Open Scope list_scope.

(** ** Records: hash maps have every key once *)
Definition same (x y : list Z) : bool := if list_eq_dec Z.eq_dec x y then true else false.
Definition at_ (h : list (list (list Z * val))) (a : nat) : list (list Z * val) := nth a h [].
Definition keyed (h : list (list (list Z * val))) : Prop := Forall (fun r => NoDup (map fst r)) h.
Definition look (r : list (list Z * val)) (f : list Z) : option val := option_map snd (find (fun p => same (fst p) f) r).
Definition holdsRec h a f b : Prop := In (f, VRec b) (at_ h a).
(** references stay inside, and no record holds itself *)
Definition sound (h : list (list (list Z * val))) : Prop :=
  forall a f b, In (f, VRec b) (at_ h a) -> (b < length h)%nat /\ a <> b.

Section Commands.
Variable W : vocab.
Definition selection (c : list Z) : Prop := c = [AidName W] \/ c = [AidNodeIndex W].
(** ** Which commands does a rider have for a node? *)
Definition isCommand h a (x : call) : Prop :=
  exists b, In (fst x, VRec b) (at_ h a) /\ snd x = at_ h b /\ ~ selection (fst x).
(** an entry of a list is for the node if it has its index or its name, or names nobody *)
Definition isFor (nd : nodeid) (e : list (list Z * val)) : Prop :=
  (exists l, In ([AidNodeIndex W], VInts l) e /\ In (nd_index nd) l) \/
  (exists l, In ([AidName W], VStrs l) e /\ In (nd_name nd) l) \/
  ((forall l, In ([AidNodeIndex W], VInts l) e -> l = []) /\ (forall l, In ([AidName W], VStrs l) e -> l = [])).
Definition firstFor h nd (l : list nat) (e : nat) : Prop :=
  exists l1 l2, l = l1 ++ e :: l2 /\ isFor nd (at_ h e) /\ Forall (fun d => ~ isFor nd (at_ h d)) l1.
Definition commanded h nd (root : nat) (x : call) : Prop :=
  exists g a, In g (nd_groups nd) /\ holdsRec h root g a /\
    ((exists b, holdsRec h a [AidCommand W; AidAll W] b /\ isCommand h b x) \/
     (exists l e, In ([AidCommand W; AidBy W; AidList W], VList l) (at_ h a) /\ firstFor h nd l e /\ isCommand h e x) \/
     (exists b e, holdsRec h a [AidCommand W; AidBy W; AidNodeIndex W] b /\ holdsRec h b [nd_index nd] e /\ isCommand h e x)).

(** ** In which order? *)
Definition selectionb (c : list Z) : bool := same c [AidName W] || same c [AidNodeIndex W].
Definition commandsIn h a : list call :=
  flat_map (fun p => if selectionb (fst p) then [] else match snd p with VRec b => [(fst p, at_ h b)] | _ => [] end) (at_ h a).
Definition recCommands h (v : option val) : list call := match v with Some (VRec b) => commandsIn h b | _ => [] end.
Definition listed (r : list (list Z * val)) : list string * list Z :=
  (match look r [AidName W] with Some (VStrs l) => l | _ => [] end, match look r [AidNodeIndex W] with Some (VInts l) => l | _ => [] end).
Definition isForb (nd : nodeid) (e : list (list Z * val)) : bool :=
  let (names, indices) := listed e in
  if in_dec Z.eq_dec (nd_index nd) indices then true else if in_dec string_dec (nd_name nd) names then true
  else match names, indices with [], [] => true | _, _ => false end.
Definition listCommands h nd (v : option val) : list call :=
  match v with
  | Some (VList l) => match find (fun e => isForb nd (at_ h e)) l with Some e => commandsIn h e | None => [] end
  | _ => []
  end.
Definition groupCommands h nd a : list call :=
  recCommands h (look (at_ h a) [AidCommand W; AidAll W]) ++
  listCommands h nd (look (at_ h a) [AidCommand W; AidBy W; AidList W]) ++
  match look (at_ h a) [AidCommand W; AidBy W; AidNodeIndex W] with Some (VRec b) => recCommands h (look (at_ h b) [nd_index nd]) | _ => [] end.
Definition riderCommands h nd root : list call :=
  flat_map (fun g => match look (at_ h root) g with Some (VRec a) => groupCommands h nd a | _ => [] end) (nd_groups nd).

(** ** Riders of the right shape *)
Definition fineCommands h a : Prop := forall c v, In (c, v) (at_ h a) -> selection c \/ exists b, v = VRec b.
Definition fineRec h (v : option val) : Prop := forall w, v = Some w -> exists b, w = VRec b /\ fineCommands h b.
Definition fineEntry (e : list (list Z * val)) : Prop :=
  (forall v, look e [AidName W] = Some v -> exists l, v = VStrs l) /\ (forall v, look e [AidNodeIndex W] = Some v -> exists l, v = VInts l).
Definition fineGroup h nd a : Prop :=
  fineRec h (look (at_ h a) [AidCommand W; AidAll W]) /\
  (forall w, look (at_ h a) [AidCommand W; AidBy W; AidList W] = Some w ->
             exists l, w = VList l /\ forall e, In e l -> fineEntry (at_ h e) /\ fineCommands h e) /\
  (forall w, look (at_ h a) [AidCommand W; AidBy W; AidNodeIndex W] = Some w ->
             exists b, w = VRec b /\ fineRec h (look (at_ h b) [nd_index nd])).
Definition fineRider h nd root : Prop :=
  forall g v, In g (nd_groups nd) -> look (at_ h root) g = Some v -> exists a, v = VRec a /\ fineGroup h nd a.
End Commands.

(** the codes of the commands carried out *)
Fixpoint codes (pc : list call -> call -> option Z) (before : list call) (l : list call) : Z :=
  match l with
  | [] => 0
  | x :: l => Z.lor (match pc before x with Some k => k | None => 0 end) (codes pc (before ++ [x]) l)
  end.

(** ** Node::execute *)
Section Execute.
Context {R C : Type}.
Variable T : rtypes.
(** a request is new unless it has the id of the last one; an empty id is always new *)
Definition isNew (cur : option (list Z)) (rq : ask C) : Prop := a_id rq = [] \/ cur <> Some (a_id rq).
(** execution goes past the cache *)
Definition processed (w : world R C) : Prop := w_abort w 0 = false /\ w_lookup w = LMiss.
Definition takesRider (w : world R C) cur (rq : ask C) : Prop := processed w /\ isNew cur rq /\ w_rider w = true.
Definition commandCode (w : world R C) cur (rq : ask C) (k : Z) : Prop :=
  (takesRider w cur rq -> snd (w_commands w) = Some k) /\ (~ takesRider w cur rq -> k = 0).
(** the children are polled *)
Definition polled (w : world R C) cur (rq : ask C) : Prop :=
  processed w /\ (exists k, commandCode w cur rq k) /\ w_active w = true.
Definition kept (rq : ask C) (k : Z) : Z := match a_cells rq with Some _ => 0 | None => k end.
Definition clean (k : Z) : Prop := Z.land k RES_WAIT = 0 /\ Z.land k RES_FAIL = 0 /\ Z.land k RES_MISSING = 0.
(** the children have answered, and nothing stands in the way of the node's own computation *)
Definition computes (w : world R C) cur (rq : ask C) : Prop :=
  polled w cur rq /\ w_abort w 1 = false /\ a_cells rq <> None /\ w_childcells w <> None /\
  exists p r, w_poll w = Some (p, r) /\ clean p.
Definition evaluates (rq : ask C) : Prop := 0 <= evalMode T (rq_type (a_id rq)).
Definition discovers (rq : ask C) : Prop := ~ evaluates rq /\ rq_type (a_id rq) = DISCOVER_SPIDS T.
End Execute.
Definition isCommandAct {R} (a : act R) : bool := match a with ACommand _ => true | _ => false end.
Definition isCache {R} (a : act R) : bool := match a with ACache _ _ => true | _ => false end.
Definition isPoll {R} (a : act R) : bool := match a with APoll => true | _ => false end.
Definition isGet {R} (a : act R) : bool := match a with AGetResult => true | _ => false end.
Definition isDiscover {R} (a : act R) : bool := match a with ADiscover => true | _ => false end.
Definition isError {R} (a : act R) : bool := match a with AError => true | _ => false end.
Section Calls.
Context {R C : Type}.
Variable T : rtypes.
(** the children have answered without anything to report *)
Definition answered (w : world R C) cur (rq : ask C) : Prop :=
  polled w cur rq /\ w_abort w 1 = false /\ a_cells rq <> None /\ exists p r, w_poll w = Some (p, r) /\ clean p.
(** something that the node runs throws an exception *)
Definition throws (w : world R C) cur (rq : ask C) : Prop :=
  (w_abort w 0 = false /\ w_lookup w = LThrow) \/
  (takesRider w cur rq /\ snd (w_commands w) = None) \/
  (polled w cur rq /\ w_poll w = None) \/
  (answered w cur rq /\ w_childcells w = None) \/
  (computes w cur rq /\ evaluates T rq /\ w_get w = None) \/
  (computes w cur rq /\ discovers T rq /\ w_spids w = None).
(** a number of calls, one after the other *)
Fixpoint calls (run : world R C -> option (list Z) -> ask C -> option R -> done R) (cur : option (list Z)) (l : list (world R C * ask C * option R)) : list (done R) :=
  match l with
  | [] => []
  | (w, rq, ref) :: l => let o := run w cur rq ref in o :: calls run (o_cur o) l
  end.
End Calls.
