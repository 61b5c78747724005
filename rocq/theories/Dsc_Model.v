(** Discovery of solvable parameters: what the nodes of a tree answer to a request of type DISCOVER_SPIDS.
    MEQ/src/Node.cc:867-900 (Node::discoverSpids), MeqNodes/src/Parm.cc:510-562, ReqSeq.cc:157-165, ReqMux.cc:72-79,
    Solver.h:122-125 and Solver.cc:919-948.
    Records are values here: Node::discoverSpids asks for a private copy of the Result (dewr_p, Node.cc:886) and
    Record::as_po for one of the map (Record.h:231-240), so that the Results of the children are left alone.
    Funklets are the polynomials of Polc_Model. *)
From Verif Require Import Base Polc_Model Slv_Model.

(** the record that describes a spid (Parm.cc:543-558).  The name of the node is left out, solve groups are numbers. *)
Record entry := { e_node : Z; e_group : Z; e_tiles : list nat; e_coeff : nat * nat }.
(** the record FSpidMap: an entry per spid, in the order of a std::map *)
Notation smap := (list (Z * entry)).
Fixpoint lookup (s : Z) (m : smap) : option entry :=
  match m with [] => None | (k, e) :: m => if (s =? k)%Z then Some e else lookup s m end.
(** assignment to a field ([over]) or insertion of a field that may exist already *)
Fixpoint insert (over : bool) (s : Z) (e : entry) (m : smap) : smap :=
  match m with
  | [] => [(s, e)]
  | (k, x) :: m => if (s <? k)%Z then (s, e) :: (k, x) :: m
                   else if (s =? k)%Z then (k, if over then e else x) :: m
                   else (k, x) :: insert over s e m
  end.
(** Record::merge(other,false), DMI/src/Record.cc:132-156 *)
Fixpoint merge (m other : smap) : smap :=
  match other with [] => m | (s, e) :: other => merge (insert false s e m) other end.

(** A Parm: whether it is solvable, its node index, solve group and tile sizes (none if it is not tiled), the funklet that
    initFunklet returns for the domain of the request (Parm.cc:520), and force_shape_ with shape_. *)
Record parm := { p_solvable : bool; p_node : Z; p_group : Z; p_tiles : list nat; p_funklet : funklet; p_dom : dom; p_shape : option (list nat) }.
(** lines 520-532: the funklet made solvable if it is not, then given its shape.  changeSolveDomain (line 528), which changes
    neither shape nor spids, is left out. *)
Definition ready (p : parm) : res funklet :=
  bind (match f_spids (p_funklet p) with [] => initSolvable (p_node p) true (p_funklet p) (p_dom p) | _ => Ok (p_funklet p) end) (fun f =>
  Ok (match p_shape p with Some s => setCoeffShape f s | None => f end)).
(** lines 543-560 *)
Definition describe (p : parm) (f : funklet) (i : nat) : entry :=
  {| e_node := p_node p; e_group := p_group p; e_tiles := p_tiles p; e_coeff := getCoeffIndex f i |}.
Fixpoint fill_map (p : parm) (f : funklet) (i : nat) (spids : list Z) (m : smap) : smap :=
  match spids with [] => m | s :: spids => fill_map p f (S i) spids (insert true s (describe p f i) m) end.

(** A Result, as far as discovery is concerned: there may be none, or it may have no map of spids. *)
Notation answer := (option (option smap)).
(** Parm::discoverSpids *)
Definition discover_parm (p : parm) : res answer :=
  if p_solvable p then bind (ready p) (fun f => Ok (Some (Some (fill_map p f 0 (f_spids f) [])))) else Ok None.
(** Node::discoverSpids: [ref] is the Result so far *)
Fixpoint discover_node (ref : answer) (children : list answer) : answer :=
  match children with
  | [] => ref
  | Some (Some m) :: children =>
      discover_node (match ref with
                     | None => Some (Some m)
                     | Some None => Some (Some m)
                     | Some (Some r) => Some (Some (merge r m))
                     end) children
  | _ :: children => discover_node ref children
  end.

(** The tree below a node.  A child that gives no Result (disabled, or not there) is [None].  A ReqSeq or ReqMux
    gives the Result of the child with number [k], and ignores fails of the others; for other nodes the fail of a child is a fail of the node
    (the default policy; see Poll_Model and Rsq_Model). *)
Inductive tree :=
| Parm (p : parm)
| Node (l : list (option tree))
| Pick (k : nat) (l : list (option tree))
| SolverNode (l : list (option tree)).
Fixpoint discover (t : tree) : res answer :=
  match t with
  | Parm p => discover_parm p
  | Node l =>
      bind ((fix all (l : list (option tree)) : res (list answer) :=
               match l with
               | [] => Ok []
               | None :: l => bind (all l) (fun r => Ok (None :: r))
               | Some t :: l => bind (discover t) (fun a => bind (all l) (fun r => Ok (a :: r)))
               end) l) (fun children => Ok (discover_node None children))
  | Pick k l =>
      (fix pick (k : nat) (l : list (option tree)) {struct l} : res answer :=
         match l, k with
         | [], _ => UB
         | c :: _, O => match c with Some t => discover t | None => Ok None end
         | _ :: l, S k => pick k l
         end) k l
  | SolverNode _ => Ok None
  end.

(** What a Solver takes from its children: Solver.cc:919-948, and the entries as populateSpidMap reads them (lines 301-322) *)
Definition spid_rec (x : Z * entry) : spidrec :=
  {| r_spid := fst x; r_node := e_node (snd x); r_group := e_group (snd x); r_tiles := e_tiles (snd x) |}.
Definition solver_map (l : list (option tree)) : res smap :=
  bind (discover (Node l)) (fun a => match a with Some (Some m) => Ok m | _ => Err end).
Definition solver_spids (nc : dims) (l : list (option tree)) : res solver :=
  bind (solver_map l) (fun m => match m with [] => Err | _ => populate nc (map spid_rec m) end).
