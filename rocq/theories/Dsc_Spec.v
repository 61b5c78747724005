(** Which Parms a node depends on, said without the protocol of discovery. *)
From Verif Require Import Base Polc_Model Slv_Model Dsc_Model.

(** A Parm below a node: through any child of an ordinary node, through the selected child of a ReqSeq or ReqMux, and
    never through a Solver. *)
Inductive below : tree -> parm -> Prop :=
| below_parm p : below (Parm p) p
| below_node l t p : In (Some t) l -> below t p -> below (Node l) p
| below_pick k l t p : nth_error l k = Some (Some t) -> below t p -> below (Pick k l) p.
(** number [i] of the unknowns of a solvable Parm has the spid [s] *)
Definition unknown_of (p : parm) (i : nat) (s : Z) : Prop :=
  p_solvable p = true /\ exists f, ready p = Ok f /\ nth_error (f_spids f) i = Some s.
(** the funklet has not been made solvable yet, or was by the same Parm *)
Definition own_funklet (p : parm) : Prop :=
  f_spids (p_funklet p) = [] \/ exists f d, initSolvable (p_node p) true f d = Ok (p_funklet p).
(** at most 256 unknowns *)
Definition small (p : parm) : Prop := forall f, ready p = Ok f -> length (f_spids f) <= 256.
(** the shape asked for is the one the funklet has *)
Definition in_shape (p : parm) : Prop := forall s, p_shape p = Some s -> f_shape (p_funklet p) = s.
(** node indices identify Parms *)
Definition one_per_node (t : tree) : Prop := forall p q, below t p -> below t q -> p_node p = p_node q -> p = q.
(** the selected children exist *)
Inductive selected : tree -> Prop :=
| selected_parm p : selected (Parm p)
| selected_node l : (forall t, In (Some t) l -> selected t) -> selected (Node l)
| selected_pick k l c : nth_error l k = Some c -> (forall t, c = Some t -> selected t) -> selected (Pick k l)
| selected_solver l : selected (SolverNode l).
(** The spids of the Result of a node for a request with perturbed values: those of a Parm if it is solvable, any of the children's for
    an ordinary node (Fun_Thms, Ceq_Thms, Mmul_Thms, Tfn_Thms), those of the selected child of a ReqSeq or ReqMux, and none
    for a Solver. *)
Inductive carries : tree -> list Z -> Prop :=
| carries_parm p l : (forall s, In s l -> exists i, unknown_of p i s) -> carries (Parm p) l
| carries_node l s : (forall x, In x s -> exists t s', In (Some t) l /\ carries t s' /\ In x s') -> carries (Node l) s
| carries_pick k l t s : nth_error l k = Some (Some t) -> carries t s -> carries (Pick k l) s
| carries_solver l : carries (SolverNode l) [].
