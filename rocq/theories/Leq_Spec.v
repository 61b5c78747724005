(** What the equations for a Solver should be: one for each cell (two if values are complex) that is not flagged and
    has a positive weight, in the unknowns that belong to the parameters there. *)
From Coq Require Import QArith Qcanon.
From Verif Require Import Base Vel_Model Vel_Spec Slv_Spec Ceq_Model Ceq_Spec Leq_Model.
Close Scope Q_scope. Local Open Scope Qc_scope. Local Open Scope nat_scope.

(** The array [v] has the value [x idx] at every cell of a grid *)
Definition spread {A} (full : list Z) (v : vells A) (x : list Z -> A) : Prop :=
  usable (v_shape v) (v_data v) /\ subshape (v_shape v) full /\ forall idx, inside full idx -> at_index (v_shape v) (v_data v) idx = Some (x idx).
(** What a VellSet says about the cells: residual, flags (none is 0), weights (none is 1), derivatives by spid; all real or all complex *)
Definition describes (full : list Z) (e : eqset) (V : list Z -> cplx) (flag : list Z -> Z) (wt : list Z -> Qc) (D : Z -> list Z -> cplx) : Prop :=
  stands full (e_value e) V /\
  match e_flags e with Some f => spread full f flag | None => forall idx, flag idx = 0%Z end /\
  match e_weights e with Some w => spread full w wt | None => forall idx, wt idx = 1%Qc end /\
  Forall2 (fun s d => c_cx d = c_cx (e_value e) /\ stands full d (D s)) (e_spids e) (e_ders e).

(** An equation as its terms (unknown and coefficient), weight and right hand side; an unknown is a subsolver and a number *)
Notation linear := (list ((nat * nat) * Qc) * Qc * Qc)%type (only parsing).
Definition view (q : equation) : linear := (map (fun x => ((q_sub q, fst x), snd x)) (q_coefs q), q_weight q, q_rhs q).
(** [x] solves the equation *)
Fixpoint total_of (l : list Qc) : Qc := match l with [] => 0%Qc | a :: l => (a + total_of l)%Qc end.
Definition solves (x : nat * nat -> Qc) (q : equation) : Prop := total_of (map (fun t => (snd t * x (q_sub q, fst t))%Qc) (q_coefs q)) = q_rhs q.

(** The equations of a cell.  [terms]: solve group, unknown and derivative of each spid; one real equation per solve group
    that has terms, or two *)
Definition terms_of (g : nat) (terms : list (nat * (nat * nat) * cplx)) : list ((nat * nat) * cplx) :=
  map (fun t => (snd (fst t), snd t)) (filter (fun t => Nat.eqb (fst (fst t)) g) terms).
Definition lines (converged : nat -> bool) (cx : bool) (v : cplx) (w : Qc) (terms : list (nat * (nat * nat) * cplx)) (g : nat) : list linear :=
  let t := terms_of g terms in
  match t with
  | [] => []
  | (u, _) :: _ => if converged (fst u) then []
    else (map (fun t => (fst t, fst (snd t))) t, w, fst v) :: (if cx then [(map (fun t => (fst t, snd (snd t))) t, w, snd v)] else [])
  end.
Definition used (mask : Z) (flag : Z) (weight : Qc) : bool := Z.eqb (Z.land flag mask) 0 && match (weight ?= 0)%Qc with Gt => true | _ => false end.
(** the cell as an index vector *)
Definition index (c : list nat) : list Z := map Z.of_nat c.
(** Sum of complex numbers *)
Fixpoint sumC (l : list cplx) : cplx := match l with [] => c0 | a :: l => plusC a (sumC l) end.
