(** What the VellSets that Function nodes produce should mean: a VellSet with spids tells the value of a
    function of the solvable parameters at the current parameters, and at each set of parameters
    obtained by perturbing just one of them. *)
From Coq Require Import Sorted.
From Verif Require Import Base Fun_Model.
Local Open Scope Z_scope.

Definition increasing (l : list Z) : Prop := StronglySorted Z.lt l.

Section Meaning.
Context {V P F E : Type}.
Variable perturb : E -> Z -> P -> E.     (* change one parameter *)
Variable delta : nat -> Z -> P.          (* the perturbation of a parameter in each perturbation set *)
Variable n : nat.                        (* number of perturbation sets *)
Variable e : E.                          (* the current parameters *)

(** [f] is missing ([None]) or a value *)
Definition tells (d : vdata V P) (f : E -> option V) : Prop :=
  d_value d = f e /\ increasing (d_spids d) /\ Forall (fun s => 0 <= s) (d_spids d) /\
  (length (d_psets d) <= n)%nat /\ (d_spids d <> [] -> length (d_psets d) = n /\ d_value d <> None) /\
  (forall k ps, nth_error (d_psets d) k = Some ps ->
     ps_pert ps = map (delta k) (d_spids d) /\ map Some (ps_val ps) = map (fun s => f (perturb e s (delta k s))) (d_spids d)) /\
  (forall k s, (k < n)%nat -> ~ In s (d_spids d) -> f (perturb e s (delta k s)) = f e).
Definition shows (vs : vset V P F) (f : E -> option V) : Prop := match vs with VFail l => l <> [] | VData d => tells d f end.

(** the VellSet of plane [p]: a result without dimensions stands for all planes *)
Definition plane_of (r : result V P F) (p : nat) : option (vset V P F) := nth_error (r_vs r) (match r_dims r with [] => 0 | _ => p end).
(** a Result has one VellSet per plane, and no dimensions if there is just one plane *)
Definition proper_result (r : result V P F) : Prop := length (r_vs r) = fold_right Nat.mul 1%nat (r_dims r) /\ (r_dims r = [] \/ length (r_vs r) <> 1%nat).
(** the function of a Function node: missing if an argument is missing, or if all are when missing
    arguments are allowed *)
Definition node_value (allow : bool) (ev : list (option V) -> res V) (xs : list (option V)) : option V :=
  let missing (x : option V) := match x with None => true | Some _ => false end in
  if existsb missing xs && (forallb missing xs || negb allow) then None
  else match ev xs with Ok v => Some v | _ => None end.

(** a tree of Function nodes; a leaf comes with its result and the function each plane of it stands for *)
Inductive tree :=
| Leaf (r : result V P F) (g : nat -> E -> option V)
| Node (ev : list (option V) -> res V) (allow : bool) (masks : list Z) (ts : list tree).
Fixpoint meaning (t : tree) (p : nat) (e' : E) : option V :=
  match t with
  | Leaf r g => g (match r_dims r with [] => 0%nat | _ => p end) e'
  | Node ev allow _ ts => node_value allow ev (map (fun t => meaning t p e') ts)
  end.
Inductive leaves (Q : result V P F -> (nat -> E -> option V) -> Prop) : tree -> Prop :=
| leaves_leaf r g : Q r g -> leaves Q (Leaf r g)
| leaves_node ev allow masks ts : Forall (leaves Q) ts -> leaves Q (Node ev allow masks ts).
(** each plane of a leaf tells its function *)
Definition good_leaf (r : result V P F) (g : nat -> E -> option V) : Prop :=
  proper_result r /\ forall p vs, nth_error (r_vs r) p = Some vs -> shows vs (g p).
End Meaning.
