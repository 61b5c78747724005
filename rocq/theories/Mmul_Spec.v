(** What a product of scalars, vectors and matrices should mean: at every cell, and for all values of the solvable
    parameters that matter, the elements of the result are those of the product of matrices. *)
From Coq Require Import QArith Qcanon.
From Verif Require Import Base Vel_Model Vel_Spec Fun_Model Fun_Spec Ceq_Model Ceq_Spec.
Close Scope Q_scope. Close Scope Qc_scope. Local Open Scope nat_scope.

Definition zeroC : cplx := (0%Qc, 0%Qc).
Definition timesC (x y : cplx) : cplx := ((fst x * fst y - snd x * snd y)%Qc, (fst x * snd y + snd x * fst y)%Qc).
(** f 0 + ... + f (n-1) *)
Fixpoint sumC (n : nat) (f : nat -> cplx) : cplx := match n with O => zeroC | S n => plusC (sumC n f) (f n) end.

Section Tensors.
Context {F E : Type}.
(** A scalar or a matrix (rows, columns), whose elements depend on the parameters and on the cell.  A vector is a matrix of one column. *)
Inductive tensor :=
| Scalar (x : E -> list Z -> cplx)
| Matrix (p q : nat) (m : nat -> nat -> E -> list Z -> cplx).
(** a matrix of one element is a scalar *)
Definition shrink (t : tensor) : tensor := match t with Matrix 1 1 m => Scalar (m 0 0) | t => t end.
Definition product (s t : tensor) : option tensor :=
  match s, t with
  | Scalar x, Scalar y => Some (Scalar (fun e idx => timesC (x e idx) (y e idx)))
  | Scalar x, Matrix p q m | Matrix p q m, Scalar x => Some (Matrix p q (fun i k e idx => timesC (m i k e idx) (x e idx)))
  | Matrix p q a, Matrix q' r b =>
      if Nat.eqb q q' then Some (shrink (Matrix p r (fun i k e idx => sumC q (fun j => timesC (a i j e idx) (b j k e idx))))) else None
  end.
Fixpoint products (t : tensor) (ts : list tensor) : option tensor :=
  match ts with
  | [] => Some t
  | u :: ts => match product t u with Some t => products t ts | None => None end
  end.
Definition entry (t : tensor) (i k : nat) : E -> list Z -> cplx := match t with Scalar x => x | Matrix _ _ m => m i k end.
Definition in_range (t : tensor) (i k : nat) : Prop := match t with Scalar _ => i = 0 /\ k = 0 | Matrix p q _ => i < p /\ k < q end.
(** the dimensions a Result has for it; not those of a matrix of one element *)
Definition has_dims (t : tensor) (dims : list nat) : Prop :=
  match t with
  | Scalar _ => dims = []
  | Matrix p q _ => 1 <= p /\ 1 <= q /\ p * q <> 1 /\ (dims = [p; q] \/ q = 1 /\ dims = [p])
  end.
(** row-major *)
Definition offset (t : tensor) (i k : nat) : nat := match t with Scalar _ => 0 | Matrix _ q _ => i * q + k end.
Definition planes (t : tensor) : nat := match t with Scalar _ => 1 | Matrix p q _ => p * q end.

Variable full : list Z.
Variable perturb : E -> Z -> Qc -> E.
Variable delta : nat -> Z -> Qc.
Variable n : nat.
Variable e : E.
(** the parameters for which a VellSet may tell a value: the current ones, and those with one perturbation *)
Definition seen (e' : E) : Prop := e' = e \/ exists k s, k < n /\ e' = perturb e s (delta k s).
(** [f] gives a Vells for the field [x], or nothing where it is zero *)
Definition reads (f : E -> option cvells) (x : E -> list Z -> cplx) : Prop :=
  forall e', seen e' -> match f e' with Some v => stands full v (x e') | None => forall idx, inside full idx -> x e' idx = zeroC end.
(** the VellSet tells of the field [x] *)
Definition tells_of (d : vdata cvells Qc) (x : E -> list Z -> cplx) : Prop := exists f, tells perturb delta n e d f /\ reads f x.
Definition flags_go (d : vdata cvells Qc) : Prop :=
  forall f, d_flags d = Some f -> usable (v_shape f) (v_data f) /\ subshape (v_shape f) full.
(** the Result has the dimensions and elements of the tensor, without fails *)
Definition denotes (r : result cvells Qc F) (t : tensor) : Prop :=
  has_dims t (r_dims r) /\ length (r_vs r) = planes t /\
  forall i k, in_range t i k -> exists d, nth_error (r_vs r) (offset t i k) = Some (VData d) /\ tells_of d (entry t i k) /\ flags_go d.
(** the same, but elements may have failed *)
Definition denotes_or_fails (r : result cvells Qc F) (t : tensor) : Prop :=
  has_dims t (r_dims r) /\ length (r_vs r) = planes t /\
  forall i k, in_range t i k -> exists vs, nth_error (r_vs r) (offset t i k) = Some vs /\
    match vs with VFail l => l <> [] | VData d => tells_of d (entry t i k) /\ flags_go d end.
(** element (i,k) has failed, with these records; it is data *)
Definition failed (r : result cvells Qc F) (t : tensor) (i k : nat) (l : list F) : Prop := nth_error (r_vs r) (offset t i k) = Some (VFail l).
Definition has_data (r : result cvells Qc F) (t : tensor) (i k : nat) (d : vdata cvells Qc) : Prop := nth_error (r_vs r) (offset t i k) = Some (VData d).
(** a lone VellSet without flags that is zero or missing, and the tensor is zero throughout *)
Definition stands_for_zero (r : result cvells Qc F) (t : tensor) : Prop :=
  exists d, r_dims r = [] /\ r_vs r = [VData d] /\ d_spids d = [] /\ d_psets d = [] /\ d_flags d = None /\
    (d_value d = None \/ exists v, d_value d = Some v /\ length (v_data (c_arr v)) = 1 /\ stands full v (fun _ => zeroC)) /\
    forall i k, in_range t i k -> forall e' idx, seen e' -> inside full idx -> entry t i k e' idx = zeroC.
(** the same elements, with the same dimensions *)
Definition same_tensor (s t : tensor) : Prop :=
  (forall dims, has_dims s dims <-> has_dims t dims) /\ forall i k, in_range s i k -> in_range t i k /\ forall e' idx, entry s i k e' idx = entry t i k e' idx.
End Tensors.
Arguments tensor : clear implicits.
