(** What a conditional equation should mean: at every cell the difference of the two sides, and for every solvable
    parameter the rate at which it changes. *)
From Coq Require Import QArith Qcanon.
From Verif Require Import Base Vel_Model Vel_Spec Fun_Model Fun_Spec Ceq_Model.
Close Scope Q_scope. Local Open Scope Qc_scope. Local Open Scope nat_scope.

(** A complex number for every cell *)
Notation field := (list Z -> cplx) (only parsing).
(** The Vells [v] has the value [x idx] at every cell [idx] of a grid of shape [full]; axes along which [x] does not
    vary may be left out or have extent 1.  A Vells of double has real values. *)
Definition stands (full : list Z) (v : cvells) (x : field) : Prop :=
  usable (v_shape (c_arr v)) (v_data (c_arr v)) /\ subshape (v_shape (c_arr v)) full /\
  (forall idx, inside full idx -> at_index (v_shape (c_arr v)) (v_data (c_arr v)) idx = Some (x idx)) /\
  (c_cx v = false -> forall idx, inside full idx -> snd (x idx) = 0%Qc).
(** arithmetic of complex numbers *)
Definition plusC (x y : cplx) : cplx := ((fst x + fst y)%Qc, (snd x + snd y)%Qc).
Definition minusC (x y : cplx) : cplx := ((fst x - fst y)%Qc, (snd x - snd y)%Qc).
Definition timesR (t : Qc) (x : cplx) : cplx := ((t * fst x)%Qc, (t * snd x)%Qc).

Section Rates.
Context {E : Type}.
Variable perturb : E -> Z -> Qc -> E.
Variable delta : nat -> Z -> Qc.
Variable e : E.
(** The change of [X] when parameter [s] is perturbed, and the size of the perturbation: with one set of
    perturbations from the current value, with two sets from one perturbed value to the other. *)
Definition change (n : nat) (X : E -> cplx) (s : Z) : cplx :=
  match n with
  | 1 => minusC (X (perturb e s (delta 0 s))) (X e)
  | _ => minusC (X (perturb e s (delta 0 s))) (X (perturb e s (delta 1 s)))
  end.
Definition step (n : nat) (s : Z) : Qc := match n with 1 => delta 0 s | _ => (delta 0 s - delta 1 s)%Qc end.
Definition rate (n : nat) (X : E -> cplx) (s : Z) : cplx := timesR (/ step n s)%Qc (change n X s).
End Rates.

(** The VellSet of an equation LHS = RHS, where [X0] and [X1] give the two sides for any values of the parameters:
    how far the equation is from being satisfied, and for each parameter how fast LHS - RHS changes; the steps of the
    parameters; either all Vells are of double or all of dcomplex. *)
Definition states_equation {E} (full : list Z) (perturb : E -> Z -> Qc -> E) (delta : nat -> Z -> Qc) (n : nat) (e : E)
    (X0 X1 : E -> list Z -> cplx) (d : vdata cvells Qc) : Prop :=
  exists v ders, d_value d = Some v /\ stands full v (fun idx => minusC (X1 e idx) (X0 e idx)) /\
    d_psets d = [{| ps_pert := map (step delta n) (d_spids d); ps_val := ders |}] /\
    Forall2 (fun s x => c_cx x = c_cx v /\ stands full x (fun idx => rate perturb delta e n (fun e' => minusC (X0 e' idx) (X1 e' idx)) s)) (d_spids d) ders.
