(** Evaluation without any cache: every node evaluates its children anew for every request.
    Node functions are used as they are; nothing is remembered. *)
From Verif Require Import Base Rqid_Spec Poll_Model Ncache_Model.
Local Open Scope Z_scope.

Section Fresh.
Context {R : Type}.
Variable T : rtypes.
Variables (r_empty r_missing : R) (strip : R -> R) (mkfail : list R -> R).
Variable g : nat -> node R.

(** answers of the children in order, until one breaks off the poll *)
Fixpoint ask (ev : nat -> Z * option R) (stop : Z -> bool) (kids : list nat) : list (answer R) :=
  match kids with
  | [] => []
  | c :: kids' => Some (ev c) :: (if stop (fst (ev c)) then map (fun _ => None) kids' else ask ev stop kids')
  end.
Fixpoint fresh (f : nat) (rq : request) (i : nat) : Z * option R :=
  match f with
  | O => (0, None)
  | S f' =>
      if n_active (g i)
      then snd (conclude T r_empty r_missing mkfail (g i) rq (ask (fresh f' rq) (stops (g i)) (n_children (g i))))
      else (0, Some r_empty)
  end.

(** what an answer says beyond the dependencies: fail, missing, wait, abort *)
Definition FLAGS : Z := 0xFC * 2 ^ 16.
Definition flags (c : Z) : Z := Z.land c FLAGS.
Definition meaning (a : Z * option R) : Z * option R := (flags (fst a), snd a).

(** ** The graph: children are listed before their parents *)
Definition wellfounded : Prop := forall i c, In c (n_children (g i) ++ n_step (g i)) -> (c < i)%nat.

(** ** Nodes depend on a request through the declared positions (and its type) only *)
Definition type_of (rq : request) := rq_type (rq_id rq).
Definition mode (rq : request) := evalMode T (type_of rq).
Definition declared : Prop := forall i l rq rq' c r,
  n_eval (g i) l rq = (c, r) -> type_of rq' = type_of rq ->
  agree_under (Z.lor (n_deps (g i)) c) (rq_id rq) (rq_id rq') -> n_eval (g i) l rq' = (c, r).
(** everything but the type *)
Definition but_type (m : Z) : Z := Z.ldiff m DEPMASK_TYPE.
(** evaluating with derivatives and dropping them is evaluating without *)
Definition derivatives_apart : Prop :=
  strip r_empty = r_empty /\ strip r_missing = r_missing /\ (forall l, strip (mkfail l) = mkfail (map strip l)) /\
  forall i l rq rq' c r,
    n_eval (g i) l rq = (c, r) -> 0 < mode rq -> mode rq' = 0 ->
    agree_under (but_type (Z.lor (n_deps (g i)) c)) (rq_id rq) (rq_id rq') ->
    exists c', n_eval (g i) (map (option_map strip) l) rq' = (c', option_map strip r) /\ flags c' = flags c.
(** declared masks and codes carry no flags they should not *)
Definition plain_masks : Prop := forall i,
  flags (n_deps (g i)) = 0 /\ has (n_deps (g i)) RES_IGNORE_TYPE = false /\
  forall l rq, has (fst (n_eval (g i) l rq)) RES_IGNORE_TYPE = false.

(** ** The requests: whether a request has cells follows from its type; requests to evaluate
    have them *)
Definition typical (cells : Z -> bool) (rq : request) : Prop :=
  rq_cells rq = cells (type_of rq) /\ (0 <= mode rq -> rq_cells rq = true).
End Fresh.
