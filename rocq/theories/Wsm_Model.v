(** MeqNodes/src/WSum.cc and WMean.cc: sums and means with weights.
    Values are single exact rationals: planes, shapes, flags and perturbed values are those of Fun_Model. *)
From Coq Require Import QArith Qcanon.
From Verif Require Import Base.
Close Scope Q_scope. Close Scope Qc_scope. Local Open Scope nat_scope.

Definition iszero (x : Qc) : bool := if Qc_eq_dec x 0%Qc then true else false.
Definition count (n : nat) : Qc := Q2Qc (inject_Z (Z.of_nat n)).
(** number of children, the member weights, and which children are enabled *)
Record wnode := { w_n : nat; w_weights : list Qc; w_enabled : list bool }.
(** WSum.cc:30-33; children are enabled when they are attached (NodeNursery.cc:73) *)
Definition create (n : nat) : wnode := {| w_n := n; w_weights := [1%Qc]; w_enabled := repeat true n |}.
(** std::vector::resize with zero for what is missing *)
Definition resize (n : nat) (l : list Qc) : list Qc := firstn n l ++ repeat 0%Qc (n - length l).
(** WSum.cc:39-63, for the field weights of the record *)
Definition set_weights (s : wnode) (v : option (list Qc)) : wnode :=
  match v with
  | None => s
  | Some [] => {| w_n := w_n s; w_weights := [1%Qc]; w_enabled := repeat true (w_n s) |}
  | Some [w] => {| w_n := w_n s; w_weights := [w]; w_enabled := repeat true (w_n s) |}
  | Some ws => let ws := resize (w_n s) ws in {| w_n := w_n s; w_weights := ws; w_enabled := map (fun w => negb (iszero w)) ws |}
  end.
(** the loop of lines 80-85 *)
Fixpoint add_up (allsame : bool) (w0 : Qc) (ws vs : list Qc) (acc : Qc) : res Qc :=
  match vs with
  | [] => Ok acc
  | v :: vs =>
      match (if allsame then Some w0 else hd_error ws) with
      | None => UB
      | Some w => add_up allsame w0 (tl ws) vs (if iszero w then acc else acc + v * w)%Qc
      end
  end.
(** WSum::evaluate, lines 65-88 *)
Definition evaluate (ws vs : list Qc) : res Qc :=
  match vs, ws with
  | [], _ | _, [] => Ok 0%Qc
  | v :: vs, w :: ws' => add_up (Nat.eqb (length ws) 1) w ws' vs (if iszero w then 0%Qc else v * w)%Qc
  end.
(** WMean::NormWeights, WMean.cc:37-66 *)
Definition qsum (l : list Qc) : Qc := fold_left Qcplus l 0%Qc.
Definition norm (n : nat) (ws : list Qc) : list Qc :=
  match ws with
  | [] | [_] => [(1 / count n)%Qc]
  | _ => if iszero (qsum ws) then ws else map (fun w => w / qsum ws)%Qc ws
  end.
(** A request: children that are not enabled have no result (NodeNursery.cc:553-577, Node.cc:620-621), and Function::getResult
    (Function.cc:120-139) looks at the result of every child, which is refused for one that is not there (CountedRefBase.h:129-134). *)
Definition poll (s : wnode) (vs : list Qc) : list (option Qc) := map (fun ev : bool * Qc => if fst ev then Some (snd ev) else None) (combine (w_enabled s) vs).
Fixpoint all_there (rs : list (option Qc)) : res (list Qc) :=
  match rs with [] => Ok [] | Some v :: rs => bind (all_there rs) (fun vs => Ok (v :: vs)) | None :: _ => Err end.
Definition wsum_request (s : wnode) (vs : list Qc) : res Qc := bind (all_there (poll s vs)) (evaluate (w_weights s)).
(** WMean.cc:69-76: the weights are changed for good; the state afterwards *)
Definition wmean_request (s : wnode) (vs : list Qc) : wnode * res Qc :=
  match all_there (poll s vs) with
  | Ok vs => let ws := norm (w_n s) (w_weights s) in ({| w_n := w_n s; w_weights := ws; w_enabled := w_enabled s |}, evaluate ws vs)
  | Err => (s, Err)
  | UB => (s, UB)
  end.
