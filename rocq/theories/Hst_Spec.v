(** What a history should be, from what has happened only. *)
From Verif Require Import Base Hst_Model.
Local Open Scope nat_scope.

(** the record is accepted *)
Definition accepted (rec : hrec) : Prop := f_base rec = BaseOk /\ f_labels rec <> Bad /\ f_max rec <> Bad /\ f_verbose rec <> Bad.
Section Items.
Variable A : Type.
Definition clears (e : event A) : Prop :=
  match e with
  | Clear_history => True
  | Set_state rec => (accepted rec /\ f_list rec = true) \/ (~ accepted rec /\ f_base rec <> BaseProtected)
  | _ => False
  end.
(** what the results have brought *)
Fixpoint items (es : list (event A)) : list A := match es with [] => [] | Result (Some x) :: es => x :: items es | _ :: es => items es end.
(** [es] ends with [tail], in which nothing clears; what comes before is nothing or ends with something that does *)
Definition since_cleared (es tail : list (event A)) : Prop :=
  Forall (fun e => ~ clears e) tail /\ (es = tail \/ exists before e, es = before ++ e :: tail /\ clears e).
(** the value last set, by a record that was accepted *)
Inductive last_set {T} (f : hrec -> field T) (v0 : T) : list (event A) -> T -> Prop :=
  | LNone es : (forall rec v, In (Set_state rec) es -> accepted rec -> f rec <> Given v) -> last_set f v0 es v0
  | LSome before rec v after : accepted rec -> f rec = Given v -> (forall rec' v', In (Set_state rec') after -> accepted rec' -> f rec' <> Given v') ->
      last_set f v0 (before ++ Set_state rec :: after) v.
(** the last [m] of a list *)
Definition last_of (m : nat) (l l' : list A) : Prop := exists before, l = before ++ l' /\ length l' = Nat.min m (length l).
End Items.
Arguments clears {A}. Arguments items {A}. Arguments since_cleared {A}. Arguments last_set {A T}. Arguments last_of {A}.
