(** Specification vocabulary for timestamps (C21). *)
From Coq Require Import QArith.
From Verif Require Import Base Time_Model.
Local Open Scope Z_scope.

(** the time meant by a timestamp, in microseconds *)
Definition micros (t : ts) : Z := 1000000 * sec t + usec t.
Definition normal (t : ts) : Prop := 0 <= usec t < 1000000.
(** units per second *)
Definition per_second (u : unit_name) : Q :=
  match u with USec => 1 | UMsec => 1000 | UUsec => 1000000 | UNsec => 1000000000 end.
