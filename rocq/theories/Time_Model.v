(** Model of DMI/src/{Timestamp.h,Timestamp.cc}.
    [long] is unbounded here (no overflow); [double] arguments are exact rationals. *)
From Coq Require Import QArith Qround.
From Verif Require Import Base.
Local Open Scope Z_scope.

(** Timestamp.h:153-159 *)
Record ts := { sec : Z; usec : Z }.

(** Timestamp.cc:104-108, first loop of normalize; [fuel] bounds the number of rounds *)
Fixpoint norm_down (fuel : nat) (t : ts) : option ts :=
  if 1000000 <=? usec t then
    match fuel with
    | O => None
    | S f => norm_down f {| sec := sec t + 1; usec := usec t - 1000000 |}
    end
  else Some t.
(** Timestamp.cc:109-113, second loop *)
Fixpoint norm_up (fuel : nat) (t : ts) : option ts :=
  if usec t <? 0 then
    match fuel with
    | O => None
    | S f => norm_up f {| sec := sec t - 1; usec := usec t + 1000000 |}
    end
  else Some t.
(** Timestamp.cc:101-115; [None] would be a loop that does not end *)
Definition normalize (t : ts) : option ts :=
  let n := Z.to_nat (Z.abs (usec t) / 1000000 + 1) in
  match norm_down n t with
  | Some t1 => norm_up n t1
  | None => None
  end.

(** Timestamp.cc:79-87, 90-98; Timestamp.h:254-265 *)
Definition ts_add (a b : ts) : option ts := normalize {| sec := sec a + sec b; usec := usec a + usec b |}.
Definition ts_sub (a b : ts) : option ts := normalize {| sec := sec a - sec b; usec := usec a - usec b |}.

(** Timestamp.h:186-219 *)
Definition ts_eq (a b : ts) : bool := (sec a =? sec b) && (usec a =? usec b).
Definition ts_ne (a b : ts) : bool := negb (ts_eq a b).
Definition ts_lt (a b : ts) : bool := if sec a =? sec b then usec a <? usec b else sec a <? sec b.
Definition ts_gt (a b : ts) : bool := if sec a =? sec b then usec b <? usec a else sec b <? sec a.
Definition ts_le (a b : ts) : bool := if sec a =? sec b then usec a <=? usec b else sec a <? sec b.
Definition ts_ge (a b : ts) : bool := if sec a =? sec b then usec b <=? usec a else sec b <? sec a.
(** Timestamp.h:230-239, operator bool and operator ! *)
Definition ts_bool (a : ts) : bool := negb (sec a =? 0) || negb (usec a =? 0).

(** C's round(): to nearest, halves away from zero *)
Definition cround (x : Q) : Z := if Qle_bool 0 x then Qfloor (x + (1#2)) else - Qfloor (- x + (1#2)).
(** Timestamp.cc:35-41 *)
Definition ts_of_seconds (x : Q) : ts :=
  let s := Qfloor x in {| sec := s; usec := Qfloor ((x - inject_Z s) * inject_Z 1000000) |}.
(** Timestamp.cc:120-127 *)
Definition ts_scale (t : ts) (x : Q) : option ts :=
  let s1 := (inject_Z (sec t) * x)%Q in
  let s := Qfloor s1 in
  normalize {| sec := s; usec := cround (inject_Z (usec t) * x + (s1 - inject_Z s) * inject_Z 1000000) |}.

(** the number printed by toString(units), Timestamp.cc:129-150, and by toString(format),
    57-68, for the four unit formats *)
Inductive unit_name := USec | UMsec | UUsec | UNsec.
Definition printed_units (t : ts) (u : unit_name) : Q :=
  match u with
  | USec => inject_Z (sec t) + inject_Z (usec t) * (1#1000000)
  | UMsec => inject_Z (sec t) * inject_Z 1000 + inject_Z (usec t) * (1#1000)
  | UUsec => inject_Z (sec t * 1000000 + usec t)
  | UNsec => inject_Z (sec t * 1000000000 + usec t * 1000)
  end.
Definition printed_format (t : ts) (u : unit_name) : Q :=
  match u with
  | USec => inject_Z (sec t) * inject_Z 1000 + inject_Z (usec t) * (1#1000)
  | UMsec => inject_Z (sec t) * inject_Z 1000 + inject_Z (usec t) * (1#1000)
  | UUsec => inject_Z (sec t * 1000000 + usec t)
  | UNsec => inject_Z (sec t * 1000000000 + usec t * 1000)
  end.
