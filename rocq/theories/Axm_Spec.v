(** Vocabulary for the names of axes. *)
From Verif Require Import Base.
Local Open Scope Z_scope.
Notation hiid := (list Z) (only parsing).

(** A number: an identifier "n". *)
Definition numeral (n : hiid) (k : Z) : Prop := n = [k] /\ 0 <= k.
(** A name: not empty and not a number. *)
Definition isName (n : hiid) : Prop := n <> [] /\ forall k, ~ numeral n k.
(** A list of names that can be given to the axes 0, 1, ...: numbers stand only
    at their own place. *)
Definition fitting (l : list hiid) : Prop := forall i n k, nth_error l i = Some n -> numeral n k -> k = Z.of_nat i.
(** [i] is the last place of [n] in [l]. *)
Definition last_place (l : list hiid) (n : hiid) (i : nat) : Prop :=
  nth_error l i = Some n /\ forall j, nth_error l j = Some n -> (j <= i)%nat.
