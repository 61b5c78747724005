(** Specification of child polling (C30-C32). *)
From Coq Require Import String Permutation.
From Verif Require Import Base Poll_Model.
Local Open Scope Z_scope.

(** the child numbers a list of names stands for *)
Definition denote (ch : list (option string)) (names : list string) (idx : list nat) : Prop :=
  Forall2 (fun nm i => nth_error ch i = Some (Some nm)) names idx.
(** every child has its own name *)
Definition distinct_names (ch : list (option string)) : Prop :=
  forall i j s, nth_error ch i = Some (Some s) -> nth_error ch j = Some (Some s) -> i = j.
(** a good order: the numbers given come first, in the order given, the others follow
    ascending, everyone once *)
Definition good_order (n : nat) (first : list nat) (ord : list nat) : Prop :=
  exists rest, ord = first ++ rest /\ Permutation ord (seq 0 n) /\ forall i j, (i < j < length rest)%nat -> (nth i rest 0 < nth j rest 0)%nat.

(** no child's return code ends the poll early *)
Definition quiet (cf : cfg) (code : nat -> Z) : Prop :=
  forall i, In i (c_order cf) -> c_enabled cf i = true ->
    has (code i) RES_ABORT = false /\ (c_fail cf = PolAbandon -> has (code i) RES_FAIL = false) /\
    (c_missing cf = PolAbandon -> has (code i) RES_MISSING = false).
(** same results and codes, same cumulative code, same fails in some order *)
Definition same_poll {R} (a b : got R) : Prop :=
  (forall i, g_res a i = g_res b i) /\ (forall i, g_code a i = g_code b i) /\ g_cumul a = g_cumul b /\ Permutation (g_fails a) (g_fails b).
