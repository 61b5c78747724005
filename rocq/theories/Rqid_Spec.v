(** Request ids seen as total assignments of integers to positions 0,1,2,...
    (missing positions count as 0); masks seen as sets of positions. *)
From Verif Require Import Base.
Local Open Scope Z_scope.

Definition at_pos (id : list Z) (i : nat) : Z := nth i id 0.
Definition selected (mask : Z) (i : nat) : bool := (Nat.ltb i 16) && Z.testbit mask (Z.of_nat i).

Definition agree_under (mask : Z) (a b : list Z) : Prop :=
  forall i, selected mask i = true -> at_pos a i = at_pos b i.

(** the latest value assigned to a key by a history of assignments *)
Definition latest (h : list (list Z * Z)) (k : list Z) : option Z :=
  fold_left (fun acc kv => if list_eq_dec Z.eq_dec (fst kv) k then Some (snd kv) else acc) h None.
