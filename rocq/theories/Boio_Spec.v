(** Specification vocabulary for object files (C10, C11). *)
From Verif Require Import Base Bytes_Model Boio_Model.
Local Open Scope Z_scope.

(** an object as it goes to the file: type and blocks *)
Definition item := (Z * list (list Z))%type.
(** the type is a type, and sizes fit the words they are stored in *)
Definition item_ok (i : item) : Prop :=
  i32_ok (fst i) = true /\ fst i <> 0 /\ Z.of_nat (length (snd i)) < 2 ^ 31 /\
  Forall (fun b => Z.of_nat (length b) < 2 ^ 64) (snd i).
(** it has blocks, and none of them is empty *)
Definition solid (i : item) : bool :=
  negb (Nat.eqb (length (snd i)) 0) && forallb (fun b => negb (Nat.eqb (length b) 0)) (snd i).

(** the file after writing items one after another (a write that throws leaves what it wrote) *)
Definition file_of (l : list item) : list Z := flat_map (fun i => fst (boio_write (fst i) (snd i))) l.
(** what reading an item back should give *)
Definition expected (i : item) : rout := if solid i then RObj (fst i) (snd i) else RThrow.
(** [n] calls to readAny *)
Fixpoint read_n (n : nat) (r : reader) : list rout :=
  match n with O => [] | S n' => let (o, r') := boio_readAny r in o :: read_n n' r' end.
Definition is_obj (o : rout) : bool := match o with RObj _ _ => true | _ => false end.
