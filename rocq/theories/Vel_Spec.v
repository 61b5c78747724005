(** What Vells arithmetic should mean, independently of strides and iterators: an array of a given
    shape is a function of an index vector, constant along axes of extent 1 and along axes it does
    not have. *)
From Verif Require Import Base.
Local Open Scope Z_scope.

(** [inside out idx]: one coordinate per axis, each between 0 and the extent *)
Inductive inside : list Z -> list Z -> Prop :=
| inside_nil : inside [] []
| inside_cons s out x idx : 0 <= x < s -> inside out idx -> inside (s :: out) (x :: idx).

(** row-major position of the element an array of shape [s] has at [idx]; coordinates along axes of
    extent 1 do not matter, nor do coordinates past its last axis *)
Fixpoint position_from (acc : Z) (s idx : list Z) : Z :=
  match s, idx with
  | n :: s', x :: idx' => position_from (acc * n + (if n =? 1 then 0 else x)) s' idx'
  | _, _ => acc
  end.
Definition position (s idx : list Z) : Z := position_from 0 s idx.
Definition at_index {A} (s : list Z) (d : list A) (idx : list Z) : option A := nth_error d (Z.to_nat (position s idx)).

(** extents along axis [k] agree when equal or one of them is 1 *)
Definition ext (s : list Z) (k : nat) : Z := nth k s 1.
Definition broadcastable (a b : list Z) : Prop := forall k, ext a k = ext b k \/ ext a k = 1 \/ ext b k = 1.
(** the joint shape *)
Definition joint (a b out : list Z) : Prop :=
  length out = Nat.max (length a) (length b) /\ forall k, ext out k = Z.max (ext a k) (ext b k).
Definition proper (s : list Z) : Prop := Forall (fun n => 1 <= n) s.
Definition size (s : list Z) : Z := fold_right Z.mul 1 s.
Definition filled {A} (s : list Z) (d : list A) : Prop := proper s /\ Z.of_nat (length d) = size s.
(** all index vectors of a shape, in row-major order *)
Fixpoint indices (s : list Z) : list (list Z) :=
  match s with
  | [] => [[]]
  | n :: s' => flat_map (fun x => map (cons (Z.of_nat x)) (indices s')) (seq 0 (Z.to_nat n))
  end.
(** every two of the shapes can be broadcast against each other *)
Definition all_broadcastable (shapes : list (list Z)) : Prop := forall a b, In a shapes -> In b shapes -> broadcastable a b.
(** [s] varies along no axis along which [full] does not: it can be spread over [full] *)
Definition subshape (s full : list Z) : Prop := (length s <= length full)%nat /\ forall k, ext s k = 1 \/ ext s k = ext full k.
(** the flag bits at [idx] *)
Definition flag_at (fs : list Z) (fd : list Z) (idx : list Z) : Z := match at_index fs fd idx with Some f => f | None => 0 end.
Definition clear (fs fd : list Z) (mask : Z) (idx : list Z) : bool := Z.land (flag_at fs fd idx) mask =? 0.
(** totals over a list, for any operation *)
Fixpoint total {A B : Type} (op : B -> B -> B) (e : B) (f : A -> B) (l : list A) : B :=
  match l with [] => e | x :: l' => op (f x) (total op e f l') end.
(** an array the arithmetic can work on: as many elements as the shape says, at most 8 axes *)
Definition usable {A} (s : list Z) (d : list A) : Prop := filled s d /\ (length s <= 8)%nat.
