(** Specification vocabulary for block sets (C09). *)
From Verif Require Import Base Bset_Model.
Local Open Scope Z_scope.

(** the bytes the cursor has not delivered yet *)
Definition rest (s : bset) : list Z :=
  match cur s with CAt d off => skipn off (concat (ahead s d)) | CNone => [] end.
(** the cursor is usable: it points to a block of the set, or to the end *)
Definition cursor_ok (s : bset) : Prop :=
  match cur s with
  | CNone => False
  | CAt O off => True
  | CAt d off => (d <= length (blocks s))%nat /\ (off <= length (hd [] (ahead s d)))%nat
  end.
(** size() is the number of blocks *)
Definition size_ok (s : bset) : Prop := cursize s = Z.of_nat (length (blocks s)).

(** the chunks got by asking for the given sizes in turn *)
Fixpoint reads (s : bset) (ns : list nat) : res (list (option (list Z)) * bset) :=
  match ns with
  | [] => Ok ([], s)
  | n :: ns' =>
    match bs_getCursorData s n with
    | Ok (o, s1) => match reads s1 ns' with Ok (os, s2) => Ok (o :: os, s2) | Err => Err | UB => UB end
    | Err => Err
    | UB => UB
    end
  end.
Fixpoint somes {A} (l : list (option A)) : list A :=
  match l with [] => [] | Some a :: l' => a :: somes l' | None :: l' => somes l' end.

(** operations for the queue property: [QPush b] or [QPop]; result: what the pops returned *)
Inductive qop := QPush (b : list Z) | QPop.
Fixpoint qrun (s : bset) (l : list qop) : res (list (list Z) * bset) :=
  match l with
  | [] => Ok ([], s)
  | QPush b :: l' => qrun (bs_push s b) l'
  | QPop :: l' =>
    match bs_pop s with
    | Ok (b, s1) => match qrun s1 l' with Ok (bs, s2) => Ok (b :: bs, s2) | Err => Err | UB => UB end
    | Err => Err
    | UB => UB
    end
  end.
Definition pushed (l : list qop) : list (list Z) := flat_map (fun o => match o with QPush b => [b] | QPop => [] end) l.
Definition pops (l : list qop) : nat := length (filter (fun o => match o with QPop => true | _ => false end) l).
