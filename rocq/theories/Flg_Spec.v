(** What flagging should mean, apart from the code: which elements of a result get the flags of which elements of a child, and
    comparisons of a number with zero. *)
From Verif Require Import Base.

(** [faces all dims0 dims1 i j]: element [i] of a result of dimensions [dims0] takes the flags of element [j] of a child of dimensions
    [dims1]: element by element if the dimensions are the same, everything if one of the two is a scalar, or if so asked *)
Definition faces (all : bool) (dims0 dims1 : list nat) (i j : nat) : Prop :=
  all = true \/ (dims0 = dims1 /\ i = j) \/ (dims0 <> dims1 /\ (dims0 = [] \/ dims1 = [])).
(** nothing faces anything *)
Definition clash (all : bool) (dims0 dims1 : list nat) : Prop := all = false /\ dims0 <> dims1 /\ dims0 <> [] /\ dims1 <> [].

(** the comparisons with zero; [s] is the sign of a number, [None] when it is not a number *)
Inductive comparison_op := Equal | NotEqual | Less | Greater | LessEqual | GreaterEqual.
Definition holds (o : comparison_op) (s : option comparison) : Prop :=
  match o with
  | Equal => s = Some Eq
  | NotEqual => s <> Some Eq
  | Less => s = Some Lt
  | Greater => s = Some Gt
  | LessEqual => s = Some Lt \/ s = Some Eq
  | GreaterEqual => s = Some Gt \/ s = Some Eq
  end.
