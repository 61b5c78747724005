(** Independent specification of identifier patterns: what a pattern means.
    A concrete identifier is a sequence of atoms none of which is the "?" atom
    (-1) or the "*" atom (-2). *)
From Verif Require Import Base Bytes_Model.
Local Open Scope Z_scope.

Definition concrete (s : list Z) : Prop := Forall (fun a => a <> -1 /\ a <> -2) s.

(** [denotes p s]: pattern [p] describes the concrete identifier [s]. *)
Inductive denotes : list Z -> list Z -> Prop :=
| den_nil : denotes [] []
| den_star p s : denotes (-2 :: p) s                       (* "*": any remainder *)
| den_any p a s : denotes p s -> denotes (-1 :: p) (a :: s) (* "?": any one atom *)
| den_atom p a s : a <> -1 -> a <> -2 -> denotes p s -> denotes (a :: p) (a :: s).

(** lexicographic order on atom sequences, a proper prefix being smaller *)
Inductive lex_lt : list Z -> list Z -> Prop :=
| lex_nil b y : lex_lt [] (b :: y)
| lex_head a b x y : a < b -> lex_lt (a :: x) (b :: y)
| lex_tail a x y : lex_lt x y -> lex_lt (a :: x) (a :: y).

(** slash-separated components: [joined comps] is [c1 / c2 / ... / cn] *)
Fixpoint joined (comps : list (list Z)) : list Z :=
  match comps with
  | [] => []
  | [c] => c
  | c :: rest => c ++ (-3) :: joined rest
  end.

(** every atom is a C++ int *)
Definition hiid_ok (x : list Z) : Prop := Forall (fun a => i32_ok a = true) x.
