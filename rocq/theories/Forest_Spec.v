(** Specification of the node registry (C34, C35): what a user sees is which index holds
    which node. *)
From Coq Require Import String Sorted.
From Verif Require Import Base Forest_Model.
Local Open Scope Z_scope.

(** the node with an index, if there is one: the view of a user *)
Definition view := Z -> option node.
Definition empty_view : view := fun _ => None.

(** a creation is admissible if the class exists, the record is good, and neither the name
    nor the index asked for is in use *)
Definition admissible (v : view) (r : initrec) : Prop :=
  i_class r <> EmptyString /\ (exists id, i_made r = Made id) /\
  (i_name r <> EmptyString -> forall j n, v j = Some n -> n_name n <> i_name r) /\
  (0 < i_index r -> v (i_index r) = None).
Definition upd (v : view) (i : Z) (x : option node) : view := fun j => if Z.eqb j i then x else v j.

(** What a call does to the view.  A node created without an index gets one above all. *)
Inductive step : view -> op -> view -> Prop :=
| step_create v r id ni : admissible v r -> i_made r = Made id -> 0 < ni ->
    (0 < i_index r -> ni = i_index r) -> (i_index r <= 0 -> forall j n, v j = Some n -> j < ni) ->
    step v (OCreate r) (upd v ni (Some {| n_name := i_name r; n_index := ni; n_id := id |}))
| step_create_fails v r : ~ admissible v r -> step v (OCreate r) v
| step_remove v i : step v (ORemove i) (upd v i None)
| step_clear v : step v OClear empty_view.

(** views that agree everywhere are the same *)
Definition same (v w : view) : Prop := forall i, v i = w i.
Inductive steps : view -> list op -> view -> Prop :=
| steps_nil v w : same v w -> steps v [] w
| steps_cons v o w ops x : step v o w -> steps w ops x -> steps v (o :: ops) x.
(** the indices of the nodes, in ascending order *)
Definition lists (v : view) (l : list (Z * string)) : Prop :=
  StronglySorted Z.lt (map fst l) /\ forall i s, In (i, s) l <-> exists n, v i = Some n /\ n_name n = s.
