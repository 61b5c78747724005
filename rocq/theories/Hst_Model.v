(** MeqNodes/src/HistoryCollect.cc: a node that keeps a list of things it has found in the results of its child.
    The items are anything ([A]).  The two labels of the node (where to look in a result, where to put the list) are not followed. *)
From Verif Require Import Base.
Local Open Scope nat_scope.

(** a field of a state record: not there, there with a value of the wrong type (get() throws), there *)
Inductive field (T : Type) := Absent | Bad | Given (v : T).
Arguments Absent {T}. Arguments Bad {T}. Arguments Given {T} v.
(** what Node::setStateImpl (Node.cc:239-366) makes of the rest of the record: fine, refused, or refused for a field that may not be changed
    (Node.cc:250-259, with the exception of Node.h:690 that asks for no cleanup) *)
Inductive base := BaseOk | BaseRefused | BaseProtected.
(** the record of a setState: top_label or input_index, max_list_size, verbose, and if history_list is there *)
Record hrec := { f_base : base; f_labels : field unit; f_max : field Z; f_verbose : field bool; f_list : bool }.

Section Items.
Variable A : Type.
(** the members max_size_ and verbose_, the fields of these in the state record, and the list (which is in the state record only) *)
Record hstate := { h_max : Z; h_verbose : bool; r_max : Z; r_verbose : bool; h_list : list A }.
Definition get {T} (f : field T) (v : T) : T := match f with Given w => w | _ => v end.
Definition isbad {T} (f : field T) : bool := match f with Bad => true | _ => false end.
(** HistoryCollect.cc:45-52 and 58-69 with the record the node is made from (members first have the values -1 and false);
    a list in the record is replaced by an empty one *)
Definition make (max : field Z) (verbose : field bool) : hstate :=
  let m := get max (-1)%Z in let v := get verbose false in {| h_max := m; h_verbose := v; r_max := m; r_verbose := v; h_list := [] |}.
(** setStateImpl with initializing set, for the state record itself *)
Definition again (s : hstate) : hstate := {| h_max := r_max s; h_verbose := r_verbose s; r_max := r_max s; r_verbose := r_verbose s; h_list := [] |}.
(** HistoryCollect.cc:58-69: the members afterwards, and if it gets to the end *)
Definition set_impl (s : hstate) (rec : hrec) : hstate * bool :=
  if isbad (f_labels rec) then (s, false) else
  if isbad (f_max rec) then (s, false) else
  let s := {| h_max := get (f_max rec) (h_max s); h_verbose := h_verbose s; r_max := r_max s; r_verbose := r_verbose s; h_list := h_list s |} in
  if isbad (f_verbose rec) then (s, false) else
  ({| h_max := h_max s; h_verbose := get (f_verbose rec) (h_verbose s); r_max := r_max s; r_verbose := r_verbose s; h_list := h_list s |}, true).
(** Node.cc:368-407: refused records lead to another round with the state record (line 393); accepted ones are merged into it (line 404),
    with an empty list if there is one (HistoryCollect.cc:67-68) *)
Definition setState (s : hstate) (rec : hrec) : hstate * bool :=
  match f_base rec with
  | BaseProtected => (s, false)
  | BaseRefused => (again s, false)
  | BaseOk =>
      match set_impl s rec with
      | (s, false) => (again s, false)
      | (s, true) => ({| h_max := h_max s; h_verbose := h_verbose s; r_max := get (f_max rec) (r_max s); r_verbose := get (f_verbose rec) (r_verbose s);
                         h_list := if f_list rec then [] else h_list s |}, true)
      end
  end.

(** lines 124-130 *)
Fixpoint remove_first (n : nat) (l : list A) : list A := match n with O => l | S n => remove_first n (tl l) end.
Definition trim (m : Z) (l : list A) : list A := if (0 <? m)%Z then remove_first (Z.to_nat (Z.of_nat (length l) - m)) l else l.
(** getResult, lines 100-136: the child has the item, or not; the list the result has, if any *)
Definition getResult (s : hstate) (item : option A) : hstate * option (list A) :=
  match item with
  | None => (s, None)
  | Some x =>
      let l := trim (h_max s) (h_list s ++ [x]) in
      ({| h_max := h_max s; h_verbose := h_verbose s; r_max := r_max s; r_verbose := r_verbose s; h_list := l |}, if h_verbose s then Some l else None)
  end.
(** processCommand, lines 80-98 *)
Inductive event := Result (item : option A) | Set_state (rec : hrec) | Get_history | Clear_history.
Definition cleared (s : hstate) : hstate := {| h_max := h_max s; h_verbose := h_verbose s; r_max := r_max s; r_verbose := r_verbose s; h_list := [] |}.
Definition react (s : hstate) (e : event) : hstate * option (list A) :=
  match e with
  | Result item => getResult s item
  | Set_state rec => (fst (setState s rec), None)
  | Get_history => (s, Some (h_list s))
  | Clear_history => (cleared s, None)
  end.
Fixpoint reacts (s : hstate) (es : list event) : hstate := match es with [] => s | e :: es => reacts (fst (react s e)) es end.
End Items.
Arguments h_max {A}. Arguments h_verbose {A}. Arguments r_max {A}. Arguments r_verbose {A}. Arguments h_list {A}.
Arguments Result {A}. Arguments Set_state {A}. Arguments Get_history {A}. Arguments Clear_history {A}.
