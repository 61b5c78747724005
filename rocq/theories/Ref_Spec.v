(** Specification vocabulary for counted references (C06, C07, C08). *)
From Verif Require Import Base Ref_Model.
Local Open Scope Z_scope.

Definition live_ref (s : st) (r : nat) : Prop := getref s r <> None.
Definition live_obj (s : st) (o : nat) : Prop := getobj s o <> None.

(** does this reference (if it exists) point to [o]? *)
Definition hits (o : nat) (x : option ref) : bool :=
  match x with Some rf => match r_t rf with Some o' => Nat.eqb o' o | None => false end | None => false end.
(** number of existing references to object [o] *)
Definition nrefs (s : st) (o : nat) : nat := length (filter (hits o) (refs s)).

(** the references held inside existing objects *)
Definition mems (x : option ob) : list nat := match x with Some b => o_mem b | None => [] end.
Definition owned (l : list (option ob)) : list nat := flat_map mems l.
(** a reference of the program itself, not inside any object *)
Definition toplevel (s : st) (r : nat) : Prop := live_ref s r /\ ~ In r (owned (objs s)).

(** What can be seen through a reference, down to depth [k]: nothing, or the value of the
    object and what is seen through each of the references it holds. *)
Inductive tree := TCut | TNil | TNode (v : Z) (kids : list tree).
Fixpoint view (k : nat) (s : st) (r : nat) : tree :=
  match k with
  | O => TCut
  | S k' =>
    match getref s r with
    | None => TNil
    | Some rf =>
      match r_t rf with
      | None => TNil
      | Some o =>
        match getobj s o with
        | None => TNil
        | Some b => TNode (o_data b) (map (view k' s) (o_mem b))
        end
      end
    end
  end.

(** the tree with the value at the end of a path replaced *)
Fixpoint tset (t : tree) (path : list nat) (v : Z) : tree :=
  match t with
  | TNode d kids =>
    match path with
    | [] => TNode v kids
    | i :: p =>
      match nth_error kids i with
      | Some k => TNode d (setn i (tset k p v) kids)
      | None => t
      end
    end
  | _ => t
  end.

(** every reference met when following [path] from [r] is copy-on-write (not shared) *)
Fixpoint cow_path (s : st) (r : nat) (path : list nat) : Prop :=
  match getref s r with
  | None => True
  | Some rf =>
    r_sh rf = false /\
    match r_t rf with
    | None => True
    | Some o =>
      match getobj s o with
      | None => True
      | Some b =>
        match path with
        | [] => True
        | i :: p => match nth_error (o_mem b) i with Some m => cow_path s m p | None => True end
        end
      end
    end
  end.

(** What a program may do: use only references and objects that exist, destroy only its
    own references (not those inside objects), destroy only objects that are its own and
    have no references.  Overwriting a reference must not destroy the thing it is being
    overwritten with: see [copy_from_own_contents_refuted]. *)
Definition keeps (s : st) (r : nat) (P : st -> Prop) : Prop :=
  forall s1, detach s r = Done tt s1 -> live_ref s1 r /\ P s1.
Definition valid_op (s : st) (a : op) : Prop :=
  match a with
  | NewRef | NewObj _ _ _ _ => True
  | AddMember o | DropMember o _ => live_obj s o
  | Attach r o _ => live_ref s r /\ live_obj s o /\
      ((forall rf, getref s r = Some rf -> r_t rf <> Some o) -> keeps s r (fun s1 => live_obj s1 o))
  | Copy r x _ _ | Xfer r x _ _ => live_ref s r /\ live_ref s x /\ (r <> x -> keeps s r (fun s1 => live_ref s1 x))
  | Detach r | Privatize r _ _ | Lock r | Unlock r | Change r _ | Write r _ _ => live_ref s r
  | Destroy r => toplevel s r
  | DeleteObj o => exists b, getobj s o = Some b /\ o_anon b = false /\ nrefs s o = 0%nat
  end.

Definition after {A} (x : out A) (s' : st) : Prop := (exists a, x = Done a s') \/ x = Threw s'.

(** the states a program can get into, operations that throw included *)
Inductive reach : st -> Prop :=
| reach_init : reach init
| reach_step s a fuel s' : reach s -> valid_op s a -> after (step fuel s a) s' -> reach s'.

(** [r] is the only reference to an anonymous object *)
Definition sole_anon (s : st) (r : nat) : Prop :=
  exists rf o b, getref s r = Some rf /\ r_t rf = Some o /\ getobj s o = Some b /\
                 o_anon b = true /\ nrefs s o = 1%nat.
(** every reference to an anonymous object is writable (Change(READONLY) was not used) *)
Definition all_writable (s : st) : Prop :=
  forall r rf o b, getref s r = Some rf -> r_t rf = Some o -> getobj s o = Some b -> o_anon b = true -> r_wr rf = true.
Definition is_deep (fl : rflags) (depth : Z) : Prop := f_deep fl = true \/ 0 < depth.
(** operations that do not lose track of an object (see [privatize_deep_leaks_refuted]) *)
Definition careful (s : st) (a : op) : Prop :=
  match a with
  | Privatize r fl d => ~ sole_anon s r \/ (~ is_deep fl d /\ forall rf, getref s r = Some rf -> r_wr rf = true)
  | Xfer r x fl d => ~ is_deep fl d \/ (r <> x -> forall s1, detach s r = Done tt s1 -> ~ sole_anon s1 x)
  | Write _ _ _ => all_writable s
  | _ => True
  end.
Inductive reach_careful : st -> Prop :=
| rc_init : reach_careful init
| rc_step s a fuel s' : reach_careful s -> valid_op s a -> careful s a -> after (step fuel s a) s' -> reach_careful s'.

(** operations that neither make a reference read-only nor copy deeply *)
Definition gentle (a : op) : Prop :=
  match a with
  | Change _ fl => f_ro fl = false
  | Copy _ _ fl d | Xfer _ _ fl d | Privatize _ fl d => f_deep fl = false /\ d <= 0
  | Attach _ _ fl => f_deep fl = false
  | _ => True
  end.
Inductive reach_gentle : st -> Prop :=
| rg_init : reach_gentle init
| rg_step s a fuel s' : reach_gentle s -> valid_op s a -> gentle a -> after (step fuel s a) s' -> reach_gentle s'.

(** the program's references an operation may change *)
Definition named (a : op) (x : nat) : Prop :=
  match a with
  | Copy r y _ _ => x = r
  | Xfer r y _ _ => x = r \/ x = y
  | Attach r _ _ | Detach r | Privatize r _ _ | Lock r | Unlock r | Change r _ | Destroy r | Write r _ _ => x = r
  | _ => False
  end.

(** running a program; operations that throw leave their state and the program goes on *)
Fixpoint run (fuel : nat) (s : st) (l : list op) : option st :=
  match l with
  | [] => Some s
  | a :: l' => match step fuel s a with Done _ s' => run fuel s' l' | Threw s' => run fuel s' l' | _ => None end
  end.
