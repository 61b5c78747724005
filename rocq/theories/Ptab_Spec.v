(** What a table of parameter values is expected to do, in terms of the history
    of what was saved, erased and reopened. *)
From Coq Require Import QArith Qcanon Sorted.
From Verif Require Import Base Bytes_Model Ptab_Model.
Close Scope Q_scope. Close Scope Qc_scope. Local Open Scope nat_scope.
Notation domain := (list (option (num * num))) (only parsing).
Notation bytes := (list Z) (only parsing).

(** ** Domains *)

Definition lt_num (a b : num) : Prop :=
  match a, b with
  | Fin x, Fin y => (x < y)%Qc
  | Fin _, Inf => True
  | Inf, _ => False
  end.
(** Every defined axis has a start below its end. *)
Definition proper (d : domain) : Prop :=
  length d = 8 /\ forall i a b, nth i d None = Some (a, b) -> lt_num a b.

(** A point is inside a domain if it is strictly within each defined axis. *)
Definition inside (p : nat -> Qc) (d : domain) : Prop :=
  forall i a b, nth i d None = Some (a, b) -> lt_num a (Fin (p i)) /\ lt_num (Fin (p i)) b.
(** Two domains meet if they have a point in common. *)
Definition meet (d e : domain) : Prop := exists p, inside p d /\ inside p e.

(** Ends that are equal up to 1e-16. *)
Definition near_num (a b : num) : Prop :=
  match a, b with
  | Fin x, Fin y => (x <= y + Q2Qc (1 # 10000000000000000))%Qc
                    /\ (y <= x + Q2Qc (1 # 10000000000000000))%Qc
  | Inf, Inf => True
  | _, _ => False
  end.
Definition near (d e : domain) : Prop :=
  forall i, i < 8 ->
  match nth i d None, nth i e None with
  | None, None => True
  | Some (a, b), Some (x, y) => near_num a x /\ near_num b y
  | _, _ => False
  end.

Definition num_dec (a b : num) : {a = b} + {a <> b}.
Proof. decide equality; apply Qc_eq_dec. Defined.
Definition dom_dec (d e : domain) : {d = e} + {d <> e}.
Proof. repeat decide equality; apply Qc_eq_dec. Defined.
Definition name_dec (a b : bytes) : {a = b} + {a <> b} := list_eq_dec Z.eq_dec a b.

(** ** Histories *)

Section Table.
Context {rest : Type}.
Notation funk := (funk rest).

(** What is done to a table. *)
Inductive event :=
| Saved (n : bytes) (f : funk)      (* a funklet saved under a name *)
| Erased (n : bytes) (d : domain)   (* the funklet of a name and a domain deleted *)
| ErasedAll (n : bytes)             (* all funklets of a name deleted *)
| Reopened.                         (* the table closed and opened again *)
Definition history := list event.

(** The domains ever saved, in the order of their first appearance. *)
Definition add_domain (ds : list domain) (e : event) : list domain :=
  match e with
  | Saved _ f => if in_dec dom_dec (f_dom f) ds then ds else ds ++ [f_dom f]
  | _ => ds
  end.
Definition domains_of (h : history) : list domain := fold_left add_domain h [].

(** The funklet a table is to hold for a name and a domain: the one saved last,
    unless it was erased since. *)
Definition keep (n : bytes) (d : domain) (o : option funk) (e : event) : option funk :=
  match e with
  | Saved n' f => if name_dec n' n then if dom_dec (f_dom f) d then Some f else o else o
  | Erased n' d' => if name_dec n' n then if dom_dec d' d then None else o else o
  | ErasedAll n' => if name_dec n' n then None else o
  | Reopened => o
  end.
Definition kept (h : history) (n : bytes) (d : domain) : option funk := fold_left (keep n d) h None.

(** A history in which nothing is erased that is not there. *)
Definition legal (h : history) : Prop :=
  forall before n d after, h = before ++ Erased n d :: after -> kept before n d <> None.

(** No two domains that were saved are equal up to 1e-16 without being equal. *)
Definition told_apart (h : history) : Prop :=
  forall d e, In d (domains_of h) -> In e (domains_of h) -> near d e -> d = e.

(** A Polc with a single coefficient. *)
Definition constant (f : funk) : Prop := f_polc f = true /\ length (f_coeff f) <= 1.

(** Funklets that can be stored: a constant one has a coefficient, of 8 bytes;
    any other is converted to blocks and back without loss, into less than 2 GB. *)
Definition storable (enc : funk -> list bytes) (dec : list bytes -> res funk) (f : funk) : Prop :=
  proper (f_dom f) /\
  (constant f -> exists c, f_coeff f = [c] /\ length c = 8) /\
  (~ constant f -> dec (enc f) = Ok f /\ enc f <> []
     /\ (Z.of_nat (8 + 8 * length (enc f) + length (concat (enc f))) < 2 ^ 31)%Z).
Definition all_storable enc dec (h : history) : Prop :=
  (forall n f, In (Saved n f) h -> storable enc dec f)
  /\ (Z.of_nat (length (domains_of h)) < 2 ^ 31)%Z.

(** What is read back: a constant Polc comes back as a plain Polc made from its
    coefficient, with the number of its domain as id; anything else as it was. *)
Definition restored (tp : Z) (pert weight : bytes) (r0 : rest) (i : nat) (f g : funk) : Prop :=
  (constant f ->
     f_polc g = true /\ f_class g = tp /\ f_coeff g = f_coeff f
     /\ f_pert g = pert /\ f_weight g = weight /\ f_rest g = r0
     /\ f_dom g = f_dom f /\ f_id g = Z.of_nat i)
  /\ (~ constant f -> g = f).
End Table.
Arguments event : clear implicits.
Arguments history : clear implicits.

(** ** Running the table through a history *)
Section Run.
Variable as_num : list bool -> num.
Variable as_flags : num -> list bool.
Variable rest : Type.
Variable enc : funk rest -> list bytes.

(** the place of a domain in a list *)
Fixpoint place (d : domain) (ds : list domain) : option nat :=
  match ds with
  | [] => None
  | e :: r => if dom_dec e d then Some 0 else option_map S (place d r)
  end.
Definition step (t : table) (e : event rest) : res table :=
  match e with
  | Saved n f => bind (putCoeff rest enc t n f) (fun r => Ok (fst r))
  | Erased n d => match place d (t_list t) with
                  | Some i => deleteFunklet t n i
                  | None => Err
                  end
  | ErasedAll n => Ok (deleteAllFunklets t n)
  | Reopened => Ok (open_table as_num as_flags (t_disk t))
  end.
Fixpoint run_from (t : table) (h : history rest) : res table :=
  match h with
  | [] => Ok t
  | e :: r => bind (step t e) (fun t' => run_from t' r)
  end.
Definition run (h : history rest) : res table := run_from (open_table as_num as_flags new_disk) h.
End Run.
