(** Specification of Records as finite maps with protected keys (C15-C17). *)
From Verif Require Import Base Rec_Model.
Local Open Scope Z_scope.

Section S.
Context {V : Type}.
(** a key is absent, or maps to contents (an object, or nothing) and a protection flag *)
Definition fmap := list Z -> option (option V * bool).

(** operations of a client, and what it sees *)
Inductive op :=
| OAdd (id : list Z) (v : option V) (replace protect : bool)      (* add, insert, replace *)
| OProtect (id : list Z) (p : bool)
| ORemove (id : list Z) (ignore : bool)                            (* removeField *)
| OHookRemove (id : list Z)
| OGet (id : list Z) (ignore : bool)
| OHookGet (id : list Z) (writing : bool)
| OHookInsert (id : list Z) (v : V)
| OHas (id : list Z)
| OClear.
Inductive seen := SFail | SDone | SBool (b : bool) | SVal (v : option V).

Definition upd (m : fmap) (k : list Z) (x : option (option V * bool)) : fmap :=
  fun k' => if list_eq_dec Z.eq_dec k k' then x else m k'.

(** the same operations on a finite map; [None]: refused, nothing changes *)
Definition spec_step (o : op) (m : fmap) : seen * fmap :=
  match o with
  | OAdd [] _ _ _ | OProtect [] _ | ORemove [] _ | OHookRemove [] | OGet [] _ | OHookGet [] _ | OHookInsert [] _ => (SFail, m)
  | OAdd id v rep prot =>
      match m id with
      | None => (SDone, upd m id (Some (v, prot)))
      | Some (_, p) => if rep && negb p then (SDone, upd m id (Some (v, prot))) else (SFail, m)
      end
  | OProtect id p => match m id with Some (v, _) => (SDone, upd m id (Some (v, p))) | None => (SFail, m) end
  | ORemove id ign =>
      match m id with
      | None => if ign then (SDone, m) else (SFail, m)
      | Some (_, p) => if p then (SFail, m) else (SDone, upd m id None)
      end
  | OHookRemove id =>
      match m id with
      | None => (SBool false, m)
      | Some (_, p) => if p then (SFail, m) else (SBool true, upd m id None)
      end
  | OGet id ign =>
      match m id with
      | None => if ign then (SVal None, m) else (SFail, m)
      | Some (v, _) => (SVal v, m)
      end
  | OHookGet id w =>
      match m id with
      | None => (SBool false, m)
      | Some (v, p) => if w && p then (SFail, m) else (SVal v, m)
      end
  | OHookInsert id v => match m id with None => (SDone, upd m id (Some (Some v, false))) | Some _ => (SFail, m) end
  | OHas id => (SBool match m id with Some _ => true | None => false end, m)
  | OClear => (SDone, fun _ => None)
  end.
Fixpoint spec_run (os : list op) (m : fmap) : list seen * fmap :=
  match os with
  | [] => ([], m)
  | o :: os' => let (s, m') := spec_step o m in let (ss, m'') := spec_run os' m' in (s :: ss, m'')
  end.

(** the same operations on the record, by unlocked reference.  What removeField returns is
    left out (see C17). *)
Definition rec_step (o : op) (r : record V) : seen * record V :=
  match o with
  | OAdd id v rep prot =>
      let '(ok, r', _) := rec_add id {| a_obj := v; a_locked := false |} true rep prot false r in
      ((if ok then SDone else SFail), r')
  | OProtect id p => let (ok, r') := protectField id p r in ((if ok then SDone else SFail), r')
  | ORemove id ign => let (x, r') := removeField id ign r in ((if is_ok x then SDone else SFail), r')
  | OHookRemove id => let (x, r') := hook_remove id r in (match x with Ok n => SBool (n =? 1) | _ => SFail end, r')
  | OGet id ign => let (x, r') := rec_get id ign r in (match x with Ok v => SVal v | _ => SFail end, r')
  | OHookGet id w => let (x, r') := hook_get id w r in
      (match x with Ok (Some v) => SVal v | Ok None => SBool false | _ => SFail end, r')
  | OHookInsert id v => let (ok, r') := hook_insert id v r in ((if ok then SDone else SFail), r')
  | OHas id => (SBool (hasField id r), r)
  | OClear => (SDone, rec_clear r)
  end.
Fixpoint rec_run (os : list op) (r : record V) : list seen * record V :=
  match os with
  | [] => ([], r)
  | o :: os' => let (s, r') := rec_step o r in let (ss, r'') := rec_run os' r' in (s :: ss, r'')
  end.

(** what a record contains *)
Definition contents (f : field V) : option V := match fd_obj f with Some v => Some v | None => fd_packed f end.
Definition view (r : record V) : fmap := fun k => option_map (fun f => (contents f, fd_prot f)) (findField k r).
(** a hash map has every key once; no field's reference is locked *)
Definition rec_ok (r : record V) : Prop := NoDup (map fst r) /\ Forall (fun kf => fd_lock (snd kf) = false) r.
Definition same (m m' : fmap) : Prop := forall k, m k = m' k.
End S.
