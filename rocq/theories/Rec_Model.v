(** Model of DMI/src/{Record.h,Record.cc}: the field operations of a Record.
    A field holds a reference ([fd_obj], possibly locked) or the blocks of an object not
    unpacked yet ([fd_packed]: the object they build; blocks that do not build are the
    subject of Ser_Model).  The hash map is an association list without duplicate keys, the
    order being the iteration order; a new key goes to an unspecified place, here the end. *)
From Verif Require Import Base Hiid_Model.
Local Open Scope Z_scope.

Section R.
Context {V : Type}.

Record field := { fd_obj : option V; fd_lock : bool; fd_packed : option V; fd_prot : bool }.
Definition record := list (list Z * field).
(** Record.h:78-80 *)
Definition new_field : field := {| fd_obj := None; fd_lock := false; fd_packed := None; fd_prot := false |}.

(** fields.find, Record.h:417-427 *)
Fixpoint findField (id : list Z) (r : record) : option field :=
  match r with [] => None | (k, f) :: r' => if hiid_eqb k id then Some f else findField id r' end.
(** assignment to the field of an id that exists, or insertion *)
Fixpoint putField (id : list Z) (f : field) (r : record) : record :=
  match r with [] => [(id, f)] | (k, g) :: r' => if hiid_eqb k id then (k, f) :: r' else (k, g) :: putField id f r' end.
(** fields.erase *)
Fixpoint eraseField (id : list Z) (r : record) : record :=
  match r with [] => [] | (k, g) :: r' => if hiid_eqb k id then r' else (k, g) :: eraseField id r' end.

(** Record.h:127-142, Field::ref(): unpacks if there is no reference *)
Definition fd_ref (f : field) : field :=
  match fd_obj f with
  | Some _ => f
  | None => {| fd_obj := fd_packed f; fd_lock := match fd_packed f with Some _ => false | None => fd_lock f end; fd_packed := None; fd_prot := fd_prot f |}
  end.

(** the reference given to add *)
Record aref := { a_obj : option V; a_locked : bool }.
(** flags of addField *)
Record aflags := { f_xfer : bool; f_replace : bool; f_protect : bool; f_honor : bool; f_locked : bool }.

(** Record.cc:76-84, Field::attach with CountedRefBase.cc:125-134, 162-165, 178-192:
    a locked reference in the field cannot be detached (it stays); then the old object is
    dropped before a locked argument is refused *)
Definition fd_attach (f : field) (a : aref) (fl : aflags) : bool * field * aref :=
  if fd_lock f && match fd_obj f with Some _ => true | None => false end then (false, f, a) else
  match a_obj a with
  | None => (true, {| fd_obj := None; fd_lock := false; fd_packed := None; fd_prot := f_protect fl |}, a)
  | Some v =>
    if f_xfer fl && a_locked a then
      (false, {| fd_obj := None; fd_lock := false; fd_packed := fd_packed f; fd_prot := fd_prot f |}, a)
    else
      (true, {| fd_obj := Some v; fd_lock := f_locked fl; fd_packed := None; fd_prot := f_protect fl |},
       if f_xfer fl then {| a_obj := None; a_locked := false |} else a)
  end.

(** Record.cc:158-180: throws or not, the record, the argument *)
Definition addField (id : list Z) (a : aref) (fl : aflags) (r : record) : bool * record * aref :=
  match id with [] => (false, r, a) | _ =>
  match findField id r with
  | Some f =>
    if fd_prot f && f_honor fl then (false, r, a)
    else if negb (f_replace fl) then (false, r, a)
    else let '(ok, f', a') := fd_attach f a fl in (ok, putField id f' r, a')
  | None => let '(ok, f', a') := fd_attach new_field a fl in (ok, putField id f' r, a')
  end end.
(** Record.h:503-510, the public entries *)
Definition rec_add id a (xfer replace protect locked : bool) r :=
  addField id a {| f_xfer := xfer; f_replace := replace; f_protect := protect; f_honor := true; f_locked := locked |} r.

(** Record.cc:182-191 *)
Definition protectField (id : list Z) (p : bool) (r : record) : bool * record :=
  match id with [] => (false, r) | _ =>
  match findField id r with
  | None => (false, r)
  | Some f => (true, putField id {| fd_obj := fd_obj f; fd_lock := fd_lock f; fd_packed := fd_packed f; fd_prot := p |} r)
  end end.

(** Record.cc:194-213 with HONOR_PROTECT.  Field::xfer (Record.h:145-150) calls makeObject
    (Record.cc:117-128), which detaches the reference before anything else. *)
Definition removeField (id : list Z) (ignore_fail : bool) (r : record) : res (option V) * record :=
  match id with [] => (Err, r) | _ =>
  match findField id r with
  | Some f =>
    if fd_prot f then (Err, r)
    else if fd_lock f && match fd_obj f with Some _ => true | None => false end then (Err, r)
    else (Ok (fd_packed f), eraseField id r)
  | None => if ignore_fail then (Ok None, r) else (Err, r)
  end end.

(** Record.cc:399-414 (through Container::Hook::remove) *)
Definition hook_remove (id : list Z) (r : record) : res Z * record :=
  match id with [] => (Err, r) | _ =>
  match findField id r with
  | Some f => if fd_prot f then (Err, r) else (Ok 1, eraseField id r)
  | None => (Ok 0, r)
  end end.

(** Record.cc:216-227 *)
Definition rec_get (id : list Z) (ignore_fail : bool) (r : record) : res (option V) * record :=
  match id with [] => (Err, r) | _ =>
  match findField id r with
  | None => (if ignore_fail then Ok None else Err, r)
  | Some f => (Ok (fd_obj (fd_ref f)), putField id (fd_ref f) r)
  end end.
(** Record.h:213 *)
Definition hasField (id : list Z) (r : record) : bool := match findField id r with Some _ => true | None => false end.

(** Record.cc:331-362, access through hooks by name (not "#n"): found and its object, for
    reading or writing *)
Definition hook_get (id : list Z) (writing : bool) (r : record) : res (option (option V)) * record :=
  match id with [] => (Err, r) | _ =>
  match findField id r with
  | None => (Ok None, r)
  | Some f => if writing && fd_prot f then (Err, r) else (Ok (Some (fd_obj (fd_ref f))), putField id (fd_ref f) r)
  end end.
(** Record.cc:365-396: a new field of its own, then assigned the object [v] by the hook *)
Definition hook_insert (id : list Z) (v : V) (r : record) : bool * record :=
  match id with [] => (false, r) | _ =>
  match findField id r with
  | Some _ => (false, r)
  | None => (true, putField id {| fd_obj := Some v; fd_lock := false; fd_packed := None; fd_prot := false |} r)
  end end.

(** Record.cc:108-115, Field::copy onto an existing field: the reference is detached first *)
Definition fd_copy (f other : field) : bool * field :=
  if fd_lock f && match fd_obj f with Some _ => true | None => false end then (false, f)
  else (true, {| fd_obj := fd_obj other; fd_lock := false; fd_packed := fd_packed other; fd_prot := fd_prot other |}).

(** Record.cc:132-156 (for two different records; merging with itself does nothing):
    whether it threw, and the record *)
Fixpoint merge_loop (other : record) (overwrite : bool) (r : record) : bool * record :=
  match other with
  | [] => (true, r)
  | (k, g) :: other' =>
    match findField k r with
    | None => merge_loop other' overwrite (putField k (snd (fd_copy new_field g)) r)
    | Some f =>
      if overwrite then
        if fd_prot f then (false, r)
        else let (ok, f') := fd_copy f g in
             if ok then merge_loop other' overwrite (putField k f' r) else (false, r)
      else merge_loop other' overwrite r
    end
  end.
Definition merge := merge_loop.

(** Record.cc:59-63 *)
Definition rec_clear (r : record) : record := [].
End R.
Arguments field : clear implicits.
Arguments record : clear implicits.
Arguments aref : clear implicits.
