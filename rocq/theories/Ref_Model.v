(** Model of counted references: DMI/src/{CountedRefBase.h,CountedRefBase.cc,
    CountedRefTarget.h,CountedRefTarget.cc} (the reference-count variant; the linked-list
    variant is compiled out, CountedRefBase.h:27-30), with the way containers hold
    references (DMI/src/Record.cc:320-329, DMI/src/List.cc:250-272).

    Addresses are indices into two lists; a destroyed reference or object leaves [None]
    behind and its address is never used again.  Every operation is one atomic step:
    the mutex of the target is held throughout in the code.  Mutexes themselves and
    debug output are not modelled. *)
From Verif Require Import Base.
Local Open Scope Z_scope.

(** CountedRefBase.h:369-407: target_, locked_, writable_, shared_ *)
Record ref := { r_t : option nat; r_lock : bool; r_wr : bool; r_sh : bool }.

(** CountedRefTarget.h:180-190: ref_count_, anon_.  [o_sing]: a SingularRefTarget (clone
    throws, 216-233).  [o_data], [o_mem]: contents of the object, a value and the
    references it holds by value (Record::fields, List::items, ...).  [o_lockm]: whether
    clone() locks the references it holds (true for List.cc:269, false for Record). *)
Record ob := { o_cnt : Z; o_anon : bool; o_sing : bool; o_lockm : bool; o_data : Z; o_mem : list nat }.

Record st := { refs : list (option ref); objs : list (option ob) }.

(** outcome of an operation: returned, threw (with the state left behind), undefined
    behaviour (use of a destroyed reference or object), or recursion deeper than the
    given limit (deep cloning of a cyclic structure never returns) *)
Inductive out (A : Type) : Type :=
| Done (a : A) (s : st)
| Threw (s : st)
| Undef
| Deep.
Arguments Done {A}. Arguments Threw {A}. Arguments Undef {A}. Arguments Deep {A}.

Fixpoint setn {A} (n : nat) (x : A) (l : list A) : list A :=
  match l, n with
  | [], _ => []
  | _ :: l', O => x :: l'
  | y :: l', S n' => y :: setn n' x l'
  end.

Definition getref (s : st) (r : nat) : option ref := nth r (refs s) None.
Definition getobj (s : st) (o : nat) : option ob := nth o (objs s) None.
Definition setref (s : st) (r : nat) (x : option ref) : st := {| refs := setn r x (refs s); objs := objs s |}.
Definition setobj (s : st) (o : nat) (x : option ob) : st := {| refs := refs s; objs := setn o x (objs s) |}.

(** CountedRefBase.h:357-365, empty() *)
Definition rempty : ref := {| r_t := None; r_lock := false; r_wr := false; r_sh := false |}.

Definition with_cnt (b : ob) (c : Z) : ob :=
  {| o_cnt := c; o_anon := o_anon b; o_sing := o_sing b; o_lockm := o_lockm b; o_data := o_data b; o_mem := o_mem b |}.
Definition with_anon (b : ob) (a : bool) : ob :=
  {| o_cnt := o_cnt b; o_anon := a; o_sing := o_sing b; o_lockm := o_lockm b; o_data := o_data b; o_mem := o_mem b |}.
Definition with_data (b : ob) (v : Z) : ob :=
  {| o_cnt := o_cnt b; o_anon := o_anon b; o_sing := o_sing b; o_lockm := o_lockm b; o_data := v; o_mem := o_mem b |}.
Definition with_mem (b : ob) (m : list nat) : ob :=
  {| o_cnt := o_cnt b; o_anon := o_anon b; o_sing := o_sing b; o_lockm := o_lockm b; o_data := o_data b; o_mem := m |}.

(** ownership part of the attach flags, DMI.h:60-68 (ANON is the default) *)
Inductive own := OwnAnon | OwnExternal | OwnClone.
(** the DMI flags used by references, DMI.h:50-80 *)
Record rflags := { f_ro : bool; f_sh : bool; f_cow : bool; f_lock : bool; f_unlock : bool; f_deep : bool; f_own : own }.
Definition fl0 : rflags :=
  {| f_ro := false; f_sh := false; f_cow := false; f_lock := false; f_unlock := false; f_deep := false; f_own := OwnAnon |}.

(** Destruction of references, CountedRefBase.h:446-452 (unlock, then detach, .cc:361-431):
    the count of the target is decremented; an anonymous target with no reference left is
    deleted, which destroys the references it holds.  [ws]: references still to be
    destroyed, in order.  [fuel]: each step destroys one reference, so the number of
    references suffices. *)
Fixpoint kill (fuel : nat) (s : st) (ws : list nat) : out unit :=
  match ws with
  | [] => Done tt s
  | m :: ws' =>
    match fuel with
    | O => Undef
    | S f =>
      match getref s m with
      | None => Undef
      | Some rf =>
        let s1 := setref s m None in
        match r_t rf with
        | None => kill f s1 ws'
        | Some o =>
          match getobj s o with
          | None => Undef
          | Some b =>
            if (o_cnt b - 1 =? 0) && o_anon b then kill f (setobj s1 o None) (o_mem b ++ ws')
            else kill f (setobj s1 o (Some (with_cnt b (o_cnt b - 1)))) ws'
          end
        end
      end
    end
  end.

(** CountedRefBase.cc:361-431 *)
Definition detach (s : st) (r : nat) : out unit :=
  match getref s r with
  | None => Undef
  | Some rf =>
    match r_t rf with
    | None => Done tt s
    | Some o =>
      if r_lock rf then Threw s else
      match getobj s o with
      | None => Undef
      | Some b =>
        let s1 := setref s r (Some rempty) in
        if (o_cnt b - 1 =? 0) && o_anon b then kill (length (refs s)) (setobj s1 o None) (o_mem b)
        else Done tt (setobj s1 o (Some (with_cnt b (o_cnt b - 1))))
      end
    end
  end.

(** CountedRefBase.cc:121-173, copy(other,flags,depth), with [pv] for privatize *)
Definition copy_with (pv : st -> nat -> rflags -> Z -> out unit)
    (s : st) (r x : nat) (fl : rflags) (depth : Z) : out unit :=
  if Nat.eqb r x then Done tt s else
  match detach s r with
  | Done _ s1 =>
    match getref s1 x, getref s1 r with
    | Some xf, Some rf =>
      match r_t xf with
      | None => Done tt (setref s1 r (Some rempty))
      | Some o =>
        match getobj s1 o with
        | None => Undef
        | Some b =>
          let s2 := setobj s1 o (Some (with_cnt b (o_cnt b + 1))) in
          if f_deep fl || (0 <? depth) then
            pv (setref s2 r (Some {| r_t := Some o; r_lock := false; r_wr := r_wr rf; r_sh := r_sh rf |})) r fl depth
          else
            Done tt (setref s2 r (Some {| r_t := Some o; r_lock := f_lock fl; r_wr := r_wr xf;
                       r_sh := if f_sh fl then true else if f_cow fl then false else r_sh xf |}))
        end
      end
    | _, _ => Undef
    end
  | Threw s1 => Threw s1
  | Undef => Undef
  | Deep => Deep
  end.

(** the loops of Record::cloneOther (Record.cc:325-327) and List::cloneOther
    (List.cc:264-270): a new reference for each member, copied with the same flags and
    depth.  If a copy throws, the references made so far ([acc], then the current one) are
    destroyed with the half-built container. *)
Fixpoint clone_members (cp : st -> nat -> nat -> out unit) (lockm : bool) (s : st) (ms : list nat) (acc : list nat)
  : out (list nat) :=
  match ms with
  | [] => Done acc s
  | m :: ms' =>
    let n := length (refs s) in
    let s1 := {| refs := refs s ++ [Some rempty]; objs := objs s |} in
    match cp s1 n m with
    | Done _ s2 =>
      match getref s2 n with
      | Some nf =>
          clone_members cp lockm
            (if lockm then setref s2 n (Some {| r_t := r_t nf; r_lock := true; r_wr := r_wr nf; r_sh := r_sh nf |}) else s2)
            ms' (acc ++ [n])
      | None => Undef
      end
    | Threw s2 => match kill (length (refs s2)) s2 (acc ++ [n]) with Done _ s3 => Threw s3 | Threw s3 => Threw s3 | Undef => Undef | Deep => Deep end
    | Undef => Undef
    | Deep => Deep
    end
  end.

(** clone() of a target (CountedRefTarget.h:88; Record.cc:312-329, List.cc:250-272).
    The new object has no reference yet (CountedRefTarget.cc:87-96).  Returns its address. *)
Definition clone_with (pv : st -> nat -> rflags -> Z -> out unit)
    (s : st) (b : ob) (fl : rflags) (depth : Z) : out nat :=
  if o_sing b then Threw s else
  match clone_members (fun s' n m => copy_with pv s' n m fl depth) (o_lockm b) s (o_mem b) [] with
  | Done ms s1 =>
      Done (length (objs s1))
           {| refs := refs s1;
              objs := objs s1 ++ [Some {| o_cnt := 0; o_anon := false; o_sing := false; o_lockm := o_lockm b;
                                          o_data := o_data b; o_mem := ms |}] |}
  | Threw s1 => Threw s1
  | Undef => Undef
  | Deep => Deep
  end.

(** the flags privatize passes on to clone(), CountedRefBase.cc:239-246 *)
Definition masked (fl : rflags) : rflags :=
  {| f_ro := f_ro fl; f_sh := false; f_cow := false; f_lock := false; f_unlock := false; f_deep := f_deep fl; f_own := f_own fl |}.

(** CountedRefBase.cc:234-267, privatize, with cloneTarget (49-86).  Note that cloneTarget
    only decrements the count of the old target and never deletes it, and that it resets
    locked_ and shared_. *)
Fixpoint priv (fuel : nat) (s : st) (r : nat) (fl : rflags) (depth : Z) : out unit :=
  match fuel with
  | O => Deep
  | S f =>
    match getref s r with
    | None => Undef
    | Some rf =>
      match r_t rf with
      | None => Threw s
      | Some o =>
        match getobj s o with
        | None => Undef
        | Some b =>
          let fin (s' : st) :=
            match getref s' r with
            | Some rf' => Done tt (setref s' r (Some {| r_t := r_t rf';
                r_lock := if f_lock fl then true else if f_unlock fl then false else r_lock rf';
                r_wr := true;
                r_sh := if f_sh fl then true else if f_cow fl then false else r_sh rf' |}))
            | None => Undef
            end in
          if negb (o_anon b) || negb (o_cnt b =? 1) || negb (r_wr rf) || (0 <? depth) || f_deep fl then
            match clone_with (priv f) s b (masked fl) (depth - 1) with
            | Done o2 s1 =>
              match getobj s1 o, getobj s1 o2 with
              | Some b1, Some b2 =>
                fin (setref (setobj (setobj s1 o (Some (with_cnt b1 (o_cnt b1 - 1))))
                                    o2 (Some (with_anon (with_cnt b2 1) true)))
                            r (Some {| r_t := Some o2; r_lock := false; r_wr := negb (f_ro fl); r_sh := false |}))
              | _, _ => Undef
              end
            | Threw s1 => Threw s1
            | Undef => Undef
            | Deep => Deep
            end
          else fin s
        end
      end
    end
  end.

Definition copy (fuel : nat) := copy_with (priv fuel).

(** CountedRefBase.cc:175-231 *)
Definition xfer (fuel : nat) (s : st) (r x : nat) (fl : rflags) (depth : Z) : out unit :=
  if Nat.eqb r x then Done tt s else
  match detach s r with
  | Done _ s1 =>
    match getref s1 x, getref s1 r with
    | Some xf, Some rf =>
      match r_t xf with
      | None => Done tt (setref s1 r (Some rempty))
      | Some o =>
        match getobj s1 o with
        | None => Undef
        | Some _ =>
          if r_lock xf then Threw s1 else
          let s2 := setref (setref s1 r (Some {| r_t := Some o;
                       r_lock := if f_deep fl || (0 <? depth) then false else f_lock fl; r_wr := r_wr xf;
                       r_sh := if f_sh fl then true else if f_cow fl then false else r_sh xf |}))
                     x (Some rempty) in
          if f_deep fl || (0 <? depth) then priv fuel s2 r fl depth else Done tt s2
        end
      end
    | _, _ => Undef
    end
  | Threw s1 => Threw s1
  | Undef => Undef
  | Deep => Deep
  end.

(** CountedRefBase.cc:293-358.  The null target is not modelled (the code dereferences it
    before checking).  [o_sing]: SingularRefTarget::modifyAttachFlags adds SHARED. *)
Definition attach (fuel : nat) (s : st) (r o : nat) (fl : rflags) : out unit :=
  match getref s r with
  | None => Undef
  | Some rf =>
    if match r_t rf with Some o' => Nat.eqb o o' | None => false end then Done tt s else
    match getobj s o with
    | None => Undef
    | Some _ =>
      match detach s r with
      | Done _ s1 =>
        match getobj s1 o, getref s1 r with
        | Some b, Some _ =>
          let hook (s' : st) (t : nat) (ro : bool) :=
            match getobj s' t with
            | Some b' =>
                Done tt (setref (setobj s' t (Some (with_cnt b' (o_cnt b' + 1)))) r
                  (Some {| r_t := Some t; r_lock := f_lock fl; r_wr := o_anon b' || negb ro; r_sh := f_sh fl || o_sing b |}))
            | None => Undef
            end in
          if o_cnt b =? 0 then
            match f_own fl with
            | OwnClone =>
                match clone_with (priv fuel) s1 b
                        {| f_ro := false; f_sh := false; f_cow := false; f_lock := false; f_unlock := false;
                           f_deep := f_deep fl; f_own := OwnAnon |} 0 with
                | Done o2 s2 =>
                    match getobj s2 o2 with
                    | Some b2 => hook (setobj s2 o2 (Some (with_anon b2 true))) o2 false
                    | None => Undef
                    end
                | Threw s2 => Threw s2
                | Undef => Undef
                | Deep => Deep
                end
            | OwnAnon => hook (setobj s1 o (Some (with_anon b true))) o (f_ro fl)
            | OwnExternal => hook (setobj s1 o (Some (with_anon b false))) o (f_ro fl)
            end
          else hook s1 o (f_ro fl)
        | _, _ => Undef
        end
      | Threw s1 => Threw s1
      | Undef => Undef
      | Deep => Deep
      end
    end
  end.

(** CountedRefBase.h:174-183, getTargetWr; isDirectlyWritable (261-262) *)
Definition get_wr (fuel : nat) (s : st) (r : nat) : out unit :=
  match getref s r with
  | None => Undef
  | Some rf =>
    match r_t rf with
    | None => Threw s
    | Some o =>
      match getobj s o with
      | None => Undef
      | Some b => if (r_wr rf && (o_cnt b =? 1)) || r_sh rf then Done tt s else priv fuel s r fl0 0
      end
    end
  end.

(** Writing a value into the object found by following member numbers [path] from the
    object of reference [r], every reference being dereferenced for writing (as
    Container hooks and Record::as<T>() do). *)
Fixpoint write (fuel : nat) (s : st) (r : nat) (path : list nat) (v : Z) : out unit :=
  match get_wr fuel s r with
  | Done _ s1 =>
    match getref s1 r with
    | None => Undef
    | Some rf =>
      match r_t rf with
      | None => Threw s1
      | Some o =>
        match getobj s1 o with
        | None => Undef
        | Some b =>
          match path with
          | [] => Done tt (setobj s1 o (Some (with_data b v)))
          | i :: path' =>
            match nth_error (o_mem b) i with
            | None => Threw s1
            | Some m => write fuel s1 m path' v
            end
          end
        end
      end
    end
  | Threw s1 => Threw s1
  | Undef => Undef
  | Deep => Deep
  end.

(** ** The operations of a program *)
Inductive op :=
| NewRef                                      (* a new, invalid reference: CountedRefBase.h:86-90 *)
| NewObj (v : Z) (sing lockm : bool) (k : nat) (* a new object holding k invalid references *)
| AddMember (o : nat)                         (* it gets one more (fields[id], push_back) *)
| DropMember (o i : nat)                      (* its i-th reference is destroyed (erase) *)
| Attach (r o : nat) (fl : rflags)
| Copy (r x : nat) (fl : rflags) (depth : Z)
| Xfer (r x : nat) (fl : rflags) (depth : Z)
| Detach (r : nat)
| Privatize (r : nat) (fl : rflags) (depth : Z)
| Lock (r : nat)                              (* CountedRefBase.h:221-236 *)
| Unlock (r : nat)
| Change (r : nat) (fl : rflags)              (* CountedRefBase.cc:270-290 *)
| Destroy (r : nat)                           (* ~CountedRefBase, CountedRefBase.h:446-452 *)
| Write (r : nat) (path : list nat) (v : Z)
| DeleteObj (o : nat).                        (* the program destroys an object of its own *)

Definition empties (n k : nat) : list nat := seq n k.

Definition step (fuel : nat) (s : st) (a : op) : out unit :=
  match a with
  | NewRef => Done tt {| refs := refs s ++ [Some rempty]; objs := objs s |}
  | NewObj v sing lockm k =>
      Done tt {| refs := refs s ++ repeat (Some rempty) k;
                 objs := objs s ++ [Some {| o_cnt := 0; o_anon := false; o_sing := sing; o_lockm := lockm; o_data := v;
                                            o_mem := empties (length (refs s)) k |}] |}
  | AddMember o =>
      match getobj s o with
      | None => Undef
      | Some b => Done tt {| refs := refs s ++ [Some rempty];
                             objs := setn o (Some (with_mem b (o_mem b ++ [length (refs s)]))) (objs s) |}
      end
  | DropMember o i =>
      match getobj s o with
      | None => Undef
      | Some b =>
        match nth_error (o_mem b) i with
        | None => Threw s
        | Some m => kill (length (refs s)) (setobj s o (Some (with_mem b (firstn i (o_mem b) ++ skipn (S i) (o_mem b))))) [m]
        end
      end
  | Attach r o fl => attach fuel s r o fl
  | Copy r x fl d => copy fuel s r x fl d
  | Xfer r x fl d => xfer fuel s r x fl d
  | Detach r => detach s r
  | Privatize r fl d => priv fuel s r fl d
  | Lock r => match getref s r with
              | None => Undef
              | Some rf => Done tt (setref s r (Some {| r_t := r_t rf; r_lock := true; r_wr := r_wr rf; r_sh := r_sh rf |}))
              end
  | Unlock r => match getref s r with
              | None => Undef
              | Some rf => Done tt (setref s r (Some {| r_t := r_t rf; r_lock := false; r_wr := r_wr rf; r_sh := r_sh rf |}))
              end
  | Change r fl =>
      match getref s r with
      | None => Undef
      | Some rf =>
        match r_t rf with
        | None => Threw s
        | Some _ => Done tt (setref s r (Some {| r_t := r_t rf;
              r_lock := if f_lock fl then true else if f_unlock fl then false else r_lock rf;
              r_wr := if f_ro fl then false else r_wr rf;
              r_sh := if f_sh fl then true else if f_cow fl then false else r_sh rf |}))
        end
      end
  | Destroy r => kill (length (refs s)) s [r]
  | Write r p v => write fuel s r p v
  | DeleteObj o =>
      match getobj s o with
      | None => Undef
      | Some b => if o_anon b then (if o_cnt b =? 0 then Undef else Threw s)
                  else kill (length (refs s)) (setobj s o None) (o_mem b)
      end
  end.

Definition init : st := {| refs := []; objs := [] |}.
