(** Model of request-id masks: MEQ/src/RequestId.cc, MEQ/src/RequestId.h;
    and of symbolic dependency maps: MEQ/src/SymdepMap.cc, .h.
    A RequestId is a HIID (RequestId.h:58); masks are ints, modelled by [Z]
    with two's complement bit operations (Z.land on negative numbers agrees with
    the sign-extended int). *)
From Verif Require Import Base Hiid_Model.
Local Open Scope Z_scope.

(** RequestId.h:51 *)
Definition RQIDM_NBITS : nat := 16.

(** The C test [mask & m1] *)
Definition bit_on (mask m1 : Z) : bool := negb (Z.land mask m1 =? 0).

(** All five loops have the form [for(m1=1; m1<(1<<16) && ...; m1<<=1)]: the
    counter [n] is the number of doublings left before [m1] reaches [1<<16]. *)

(** RequestId.cc:56-62 *)
Fixpoint mask_loop (n : nat) (m1 mask : Z) (id : hiid) : hiid :=
  match n, id with
  | S n', x :: id' => (if bit_on mask m1 then x else 0) :: mask_loop n' (2 * m1) mask id'
  | _, _ => id
  end.
(** RequestId.cc:46-63 *)
Definition maskSubId (id : hiid) (mask : Z) : hiid :=
  if mask =? 0 then [0] else mask_loop RQIDM_NBITS 1 mask id.

(** RequestId.cc:71-73 (and 95-97): [for(m1=mask; m1!=0; m1>>=1) msb++].
    [None]: the loop has not ended within [fuel] iterations. *)
Fixpoint msb_loop (fuel : nat) (m1 : Z) (msb : nat) : option nat :=
  if m1 =? 0 then Some msb
  else match fuel with
       | O => None
       | S f => msb_loop f (Z.shiftr m1 1) (S msb)
       end.

(** HIID.h:86-91 / std::vector resize: new atoms are AtomicID(0) *)
Definition rq_resize (id : hiid) (n : nat) : hiid := id ++ repeat 0 (n - length id).

(** RequestId.cc:80-86 *)
Fixpoint incr_loop (n : nat) (m1 mask : Z) (id : hiid) : hiid :=
  match n, id with
  | S n', x :: id' => (if bit_on mask m1 then x + 1 else x) :: incr_loop n' (2 * m1) mask id'
  | _, _ => id
  end.
(** RequestId.cc:65-87.  [None]: does not terminate (negative masks). *)
Definition incrSubId (fuel : nat) (id : hiid) (mask : Z) : option hiid :=
  if mask =? 0 then Some id
  else match msb_loop fuel mask 0 with
       | None => None
       | Some msb =>
           let id1 := if Nat.ltb (length id) msb then rq_resize id msb else id in
           Some (incr_loop RQIDM_NBITS 1 mask id1)
       end.

(** RequestId.cc:102-108 *)
Fixpoint set_loop (n : nat) (m1 mask value : Z) (id : hiid) : hiid :=
  match n, id with
  | S n', x :: id' => (if bit_on mask m1 then value else x) :: set_loop n' (2 * m1) mask value id'
  | _, _ => id
  end.
(** RequestId.cc:89-109 *)
Definition setSubId (fuel : nat) (id : hiid) (mask value : Z) : option hiid :=
  if mask =? 0 then Some id
  else match msb_loop fuel mask 0 with
       | None => None
       | Some msb =>
           let id1 := if Nat.ltb (length id) msb then rq_resize id msb else id in
           Some (set_loop RQIDM_NBITS 1 mask value id1)
       end.

(** next index of an id, 0 once it has run out (RequestId.cc:129-130, 148-149) *)
Definition next_ix (id : hiid) : Z := match id with [] => 0 | x :: _ => x end.

(** RequestId.cc:124-134 *)
Fixpoint cmp_loop (n : nat) (m1 mask : Z) (id1 id2 : hiid) : bool :=
  match n with
  | O => true
  | S n' =>
      match id1, id2 with
      | [], [] => true
      | _, _ =>
          if bit_on mask m1 && negb (next_ix id1 =? next_ix id2) then false
          else cmp_loop n' (2 * m1) mask (tl id1) (tl id2)
      end
  end.
(** RequestId.cc:112-135 *)
Definition maskedCompare (id1 id2 : hiid) (mask : Z) : bool :=
  if mask =? 0 then true
  else match id1, id2 with
       | [], _ => false
       | _, [] => false
       | _, _ => cmp_loop RQIDM_NBITS 1 mask id1 id2
       end.

(** RequestId.cc:143-153 *)
Fixpoint diff_loop (n : nat) (m1 mask : Z) (id1 id2 : hiid) : Z :=
  match n with
  | O => mask
  | S n' =>
      match id1, id2 with
      | [], [] => mask
      | _, _ =>
          diff_loop n' (2 * m1)
            (if negb (next_ix id1 =? next_ix id2) then Z.lor mask m1 else mask)
            (tl id1) (tl id2)
      end
  end.
(** RequestId.cc:137-154 *)
Definition diffMask (id1 id2 : hiid) : Z := diff_loop RQIDM_NBITS 1 0 id1 id2.

(** ** SymdepMap *)

(** SymdepMap.h:99-103.  [std::map<HIID,int>] as an association list in which
    the first entry for a key counts. *)
Record symdeps := { sd_map : list (hiid * Z); sd_active : list hiid; sd_mask : Z }.

(** SymdepMap.h:43-45 *)
Definition sd_init : symdeps := {| sd_map := []; sd_active := []; sd_mask := 0 |}.

Fixpoint sd_find (m : list (hiid * Z)) (k : hiid) : option Z :=
  match m with
  | [] => None
  | (k', v) :: m' => if hiid_eqb k k' then Some v else sd_find m' k
  end.
(** [map_[symdep] = mask] *)
Fixpoint sd_put (m : list (hiid * Z)) (k : hiid) (v : Z) : list (hiid * Z) :=
  match m with
  | [] => [(k, v)]
  | (k', v') :: m' => if hiid_eqb k k' then (k', v) :: m' else (k', v') :: sd_put m' k v
  end.

(** SymdepMap.cc:62-72 *)
Definition sd_getMask (m : list (hiid * Z)) (deps : list hiid) : Z :=
  fold_left (fun mask d => match sd_find m d with Some v => Z.lor mask v | None => mask end) deps 0.

Inductive sd_op :=
| SdSet (k : hiid) (mask : Z)          (* SymdepMap.cc:41-45 *)
| SdLoad (kvs : list (hiid * Z))       (* SymdepMap.cc:47-59, copyMap .h:65 *)
| SdSetActive (deps : list hiid)       (* SymdepMap.cc:76-81 *)
| SdSetActiveNone                      (* SymdepMap.h:90-91 *)
| SdSetActiveVec (deps : list hiid).   (* SymdepMap.h:87-88 *)

Definition sd_step (s : symdeps) (o : sd_op) : res symdeps :=
  match o with
  | SdSet k v =>
      let m := sd_put (sd_map s) k v in
      Ok {| sd_map := m; sd_active := sd_active s; sd_mask := sd_getMask m (sd_active s) |}
  | SdLoad kvs =>
      let m := fold_left (fun m kv => sd_put m (fst kv) (snd kv)) kvs [] in
      Ok {| sd_map := m; sd_active := sd_active s; sd_mask := sd_getMask m (sd_active s) |}
  | SdSetActive deps =>
      Ok {| sd_map := sd_map s; sd_active := deps; sd_mask := sd_getMask (sd_map s) deps |}
  | SdSetActiveNone =>
      Ok {| sd_map := sd_map s; sd_active := []; sd_mask := 0 |}
  | SdSetActiveVec deps =>      (* takes &deps.front(): UB on an empty vector *)
      match deps with
      | [] => UB
      | _ => Ok {| sd_map := sd_map s; sd_active := deps; sd_mask := sd_getMask (sd_map s) deps |}
      end
  end.

Fixpoint sd_run (s : symdeps) (os : list sd_op) : res symdeps :=
  match os with
  | [] => Ok s
  | o :: os' => bind (sd_step s o) (fun s' => sd_run s' os')
  end.
