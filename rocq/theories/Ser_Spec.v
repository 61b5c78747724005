(** Specification of serialisation: which objects exist, and what an object with parts
    still in blocks "contains". *)
From Verif Require Import Base Bytes_Model Hiid_Spec Pack_Model Ser_Model.
Local Open Scope Z_scope.

(** a sane registry: 0 is not a type, class ids are ints and are neither numeric types
    nor strings nor HIIDs nor binary structs *)
Definition wf_env (e : tenv) : Prop :=
  te_class e 0 = None /\
  (forall t k, te_class e t = Some k -> i32_ok t = true /\ category e t = CDyn) /\
  i32_ok (te_hiid e) = true /\ te_hiid e <> 0 /\ category e (te_hiid e) = CHiid /\
  (forall t k, te_bin e t = Some k -> i32_ok t = true /\ t <> 0).

(** contents of a field or element that need not be an object: nothing, or blocks *)
Definition blank (o : obj) : Prop :=
  o = ONull \/ exists b bs, o = OPacked (b :: bs).

Definition int_size (n : nat) : Prop := Z.of_nat n < 2 ^ 31.

(** Well-formed objects: what the constructors and mutators of the classes can build,
    with sizes that fit the ints they are stored in. *)
Fixpoint wf (e : tenv) (o : obj) : Prop :=
  match o with
  | ONull | OPacked _ => False
  | OVec0 t => te_class e t = Some KVec
  | OVecBin t ty sc n data =>
      te_class e t = Some KVec /\ i32_ok ty = true /\ ty <> 0 /\ (sc = true -> n = 1%nat) /\ int_size n /\
      exists k, category e ty = CBin k /\ length data = (k * n)%nat
  | OVecStr t sc l =>
      te_class e t = Some KVec /\ (sc = true -> length l = 1%nat) /\ int_size (length l) /\
      Z.of_nat (arr_packSize string_packer l) < 2 ^ 64
  | OVecHiid t ty sc l =>
      te_class e t = Some KVec /\ ty = te_hiid e /\ (sc = true -> length l = 1%nat) /\ int_size (length l) /\
      Z.of_nat (arr_packSize hiid_packer l) < 2 ^ 64 /\ Forall hiid_ok l
  | OVecDyn t ty sc es =>
      te_class e t = Some KVec /\ i32_ok ty = true /\ ty <> 0 /\ category e ty = CDyn /\
      (sc = true -> length es = 1%nat) /\ int_size (length es) /\
      fold_right (fun o p => (blank o \/ wf e o) /\ p) True es
  | OArr0 t => te_class e t = Some KArr
  | OArrNum t ty shape data =>
      te_class e t = Some KArr /\ ty <> 0 /\ (1 <= length shape <= 10)%nat /\
      Forall (fun d => 0 <= d < 2 ^ 31) shape /\
      exists k, num_size ty = Some k /\ Z.of_nat (length data) = zprod shape * Z.of_nat k
  | OArrStr t shape l =>
      te_class e t = Some KArr /\ (1 <= length shape <= 10)%nat /\
      Forall (fun d => 0 <= d < 2 ^ 31) shape /\ Z.of_nat (length l) = zprod shape /\
      Forall (fun s => Z.of_nat (length s) < 2 ^ 32) l
  | ORec t fs =>
      te_class e t = Some KRec /\ int_size (length fs) /\ NoDup (map fst fs) /\
      fold_right (fun f p => (hiid_ok (fst f) /\ int_size (4 * length (fst f)) /\
                              (blank (snd f) \/ wf e (snd f))) /\ p) True fs
  | OList t items =>
      te_class e t = Some KList /\ int_size (length items) /\
      fold_right (fun o p => (o = ONull \/ wf e o) /\ p) True items
  end.

(** the number of blocks fits an int *)
Definition storable (e : tenv) (o : obj) : Prop := wf e o /\ int_size (length (toBlock o)).

(** [reads e o t]: looking at everything inside [o] finds the contents [t]; parts still
    in blocks are unpacked on the way (Record::Field::makeObject, Vec::resolveObject). *)
Inductive reads (e : tenv) : obj -> obj -> Prop :=
| rd_null : reads e ONull ONull
| rd_packed bs o t : construct e 0 bs = POk o [] -> reads e o t -> reads e (OPacked bs) t
| rd_vec0 t : reads e (OVec0 t) (OVec0 t)
| rd_bin t ty sc n d : reads e (OVecBin t ty sc n d) (OVecBin t ty sc n d)
| rd_str t sc l : reads e (OVecStr t sc l) (OVecStr t sc l)
| rd_hiid t ty sc l : reads e (OVecHiid t ty sc l) (OVecHiid t ty sc l)
| rd_dyn t ty sc es ts : Forall2 (reads e) es ts -> reads e (OVecDyn t ty sc es) (OVecDyn t ty sc ts)
| rd_arr0 t : reads e (OArr0 t) (OArr0 t)
| rd_num t ty sh d : reads e (OArrNum t ty sh d) (OArrNum t ty sh d)
| rd_astr t sh l : reads e (OArrStr t sh l) (OArrStr t sh l)
| rd_rec t fs gs : Forall2 (fun f g => fst f = fst g /\ reads e (snd f) (snd g)) fs gs ->
    reads e (ORec t fs) (ORec t gs)
| rd_list t os ts : Forall2 (reads e) os ts -> reads e (OList t os) (OList t ts).

(** objects with nothing left in blocks *)
Fixpoint plain (o : obj) : Prop :=
  match o with
  | OPacked _ => False
  | OVecDyn _ _ _ es => fold_right (fun o p => plain o /\ p) True es
  | ORec _ fs => fold_right (fun f p => plain (snd f) /\ p) True fs
  | OList _ os => fold_right (fun o p => plain o /\ p) True os
  | _ => True
  end.

(** a storable message *)
Definition wf_msg (e : tenv) (tmsg : Z) (m : msgobj) : Prop :=
  i32_ok tmsg = true /\
  i32_ok (mg_pri m) = true /\ i32_ok (mg_state m) = true /\ i32_ok (mg_flags m) = true /\
  - 2 ^ 15 <= mg_hops m < 2 ^ 15 /\
  hiid_ok (mg_id m) /\ hiid_ok (mg_from m) /\ hiid_ok (mg_to m) /\
  int_size (4 * length (mg_id m)) /\ int_size (4 * length (mg_from m)) /\ int_size (4 * length (mg_to m)) /\
  int_size (length (msg_toBlock tmsg m)) /\
  match mg_payload m with Some o => wf e o | None => True end.

(** same message up to what has been unpacked inside the payload *)
Definition same_msg (e : tenv) (m m' : msgobj) : Prop :=
  mg_pri m' = mg_pri m /\ mg_state m' = mg_state m /\ mg_flags m' = mg_flags m /\
  mg_hops m' = mg_hops m /\ mg_id m' = mg_id m /\ mg_from m' = mg_from m /\ mg_to m' = mg_to m /\
  mg_block m' = mg_block m /\
  match mg_payload m, mg_payload m' with
  | None, None => True
  | Some o, Some o' => forall t, reads e o t -> reads e o' t
  | _, _ => False
  end.
