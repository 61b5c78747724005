(** Theorems about Records as finite maps (C15, C16, C17). *)
From Verif Require Import Base Hiid_Model Hiid_Proofs Rec_Model Rec_Spec Rec_Proofs.
Local Open Scope Z_scope.

(** *** C15 *)
(** any sequence of operations shows the client what the same operations on a finite map
    with protected keys show; refused operations change nothing ([spec_step]) *)
Theorem record_as_finite_map : forall V (os : list (op (V:=V))) (r : record V), rec_ok r ->
  fst (rec_run os r) = fst (spec_run os (view r)) /\
  rec_ok (snd (rec_run os r)) /\ same (view (snd (rec_run os r))) (snd (spec_run os (view r))).
Proof. intros V os r Hr. apply rec_run_sim; [exact Hr|apply same_refl]. Qed.
Print Assumptions record_as_finite_map.

(** whatever the arguments (locked references included) a refused add on an existing field
    that is protected, or not to be replaced, changes nothing *)
Theorem record_refused_add : forall V id (a : aref V) x rep prot lk (r : record V),
  (id = [] \/ exists v p, view r id = Some (v, p) /\ (p = true \/ rep = false)) ->
  rec_add id a x rep prot lk r = (false, r, a).
Proof.
  intros V id a x rep prot lk r [->|(v & p & H & D)]; [reflexivity|]. unfold rec_add, addField. destruct id as [|i id]; [reflexivity|].
  unfold view in H. destruct (findField (i :: id) r) as [f|]; [|discriminate]. cbn in H. injection H as <- <-. cbn [f_honor f_replace].
  destruct (fd_prot f); cbn [andb]; [reflexivity|]. destruct D as [D|D]; [discriminate|]. rewrite D. reflexivity.
Qed.
Print Assumptions record_refused_add.

(** a protected field keeps its contents and stays protected under every operation that
    honours protection, with locked or unlocked references *)
Theorem record_protected_kept : forall V (r : record V) k v, view r k = Some (v, true) ->
  (forall id a x rep prot lk, view (snd (fst (rec_add id a x rep prot lk r))) k = Some (v, true)) /\
  (forall id ign, view (snd (removeField id ign r)) k = Some (v, true)) /\
  (forall id, view (snd (hook_remove id r)) k = Some (v, true)) /\
  (forall id ign, view (snd (rec_get id ign r)) k = Some (v, true)) /\
  (forall id w, view (snd (hook_get id w r)) k = Some (v, true)) /\
  (forall id o, view (snd (hook_insert id o r)) k = Some (v, true)) /\
  fst (hook_get k true r) = Err.
Proof.
  intros V r k v H.
  assert (Hf : exists f, findField k r = Some f /\ contents f = v /\ fd_prot f = true).
  { unfold view in H. destruct (findField k r) as [f|]; [|discriminate]. injection H as <- P. eauto. }
  destruct Hf as (f & Ef & Cf & Pf).
  assert (Put : forall id g, id <> k -> view (putField id g r) k = Some (v, true)) by (intros id g N; unfold view; now rewrite find_put_other).
  assert (Erase : forall id, id <> k -> view (eraseField id r) k = Some (v, true)) by (intros id N; unfold view; now rewrite find_erase_other).
  assert (Ref : forall id g, findField id r = Some g -> view (putField id (fd_ref g) r) k = Some (v, true)).
  { intros id g E. destruct (contents_ref g) as (C1 & C2 & _). rewrite (view_put_same id g (fd_ref g) r E C1 C2 k). exact H. }
  assert (NK : forall id g, findField id r = Some g -> fd_prot g = false -> id <> k) by (intros id g E P ->; congruence).
  assert (NN : forall id, findField id r = None -> id <> k) by (intros id E ->; congruence).
  repeat apply conj.
  - intros id a x rep prot lk. unfold rec_add, addField. destruct id as [|i id]; [exact H|]. set (j := i :: id) in *.
    destruct (findField j r) as [g|] eqn:E; cbn [f_honor f_replace].
    + destruct (fd_prot g) eqn:Pg; cbn [andb]; [exact H|]. destruct rep; cbn [negb]; [|exact H].
      destruct (fd_attach g a _) as [[ok f'] a']. cbn [fst snd]. apply Put. now apply (NK j g).
    + destruct (fd_attach new_field a _) as [[ok f'] a']. cbn [fst snd]. apply Put. now apply NN.
  - intros id ign. unfold removeField. destruct id as [|i id]; [exact H|]. set (j := i :: id) in *.
    destruct (findField j r) as [g|] eqn:E; [|destruct ign; exact H]. destruct (fd_prot g) eqn:Pg; [exact H|].
    destruct (fd_lock g && _); cbn [snd]; [exact H|]. apply Erase. now apply (NK j g).
  - intros id. unfold hook_remove. destruct id as [|i id]; [exact H|]. set (j := i :: id) in *.
    destruct (findField j r) as [g|] eqn:E; [|exact H]. destruct (fd_prot g) eqn:Pg; [exact H|]. cbn [snd]. apply Erase. now apply (NK j g).
  - intros id ign. unfold rec_get. destruct id as [|i id]; [exact H|]. destruct (findField (i :: id) r) as [g|] eqn:E; [|exact H]. cbn [snd]. now apply Ref.
  - intros id w. unfold hook_get. destruct id as [|i id]; [exact H|]. destruct (findField (i :: id) r) as [g|] eqn:E; [|exact H].
    destruct (w && fd_prot g); cbn [snd]; [exact H|]. now apply Ref.
  - intros id o. unfold hook_insert. destruct id as [|i id]; [exact H|]. destruct (findField (i :: id) r) as [g|] eqn:E; [exact H|]. cbn [snd]. apply Put. now apply NN.
  - unfold hook_get. destruct k as [|i k]; [reflexivity|]. rewrite Ef, Pf. reflexivity.
Qed.
Print Assumptions record_protected_kept.

(** clear() is public and drops protected fields, too *)
Theorem record_clear_honours_protection_refuted : exists (r : record nat) k v, rec_ok r /\ view r k = Some (v, true) /\ view (rec_clear r) k = None.
Proof.
  exists [([1], {| fd_obj := Some 5%nat; fd_lock := false; fd_packed := None; fd_prot := true |})], [1], (Some 5%nat).
  repeat split; repeat constructor; cbn; tauto.
Qed.
Print Assumptions record_clear_honours_protection_refuted.

(** a failing add leaves the record as it was unless a locked reference was to be
    transferred: then a new field appears, or an existing one loses its object *)
Theorem record_failed_add_unchanged_refuted : forall V id v prot lk (r : record V), id <> [] ->
  (view r id = None ->
     let '(ok, r', _) := rec_add id {| a_obj := Some v; a_locked := true |} true false prot lk r in ok = false /\ view r' id = Some (None, false)) /\
  (forall f, findField id r = Some f -> fd_prot f = false -> fd_lock f = false -> fd_packed f = None ->
     let '(ok, r', _) := rec_add id {| a_obj := Some v; a_locked := true |} true true prot lk r in ok = false /\ view r' id = Some (None, false)).
Proof.
  intros V id v prot lk r N. unfold rec_add, addField. rewrite !nonnil by exact N. split.
  - intros H. unfold view in H. destruct (findField id r); [discriminate|]. cbn. split; [reflexivity|]. unfold view. now rewrite find_put_same.
  - intros f Ef Pf Lf Kf. rewrite Ef, Pf. cbn [andb f_replace negb]. unfold fd_attach. rewrite Lf. cbn [andb a_obj a_locked f_xfer].
    split; [reflexivity|]. unfold view. rewrite find_put_same. cbn. rewrite Kf, Pf. reflexivity.
Qed.
Print Assumptions record_failed_add_unchanged_refuted.

(** *** C16 *)
Theorem record_merge : forall V (r other : record V) ov, rec_ok r -> NoDup (map fst other) ->
  let (ok, r') := merge other ov r in
  rec_ok r' /\
  (ok = true -> forall k, view r' k = match view other k with
     | None => view r k
     | Some x => match view r k with None => Some x | Some y => if ov then Some x else Some y end end) /\
  (ok = false <-> ov = true /\ exists k v, view r k = Some (v, true) /\ view other k <> None) /\
  (forall k, view r' k = view r k \/ (view other k <> None /\ view r' k = view other k)) /\
  (forall k v, view r k = Some (v, true) -> view r' k = Some (v, true)).
Proof. intros V r other ov Hr No. pose proof (merge_spec other ov r Hr No) as H. destruct (merge other ov r). exact H. Qed.
Print Assumptions record_merge.

(** a merge that throws may have merged some fields already *)
Definition fld (v : nat) (p : bool) : field nat := {| fd_obj := Some v; fd_lock := false; fd_packed := None; fd_prot := p |}.
Theorem record_failed_merge_unchanged_refuted : exists r other : record nat, rec_ok r /\ rec_ok other /\
  fst (merge other true r) = false /\ view r [1] = Some (Some 1%nat, false) /\ view (snd (merge other true r)) [1] = Some (Some 10%nat, false).
Proof.
  exists [([1], fld 1 false); ([2], fld 2 true)], [([1], fld 10 false); ([2], fld 20 false)].
  split; [|split]; [split; repeat constructor; cbn; intuition discriminate|split; repeat constructor; cbn; intuition discriminate|]. repeat split; reflexivity.
Qed.
Print Assumptions record_failed_merge_unchanged_refuted.

(** *** C17 *)
(** the object comes back only if the field was still in blocks *)
Theorem record_removed_object_partial : forall V id ign (r : record V) f, id <> [] -> findField id r = Some f -> fd_prot f = false ->
  fd_obj f = None -> fst (removeField id ign r) = Ok (contents f).
Proof.
  intros V id ign r f N E P O. unfold removeField. rewrite nonnil by exact N. rewrite E, P, O, andb_false_r. unfold contents. now rewrite O.
Qed.
Print Assumptions record_removed_object_partial.
(** for a field that holds an object, removeField returns an invalid reference *)
Theorem record_removed_object_refuted : forall V id ign (r : record V) f v, id <> [] -> findField id r = Some f -> fd_prot f = false ->
  fd_obj f = Some v -> fd_lock f = false -> fd_packed f = None -> fst (removeField id ign r) = Ok None.
Proof.
  intros V id ign r f v N E P O L K. unfold removeField. rewrite nonnil by exact N. rewrite E, P, L. cbn. now rewrite K.
Qed.
Print Assumptions record_removed_object_refuted.
(** in particular right after the field has been added, or looked at *)
Theorem record_add_then_remove_refuted : forall V id v (r : record V), id <> [] -> view r id = None ->
  let '(ok, r', _) := rec_add id {| a_obj := Some v; a_locked := false |} true false false false r in
  ok = true /\ fst (rec_get id false r') = Ok (Some v) /\ fst (removeField id false r') = Ok None.
Proof.
  intros V id v r N H. unfold rec_add, addField. rewrite nonnil by exact N. unfold view in H. destruct (findField id r) eqn:E; [discriminate|].
  cbn [fd_attach new_field fd_lock fd_obj andb a_obj a_locked f_xfer f_locked f_protect f_honor f_replace]. split; [reflexivity|].
  unfold rec_get, removeField. rewrite !nonnil by exact N. rewrite find_put_same. cbn. auto.
Qed.
Print Assumptions record_add_then_remove_refuted.

Definition ex_ops : list (op (V := nat)) :=
  [OAdd [1;2] (Some 7%nat) false false; OAdd [3] (Some 8%nat) false true; OAdd [1;2] (Some 9%nat) false false; OAdd [1;2] (Some 9%nat) true false;
   ORemove [3] false; OProtect [3] false; ORemove [3] false; OHookInsert [4] 5%nat; OHookRemove [9]; OGet [1;2] false; OHas [3]].
Example ex_run : fst (rec_run ex_ops []) =
  [SDone; SDone; SFail; SDone; SFail; SDone; SDone; SDone; SBool false; SVal (Some 9%nat); SBool false].
Proof. reflexivity. Qed.
Example ex_empty_ok : rec_ok (V := nat) []. Proof. split; constructor. Qed.
Example ex_merge : rec_ok [([1], fld 1 false); ([2], fld 2 true)] /\
  let (ok, r') := merge [([1], fld 10 false); ([3], fld 30 true)] true [([1], fld 1 false); ([2], fld 2 true)] in
  ok = true /\ view r' [1] = Some (Some 10%nat, false) /\ view r' [2] = Some (Some 2%nat, true) /\ view r' [3] = Some (Some 30%nat, true).
Proof. split; [split; repeat constructor; cbn; intuition discriminate|repeat split]. Qed.
