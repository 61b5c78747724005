From Verif Require Import Base Hiid_Model Hiid_Proofs Rec_Model Rec_Spec.
Local Open Scope Z_scope.

Section R.
Context {V : Type}.
Implicit Type r : record V.

Lemma eqb_refl' k : hiid_eqb k k = true.
Proof. now apply hiid_eqb_iff. Qed.
Lemma eqb_neq k k' : k <> k' -> hiid_eqb k k' = false.
Proof. intros H. destruct (hiid_eqb k k') eqn:E; [apply hiid_eqb_iff in E; contradiction|reflexivity]. Qed.

Lemma find_put_same id f r : findField id (putField id f r) = Some f.
Proof.
  induction r as [|[k g] r IH]; cbn; [now rewrite eqb_refl'|]. destruct (hiid_eqb k id) eqn:E; cbn; rewrite E; auto.
Qed.
Lemma find_put_other id k f r : id <> k -> findField k (putField id f r) = findField k r.
Proof.
  intros N. induction r as [|[j g] r IH]; cbn; [now rewrite eqb_neq|].
  destruct (hiid_eqb j id) eqn:E; cbn.
  - apply hiid_eqb_iff in E as ->. now rewrite (eqb_neq id k N).
  - destruct (hiid_eqb j k); auto.
Qed.
Lemma find_not_in k r : ~ In k (map fst r) -> findField k r = None.
Proof. induction r as [|[j g] r IH]; cbn; [auto|]. intros N. rewrite eqb_neq by tauto. apply IH. tauto. Qed.
Lemma find_in k r f : findField k r = Some f -> In (k, f) r.
Proof.
  induction r as [|[j g] r IH]; cbn; [discriminate|]. destruct (hiid_eqb j k) eqn:E.
  - apply hiid_eqb_iff in E as ->. intros H; injection H as ->. now left.
  - intros H. right. auto.
Qed.
Lemma find_none_not_in k r : findField k r = None -> ~ In k (map fst r).
Proof.
  induction r as [|[j g] r IH]; cbn; [tauto|]. destruct (hiid_eqb j k) eqn:E; [discriminate|]. intros H [<-|I]; [rewrite eqb_refl' in E; discriminate|]. now apply IH.
Qed.
Lemma find_erase_same id r : NoDup (map fst r) -> findField id (eraseField id r) = None.
Proof.
  induction r as [|[k g] r IH]; cbn; [auto|]. intros N. inversion_clear N as [|? ? Nk Nr]. destruct (hiid_eqb k id) eqn:E.
  - apply hiid_eqb_iff in E as ->. now apply find_not_in.
  - cbn. rewrite E. auto.
Qed.
Lemma find_erase_other id k r : id <> k -> findField k (eraseField id r) = findField k r.
Proof.
  intros N. induction r as [|[j g] r IH]; cbn; [auto|]. destruct (hiid_eqb j id) eqn:E.
  - apply hiid_eqb_iff in E as ->. now rewrite (eqb_neq id k N).
  - cbn. destruct (hiid_eqb j k); auto.
Qed.

Lemma put_keys id f r x : In x (map fst (putField id f r)) -> x = id \/ In x (map fst r).
Proof.
  induction r as [|[k g] r IH]; cbn; [intuition|]. destruct (hiid_eqb k id) eqn:E; cbn; [tauto|]. intros [->|H]; [tauto|]. destruct (IH H); tauto.
Qed.
Lemma erase_keys id r x : In x (map fst (eraseField id r)) -> In x (map fst r).
Proof. induction r as [|[k g] r IH]; cbn; [auto|]. destruct (hiid_eqb k id); cbn; tauto. Qed.
Lemma put_ok id f r : rec_ok r -> fd_lock f = false -> rec_ok (putField id f r).
Proof.
  intros [N L] Hf. split.
  - clear L. induction r as [|[k g] r IH]; cbn; [constructor; [tauto|constructor]|]. cbn in N. inversion_clear N as [|? ? Nk Nr].
    destruct (hiid_eqb k id) eqn:E; cbn; [now constructor|]. constructor; [|auto]. intros I. apply put_keys in I as [->|I]; [rewrite eqb_refl' in E; discriminate|contradiction].
  - clear N. induction r as [|[k g] r IH]; cbn; [repeat constructor; exact Hf|]. inversion_clear L as [|? ? Lk Lr]. destruct (hiid_eqb k id); constructor; auto.
Qed.
Lemma erase_ok id r : rec_ok r -> rec_ok (eraseField id r).
Proof.
  intros [N L]. split.
  - clear L. induction r as [|[k g] r IH]; cbn; [constructor|]. cbn in N. inversion_clear N as [|? ? Nk Nr].
    destruct (hiid_eqb k id) eqn:E; cbn; [auto|]. constructor; [|auto]. intros I. now apply erase_keys in I.
  - clear N. induction r as [|[k g] r IH]; cbn; [constructor|]. inversion_clear L as [|? ? Lk Lr]. destruct (hiid_eqb k id); [auto|constructor; auto].
Qed.
Lemma find_lock id r f : rec_ok r -> findField id r = Some f -> fd_lock f = false.
Proof. intros [_ L] H. apply find_in in H. rewrite Forall_forall in L. exact (L _ H). Qed.

Lemma view_put id f r : same (view (putField id f r)) (upd (view r) id (Some (contents f, fd_prot f))).
Proof.
  intros k. unfold view, upd. destruct (list_eq_dec Z.eq_dec id k) as [<-|N]; [now rewrite find_put_same|now rewrite find_put_other].
Qed.
Lemma view_erase id r : NoDup (map fst r) -> same (view (eraseField id r)) (upd (view r) id None).
Proof.
  intros H k. unfold view, upd. destruct (list_eq_dec Z.eq_dec id k) as [<-|N]; [now rewrite find_erase_same|now rewrite find_erase_other].
Qed.
Lemma view_put_same id f g r : findField id r = Some f -> contents g = contents f -> fd_prot g = fd_prot f -> same (view (putField id g r)) (view r).
Proof.
  intros H C P k. rewrite view_put. unfold upd. destruct (list_eq_dec Z.eq_dec id k) as [<-|N]; [|reflexivity]. unfold view. rewrite H. cbn. now rewrite C, P.
Qed.
Lemma contents_ref (f : field V) : contents (fd_ref f) = contents f /\ fd_prot (fd_ref f) = fd_prot f /\ fd_obj (fd_ref f) = contents f.
Proof. unfold fd_ref, contents. destruct (fd_obj f) eqn:E; cbn; [rewrite E; auto|]. destruct (fd_packed f); auto. Qed.
Lemma ref_lock (f : field V) : fd_lock f = false -> fd_lock (fd_ref f) = false.
Proof. unfold fd_ref. destruct (fd_obj f); auto. destruct (fd_packed f); auto. Qed.

Lemma same_refl (m : fmap (V:=V)) : same m m. Proof. intros k. reflexivity. Qed.
Lemma same_trans (a b c : fmap (V:=V)) : same a b -> same b c -> same a c.
Proof. intros H K k. now rewrite H. Qed.
Lemma upd_same (m m' : fmap (V:=V)) k x : same m m' -> same (upd m k x) (upd m' k x).
Proof. intros H j. unfold upd. destruct (list_eq_dec Z.eq_dec k j); auto. Qed.

(** the specification only looks at the map pointwise *)
Lemma spec_step_same (o : op (V:=V)) m m' : same m m' -> fst (spec_step o m) = fst (spec_step o m') /\ same (snd (spec_step o m)) (snd (spec_step o m')).
Proof.
  intros H. destruct o; try destruct id; cbn [spec_step]; try (split; [reflexivity|exact H]); try rewrite H;
    repeat match goal with |- context [match ?x with _ => _ end] => destruct x end; cbn; split; try reflexivity; auto using upd_same, same_refl.
Qed.

Lemma nonnil {A} (id : list Z) (a b : A) : id <> [] -> match id with [] => a | _ :: _ => b end = b.
Proof. destruct id; congruence. Qed.

Lemma view_find id r : view r id = option_map (fun f => (contents f, fd_prot f)) (findField id r).
Proof. reflexivity. Qed.
Ltac fin := cbn [andb]; first [split; [reflexivity|]; split; [assumption|apply same_refl]
  | split; [reflexivity|]; split; [apply put_ok; [assumption|auto]|apply view_put]
  | split; [reflexivity|]; split; [apply erase_ok; assumption|apply view_erase; assumption]].
Lemma rec_step_sim (o : op (V:=V)) r : rec_ok r ->
  fst (rec_step o r) = fst (spec_step o (view r)) /\ rec_ok (snd (rec_step o r)) /\ same (view (snd (rec_step o r))) (snd (spec_step o (view r))).
Proof.
  intros Hr. pose proof (proj1 Hr) as ND.
  destruct o as [id v rep prot|id p|id ign|id|id ign|id w|id v|id|]; try (destruct (list_eq_dec Z.eq_dec id []) as [->|N]; [cbn; auto using same_refl; fail|]);
    unfold rec_step, rec_add, addField, protectField, removeField, hook_remove, rec_get, hook_get, hook_insert, spec_step; rewrite ?nonnil by exact N; rewrite ?view_find;
    try (destruct (findField id r) as [f|] eqn:E; cbn [option_map f_honor f_replace]; [pose proof (find_lock _ _ _ Hr E) as Lk; destruct (contents_ref f) as (C1 & C2 & C3)|]).
  - rewrite andb_true_r. destruct (fd_prot f); cbn [andb negb]; [rewrite andb_false_r; fin|].
    destruct rep; cbn [negb andb]; [|fin]. unfold fd_attach. rewrite Lk. cbn [andb a_obj a_locked f_xfer f_protect f_locked]. destruct v; cbn [fst snd]; fin.
  - unfold fd_attach, new_field. cbn [fd_lock andb a_obj a_locked f_xfer f_protect f_locked]. destruct v; cbn [fst snd]; fin.
  - cbn [fst snd]. fin.
  - fin.
  - rewrite Lk. cbn [andb]. destruct (fd_prot f); cbn [fst snd is_ok]; fin.
  - destruct ign; cbn [fst snd is_ok]; fin.
  - destruct (fd_prot f); cbn [fst snd]; fin.
  - cbn [fst snd]. fin.
  - cbn [fst snd]. rewrite C3. split; [reflexivity|]. split; [apply put_ok; auto using ref_lock|]. now apply (view_put_same id f).
  - destruct ign; cbn [fst snd]; fin.
  - destruct (w && fd_prot f); cbn [fst snd]; [fin|]. rewrite C3. split; [reflexivity|]. split; [apply put_ok; auto using ref_lock|]. now apply (view_put_same id f).
  - cbn [fst snd]. fin.
  - cbn [fst snd]. fin.
  - cbn [fst snd]. fin.
  - cbn [fst snd]. unfold hasField. rewrite E. fin.
  - cbn [fst snd]. unfold hasField. rewrite E. fin.
  - cbn. split; [reflexivity|]. split; [split; constructor|apply same_refl].
Qed.
Lemma rec_run_sim (os : list (op (V:=V))) : forall r m, rec_ok r -> same (view r) m ->
  fst (rec_run os r) = fst (spec_run os m) /\ rec_ok (snd (rec_run os r)) /\ same (view (snd (rec_run os r))) (snd (spec_run os m)).
Proof.
  induction os as [|o os IH]; intros r m Hr Hm; [cbn; auto|]. cbn [rec_run spec_run].
  destruct (rec_step_sim o r Hr) as (E1 & E2 & E3). destruct (spec_step_same o (view r) m Hm) as (S1 & S2).
  destruct (rec_step o r) as [s r']. destruct (spec_step o m) as [s' m']. cbn [fst snd] in *.
  destruct (IH r' m' E2) as (F1 & F2 & F3); [eapply same_trans; eassumption|].
  destruct (rec_run os r') as [ss r'']. destruct (spec_run os m') as [ss' m'']. cbn [fst snd] in *. split; [|auto]. congruence.
Qed.

(** *** merge *)
Lemma contents_copy (f g : field V) : contents (snd (fd_copy new_field g)) = contents g /\ fd_prot (snd (fd_copy new_field g)) = fd_prot g /\ fd_lock (snd (fd_copy new_field g)) = false.
Proof. cbn. auto. Qed.
Lemma merge_spec other ov : forall r, rec_ok r -> NoDup (map fst other) ->
  rec_ok (snd (merge other ov r)) /\
  (fst (merge other ov r) = true ->
   forall k, view (snd (merge other ov r)) k = match view other k with
     | None => view r k
     | Some x => match view r k with None => Some x | Some y => if ov then Some x else Some y end end) /\
  (fst (merge other ov r) = false <-> ov = true /\ exists k v, view r k = Some (v, true) /\ view other k <> None) /\
  (forall k, view (snd (merge other ov r)) k = view r k \/ (view other k <> None /\ view (snd (merge other ov r)) k = view other k)) /\
  (forall k v, view r k = Some (v, true) -> view (snd (merge other ov r)) k = Some (v, true)).
Proof.
  induction other as [|[k g] other IH]; intros r Hr N.
  - cbn. split; [exact Hr|]. split; [reflexivity|]. split; [|split; auto]. split; [discriminate|]. intros (_ & k & v & _ & H). contradiction.
  - inversion_clear N as [|? ? Nk No]. cbn [merge merge_loop]. fold (@merge V).
    assert (Vo : forall j, view ((k, g) :: other) j = if hiid_eqb k j then Some (contents g, fd_prot g) else view other j) by (intros j; unfold view; cbn; destruct (hiid_eqb k j); reflexivity).
    assert (Vk : view other k = None) by (unfold view; now rewrite find_not_in).
    assert (G : forall g', contents g' = contents g -> fd_prot g' = fd_prot g -> fd_lock g' = false ->
      (view r k = None \/ (ov = true /\ exists v, view r k = Some (v, false))) ->
      let r1 := putField k g' r in
      rec_ok (snd (merge other ov r1)) /\
      (fst (merge other ov r1) = true ->
       forall j, view (snd (merge other ov r1)) j = match view ((k, g) :: other) j with
         | None => view r j
         | Some x => match view r j with None => Some x | Some y => if ov then Some x else Some y end end) /\
      (fst (merge other ov r1) = false <-> ov = true /\ exists j v, view r j = Some (v, true) /\ view ((k, g) :: other) j <> None) /\
      (forall j, view (snd (merge other ov r1)) j = view r j \/ (view ((k, g) :: other) j <> None /\ view (snd (merge other ov r1)) j = view ((k, g) :: other) j)) /\
      (forall j v, view r j = Some (v, true) -> view (snd (merge other ov r1)) j = Some (v, true))).
    { intros g' C P Lk Hk. cbv zeta. set (r1 := putField k g' r).
      assert (V1 : forall j, view r1 j = if hiid_eqb k j then Some (contents g, fd_prot g) else view r j).
      { intros j. unfold r1. rewrite view_put. unfold upd. destruct (list_eq_dec Z.eq_dec k j) as [<-|Nj]; [rewrite eqb_refl', C, P; reflexivity|now rewrite eqb_neq]. }
      destruct (IH r1 (put_ok k g' r Hr Lk) No) as (I1 & I2 & I3 & I4 & I5). split; [exact I1|]. split; [|split; [|split]].
      - intros T j. rewrite (I2 T j), Vo, V1. destruct (hiid_eqb k j) eqn:E; [|reflexivity]. apply hiid_eqb_iff in E as <-. rewrite Vk.
        destruct Hk as [-> |[-> (v & ->)]]; reflexivity.
      - rewrite I3. split; intros (O & j & v & H1 & H2); (split; [exact O|]); exists j, v.
        + rewrite V1 in H1. rewrite Vo. destruct (hiid_eqb k j) eqn:E; [apply hiid_eqb_iff in E as <-; contradiction|auto].
        + rewrite V1. rewrite Vo in H2. destruct (hiid_eqb k j) eqn:E; [|auto]. apply hiid_eqb_iff in E as <-. destruct Hk as [X|[_ (w & X)]]; congruence.
      - intros j. rewrite Vo. destruct (I4 j) as [X|[Y X]]; rewrite X, ?V1; destruct (hiid_eqb k j) eqn:E; auto.
        + right. split; [discriminate|reflexivity].
        + apply hiid_eqb_iff in E as <-. contradiction.
      - intros j v H. apply I5. rewrite V1. destruct (hiid_eqb k j) eqn:E; [|exact H]. apply hiid_eqb_iff in E as <-. destruct Hk as [X|[_ (w & X)]]; congruence. }
    destruct (findField k r) as [f|] eqn:E.
    + assert (Vr : view r k = Some (contents f, fd_prot f)) by (unfold view; now rewrite E).
      destruct ov.
      * destruct (fd_prot f) eqn:Pf.
        -- cbn [fst snd]. split; [exact Hr|]. split; [discriminate|]. split; [|split; auto].
           split; [|reflexivity]. intros _. split; [reflexivity|]. exists k, (contents f). rewrite Vr, Vo, eqb_refl'. split; [reflexivity|discriminate].
        -- unfold fd_copy. rewrite (find_lock _ _ _ Hr E). cbn [andb]. apply G; auto. right. split; [reflexivity|]. exists (contents f). exact Vr.
      * destruct (IH r Hr No) as (I1 & I2 & I3 & I4 & I5). split; [exact I1|]. split; [|split; [|split]].
        -- intros T j. rewrite (I2 T j), Vo. destruct (hiid_eqb k j) eqn:Ej; [|reflexivity]. apply hiid_eqb_iff in Ej as <-. rewrite Vk, Vr. reflexivity.
        -- rewrite I3. split; intros (O & _); discriminate.
        -- intros j. rewrite Vo. destruct (I4 j) as [X|[Y X]]; [auto|]. destruct (hiid_eqb k j) eqn:Ej; [apply hiid_eqb_iff in Ej as <-; contradiction|auto].
        -- exact I5.
    + apply G; auto. left. unfold view. now rewrite E.
Qed.
End R.
