From Verif Require Import Base Bytes_Model Bytes_Proofs Hiid_Model Hiid_Spec Hiid_Proofs
  Pack_Model Pack_Spec Pack_Proofs Ser_Model Ser_Spec.
Local Open Scope Z_scope.

(** ** Induction over nested objects *)
Section ObjInd.
Variable P : obj -> Prop.
Hypothesis Hnull : P ONull.
Hypothesis Hpacked : forall bs, P (OPacked bs).
Hypothesis Hvec0 : forall t, P (OVec0 t).
Hypothesis Hbin : forall t ty sc n d, P (OVecBin t ty sc n d).
Hypothesis Hstr : forall t sc l, P (OVecStr t sc l).
Hypothesis Hhiid : forall t ty sc l, P (OVecHiid t ty sc l).
Hypothesis Hdyn : forall t ty sc es, Forall P es -> P (OVecDyn t ty sc es).
Hypothesis Harr0 : forall t, P (OArr0 t).
Hypothesis Hnum : forall t ty sh d, P (OArrNum t ty sh d).
Hypothesis Hastr : forall t sh l, P (OArrStr t sh l).
Hypothesis Hrec : forall t fs, Forall (fun f => P (snd f)) fs -> P (ORec t fs).
Hypothesis Hlist : forall t os, Forall P os -> P (OList t os).
Fixpoint obj_ind' (o : obj) : P o :=
  let go := fix go (l : list obj) : Forall P l :=
    match l with [] => Forall_nil _ | x :: r => Forall_cons _ (obj_ind' x) (go r) end in
  let gof := fix gof (l : list (list Z * obj)) : Forall (fun f => P (snd f)) l :=
    match l with [] => Forall_nil _ | x :: r => Forall_cons _ (obj_ind' (snd x)) (gof r) end in
  match o with
  | ONull => Hnull
  | OPacked bs => Hpacked bs
  | OVec0 t => Hvec0 t
  | OVecBin t ty sc n d => Hbin t ty sc n d
  | OVecStr t sc l => Hstr t sc l
  | OVecHiid t ty sc l => Hhiid t ty sc l
  | OVecDyn t ty sc es => Hdyn t ty sc es (go es)
  | OArr0 t => Harr0 t
  | OArrNum t ty sh d => Hnum t ty sh d
  | OArrStr t sh l => Hastr t sh l
  | ORec t fs => Hrec t fs (gof fs)
  | OList t os => Hlist t os (go os)
  end.
End ObjInd.

Lemma fold_and_Forall {A} (P : A -> Prop) l :
  fold_right (fun o p => P o /\ p) True l <-> Forall P l.
Proof.
  induction l as [|x l IH]; cbn; [split; constructor|]. rewrite IH. split.
  - intros [H1 H2]. now constructor.
  - inversion 1; subst. auto.
Qed.

(** ** Words of a header *)
Lemma hdr_enc t n : hdr t n = enc_i32s [t; Z.of_nat n].
Proof. unfold hdr, enc_i32s. cbn [flat_map]. now rewrite app_nil_r. Qed.
Lemma enc_i32_1 z : enc_i32 z = enc_i32s [z].
Proof. unfold enc_i32s. cbn [flat_map]. now rewrite app_nil_r. Qed.

Lemma word_enc zs i z rest : nth_error zs i = Some z -> i32_ok z = true ->
  word i (enc_i32s zs ++ rest) = z.
Proof.
  intros H Hz. unfold word. revert i H. induction zs as [|y zs IH]; intros [|i] H; try discriminate.
  - injection H as ->. rewrite enc_i32s_cons, <- app_assoc. replace (4 * 0)%nat with 0%nat by lia.
    cbn [skipn]. rewrite firstn_app_len by apply enc_i32_length. now apply dec_enc_i32.
  - cbn [nth_error] in H. rewrite enc_i32s_cons, <- app_assoc.
    replace (4 * S i)%nat with (4 + 4 * i)%nat by lia.
    rewrite <- (IH _ H). reflexivity.
Qed.

Lemma i32_nat n : int_size n -> i32_ok (Z.of_nat n) = true.
Proof. unfold int_size, i32_ok. lia. Qed.

Lemma skipn_enc zs rest n : n = (4 * length zs)%nat -> skipn n (enc_i32s zs ++ rest) = rest.
Proof. intros ->. apply skipn_app_len. apply enc_i32s_length. Qed.

(** ** Taking blocks by counts *)
Definition still (bs : list (list Z)) : obj := match bs with [] => ONull | _ => OPacked bs end.

Lemma counts_cons bs bss : counts (bs :: bss) = Z.of_nat (length bs) :: counts bss.
Proof. reflexivity. Qed.

Lemma zsum_counts bss : zsum (counts bss) = Z.of_nat (length (concat bss)).
Proof.
  induction bss as [|bs bss IH]; [reflexivity|]. rewrite counts_cons. cbn [zsum fold_right concat].
  fold (zsum (counts bss)). rewrite IH, app_length. lia.
Qed.

Lemma take_counts_ok bss rest : take_counts (counts bss) (concat bss ++ rest) = POk (map still bss) rest.
Proof.
  induction bss as [|bs bss IH]; cbn [counts map take_counts concat]; [reflexivity|].
  fold (counts bss). destruct bs as [|b bs].
  - cbn [length app]. change (Z.of_nat 0 =? 0) with true. cbn match. now rewrite IH.
  - destruct (Z.eqb_spec (Z.of_nat (length (b :: bs))) 0) as [E|E]; [cbn [length] in E; lia|].
    destruct (Z.ltb_spec (Z.of_nat (length (b :: bs))) 0); [lia|].
    rewrite <- app_assoc.
    destruct (Z.ltb_spec (Z.of_nat (length ((b :: bs) ++ concat bss ++ rest))) (Z.of_nat (length (b :: bs)))) as [L|L];
      [rewrite app_length in L; lia|].
    rewrite Nat2Z.id, firstn_app_len, skipn_app_len by reflexivity. now rewrite IH.
Qed.

Lemma take_counts_short bss r : (length r < length (concat bss))%nat ->
  exists r', take_counts (counts bss) r = PErr r'.
Proof.
  revert r. induction bss as [|bs bss IH]; intros r H; [cbn in H; lia|].
  cbn [concat] in H. rewrite app_length in H. cbn [counts map take_counts]. fold (counts bss).
  destruct (Z.eqb_spec (Z.of_nat (length bs)) 0) as [E|E].
  - destruct (IH r) as (r' & ->); [lia|]. eauto.
  - destruct (Z.ltb_spec (Z.of_nat (length bs)) 0); [lia|].
    destruct (Z.ltb_spec (Z.of_nat (length r)) (Z.of_nat (length bs))); [eauto|].
    rewrite Nat2Z.id. destruct (IH (skipn (length bs) r)) as (r' & ->); [rewrite skipn_length; lia|]. eauto.
Qed.

(** ** Record header *)
Lemma field_set_fresh fs id o : ~ In id (map fst fs) -> field_set fs id o = fs ++ [(id, o)].
Proof.
  induction fs as [|[id' o'] fs IH]; cbn; intros H; [reflexivity|].
  destruct (hiid_eqb id id') eqn:E; [apply hiid_eqb_iff in E; subst; tauto|]. now rewrite IH by tauto.
Qed.

Definition finfo (f : list Z * obj) : list Z :=
  [Z.of_nat (hiid_packSize (fst f)); Z.of_nat (length (toBlock (snd f)))].
Definition fwords (fs : list (list Z * obj)) : list Z := flat_map finfo fs.
Definition fids (fs : list (list Z * obj)) : list Z := flat_map fst fs.

Lemma fwords_length fs : length (fwords fs) = (2 * length fs)%nat.
Proof. unfold fwords. induction fs; cbn; lia. Qed.
Lemma fwords_app a b : fwords (a ++ b) = fwords a ++ fwords b.
Proof. apply flat_map_app. Qed.
Lemma fids_app a b : fids (a ++ b) = fids a ++ fids b.
Proof. apply flat_map_app. Qed.
Lemma fids_one f : fids [f] = fst f.
Proof. unfold fids. cbn. apply app_nil_r. Qed.

Lemma enc_fwords fs :
  flat_map (fun f => enc_i32s [Z.of_nat (hiid_packSize (fst f)); Z.of_nat (length (toBlock (snd f)))]) fs
  = enc_i32s (fwords fs).
Proof.
  unfold fwords. induction fs as [|f fs IH]; [reflexivity|]. cbn [flat_map]. now rewrite enc_i32s_app, IH.
Qed.
Lemma enc_fids (fs : list (list Z * obj)) : flat_map (fun f => enc_i32s (fst f)) fs = enc_i32s (fids fs).
Proof.
  unfold fids. induction fs as [|f fs IH]; [reflexivity|]. cbn [flat_map]. now rewrite enc_i32s_app, IH.
Qed.

Lemma nth_error_mid {A} (a : list A) x b i : i = length a -> nth_error (a ++ x :: b) i = Some x.
Proof. intros ->. rewrite nth_error_app2, Nat.sub_diag by lia. reflexivity. Qed.

Lemma fwords_nth t bc nf done f todo :
  nth_error ([t; bc; nf] ++ fwords (done ++ f :: todo)) (3 + 2 * length done)
    = Some (Z.of_nat (hiid_packSize (fst f))) /\
  nth_error ([t; bc; nf] ++ fwords (done ++ f :: todo)) (4 + 2 * length done)
    = Some (Z.of_nat (length (toBlock (snd f)))).
Proof.
  rewrite fwords_app. change (fwords (f :: todo)) with
    (Z.of_nat (hiid_packSize (fst f)) :: Z.of_nat (length (toBlock (snd f))) :: fwords todo).
  split.
  - rewrite app_assoc. apply nth_error_mid. rewrite app_length, fwords_length. cbn. lia.
  - change (Z.of_nat (hiid_packSize (fst f)) :: Z.of_nat (length (toBlock (snd f))) :: fwords todo)
      with ([Z.of_nat (hiid_packSize (fst f))] ++ Z.of_nat (length (toBlock (snd f))) :: fwords todo).
    rewrite !app_assoc. apply nth_error_mid. rewrite !app_length, fwords_length. cbn. lia.
Qed.

Definition finfo_ok (f : list Z * obj) : Prop :=
  hiid_ok (fst f) /\ int_size (4 * length (fst f)) /\ int_size (length (toBlock (snd f))).

Lemma rec_fields_take t bc nf done todo :
  Forall finfo_ok todo -> NoDup (map fst (done ++ todo)) ->
  let b := enc_i32s ([t; bc; nf] ++ fwords (done ++ todo)) ++ enc_i32s (fids (done ++ todo)) in
  forall acc nref r, map fst acc = map fst done ->
  rec_fields b (length todo) (length done)
    (12 + 8 * Z.of_nat (length (done ++ todo)) + 4 * Z.of_nat (length (fids done))) nref acc r =
  match take_counts (counts (map (fun f => toBlock (snd f)) todo)) r with
  | POk os r' => POk (acc ++ combine (map fst todo) os,
                      nref + zsum (counts (map (fun f => toBlock (snd f)) todo))) r'
  | PErr r' => PErr r'
  | PUB => PUB
  end.
Proof.
  revert done. induction todo as [|f todo IH]; intros done Hok Hnd b acc nref r Hacc.
  - cbn. rewrite app_nil_r. f_equal. f_equal. lia.
  - inversion_clear Hok as [|? ? HA HB]. destruct HA as (H1 & H2 & H3).
    cbn [length rec_fields map counts].
    fold (counts (map (fun f => toBlock (snd f)) todo)).
    destruct (fwords_nth t bc nf done f todo) as [N1 N2].
    assert (W1 : word (3 + 2 * length done) b = Z.of_nat (hiid_packSize (fst f)))
      by (apply word_enc; [exact N1|apply i32_nat; exact H2]).
    assert (W2 : word (4 + 2 * length done) b = Z.of_nat (length (toBlock (snd f))))
      by (apply word_enc; [exact N2|apply i32_nat; exact H3]).
    rewrite W1, W2. clear N1 N2 W1 W2.
    assert (Lb : length b = (12 + 8 * length (done ++ f :: todo) + 4 * length (fids (done ++ f :: todo)))%nat).
    { unfold b. rewrite app_length, !enc_i32s_length, app_length, fwords_length. cbn [length]. lia. }
    assert (Lf : length (fids (done ++ f :: todo)) = (length (fids done) + length (fst f) + length (fids todo))%nat).
    { rewrite fids_app. cbn [fids flat_map]. fold (fids todo). rewrite !app_length. lia. }
    unfold hiid_packSize.
    destruct (Z.ltb_spec (Z.of_nat (length b))
      (12 + 8 * Z.of_nat (length (done ++ f :: todo)) + 4 * Z.of_nat (length (fids done)) +
       Z.of_nat (4 * length (fst f)))); [lia|].
    destruct (Z.ltb_spec (Z.of_nat (4 * length (fst f))) 0); [lia|].
    assert (U : hiid_unpack
      (skipn (Z.to_nat (12 + 8 * Z.of_nat (length (done ++ f :: todo)) + 4 * Z.of_nat (length (fids done)))) b)
      (Z.to_nat (Z.of_nat (4 * length (fst f)))) = Ok (fst f)).
    { rewrite Nat2Z.id. unfold b. rewrite fids_app. cbn [fids flat_map]. fold (fids todo).
      rewrite !enc_i32s_app, !app_assoc. rewrite <- (app_assoc _ (enc_i32s (fst f))).
      rewrite skipn_app_len.
      - destruct (hiid_pack_ok (fst f) (hiid_packSize (fst f)) (Nat.le_refl _)) as (bs & E & L).
        assert (Eb : bs = enc_i32s (fst f)).
        { unfold hiid_pack in E. destruct (Nat.ltb (hiid_packSize (fst f)) (4 * length (fst f))); [discriminate|].
          now injection E as <-. }
        subst bs. exact (hiid_pack_unpack _ _ _ _ _ _ H1 E).
      - repeat (rewrite ?app_length, ?enc_i32s_length, ?fwords_length). cbn [length]. lia. }
    rewrite U.
    assert (Hn : ~ In (fst f) (map fst acc)).
    { rewrite Hacc. rewrite map_app in Hnd. cbn [map] in Hnd. apply NoDup_remove_2 in Hnd.
      intros Hin. apply Hnd, in_or_app. tauto. }
    assert (Step : forall o nref' r', 
      rec_fields b (length todo) (S (length done))
        (12 + 8 * Z.of_nat (length (done ++ f :: todo)) + 4 * Z.of_nat (length (fids done)) + Z.of_nat (4 * length (fst f)))
        nref' (field_set acc (fst f) o) r' =
      match take_counts (counts (map (fun f => toBlock (snd f)) todo)) r' with
      | POk os r'' => POk ((acc ++ [(fst f, o)]) ++ combine (map fst todo) os,
                      nref' + zsum (counts (map (fun f => toBlock (snd f)) todo))) r''
      | PErr r'' => PErr r''
      | PUB => PUB
      end).
    { intros o nref' r'. rewrite field_set_fresh by exact Hn.
      assert (Ed : done ++ f :: todo = (done ++ [f]) ++ todo) by (now rewrite <- app_assoc).
      specialize (IH (done ++ [f]) HB). rewrite <- Ed in IH. specialize (IH Hnd (acc ++ [(fst f, o)]) nref' r').
      rewrite app_length in IH. cbn [length] in IH. replace (length done + 1)%nat with (S (length done)) in IH by lia.
      rewrite <- IH.
      - match goal with |- rec_fields _ _ _ ?x _ _ _ = rec_fields _ _ _ ?y _ _ _ => replace x with y; [reflexivity|] end.
        rewrite fids_app, (app_length (fids done)), fids_one. lia.
      - rewrite !map_app, Hacc. reflexivity. }
    cbn [take_counts].
    destruct (Z.eqb_spec (Z.of_nat (length (toBlock (snd f)))) 0) as [E0|E0].
    + rewrite Step. destruct (take_counts (counts (map (fun f => toBlock (snd f)) todo)) r); [|reflexivity|reflexivity].
      cbn [combine zsum fold_right]. rewrite <- app_assoc. cbn [app]. f_equal. f_equal.
      fold (zsum (counts (map (fun f0 => toBlock (snd f0)) todo))). lia.
    + destruct (Z.ltb_spec (Z.of_nat (length (toBlock (snd f)))) 0); [lia|].
      destruct (Z.ltb_spec (Z.of_nat (length r)) (Z.of_nat (length (toBlock (snd f))))); [reflexivity|].
      rewrite Step.
      destruct (take_counts (counts (map (fun f => toBlock (snd f)) todo)) (skipn (Z.to_nat (Z.of_nat (length (toBlock (snd f))))) r));
        [|reflexivity|reflexivity].
      cbn [combine zsum fold_right]. rewrite <- app_assoc. cbn [app]. f_equal. f_equal.
      fold (zsum (counts (map (fun f0 => toBlock (snd f0)) todo))). lia.
Qed.

(** ** Dispatch on the class *)
Lemma construct_go fuel e tid t b r k :
  te_class e t = Some k -> tid = 0 \/ tid = t -> t <> 0 -> (4 <= length b)%nat -> word 0 b = t ->
  construct_f (S fuel) e tid (b :: r) =
  match k with
  | KVec => vec_from e t b r
  | KArr => arr_from e t b r
  | KRec => rec_from t b r
  | KList => list_from e (construct_f fuel e 0) t b r
  end.
Proof.
  intros Hk Ht H0 Hl Hw. cbn [construct_f].
  assert (Et : (if tid =? 0 then word 0 b else tid) = t).
  { destruct (Z.eqb_spec tid 0); [exact Hw|]. destruct Ht; [contradiction|assumption]. }
  destruct (Nat.ltb_spec (length b) 4); [lia|]. rewrite andb_false_r, Et, Hk. destruct k; reflexivity.
Qed.

Lemma class_nz e t k : wf_env e -> te_class e t = Some k -> t <> 0 /\ i32_ok t = true.
Proof.
  intros (H0 & H1 & _) H. split; [intros ->; rewrite H0 in H; discriminate|]. exact (proj1 (H1 _ _ H)).
Qed.

Lemma i32_szfield sc n : int_size n -> (sc = true -> n = 1%nat) -> i32_ok (szfield sc n) = true.
Proof.
  unfold int_size, szfield, i32_ok. destruct sc; intros H1 H2; [rewrite H2 by reflexivity|]; lia.
Qed.
Lemma szfield_back sc n : int_size n -> (sc = true -> n = 1%nat) ->
  (szfield sc n =? -1) = sc /\ (if szfield sc n =? -1 then 1 else szfield sc n) = Z.of_nat n.
Proof.
  unfold szfield, int_size. intros H1 H2. destruct sc.
  - rewrite H2 by reflexivity. split; reflexivity.
  - destruct (Z.eqb_spec (Z.of_nat n) (-1)); [lia|]. split; reflexivity.
Qed.

(** a Vec header *)
Lemma vec_words e t bc ty sz data r :
  i32_ok t = true -> i32_ok bc = true -> i32_ok ty = true -> i32_ok sz = true -> ty <> 0 ->
  let b := enc_i32s [t; bc; ty; sz] ++ data in
  let n := if sz =? -1 then 1 else sz in
  vec_from e t b r =
  match category e ty with
  | CBin k =>
      if negb (Z.of_nat (length data) =? Z.of_nat k * n) then PErr r else
      if negb (bc =? 1) then PErr r else POk (OVecBin t ty (sz =? -1) (Z.to_nat n) data) r
  | CString =>
      match arr_allocate string_packer data with
      | Ok l => if negb (Z.of_nat (length l) =? n) then PErr r else
                if negb (bc =? 1) then PErr r else POk (OVecStr t (sz =? -1) l) r
      | Err => PErr r | UB => PUB end
  | CHiid =>
      match arr_allocate hiid_packer data with
      | Ok l => if negb (Z.of_nat (length l) =? n) then PErr r else
                if negb (bc =? 1) then PErr r else POk (OVecHiid t ty (sz =? -1) l) r
      | Err => PErr r | UB => PUB end
  | CDyn =>
      if negb (Z.of_nat (length data) =? 4 * n) then PErr r else
      let cs := dec_i32s (Z.to_nat n) data in
      match take_counts cs r with
      | POk os r' => if negb (1 + zsum cs =? bc) then PErr r' else POk (OVecDyn t ty (sz =? -1) os) r'
      | PErr r' => PErr r' | PUB => PUB end
  | COther => PErr r
  end.
Proof.
  intros Ht Hb Hty Hsz Hnz b n. unfold vec_from.
  assert (Lb : length b = (16 + length data)%nat).
  { unfold b. rewrite app_length, enc_i32s_length. reflexivity. }
  assert (W0 : word 0 b = t) by (apply word_enc; [reflexivity|assumption]).
  assert (W1 : word 1 b = bc) by (apply word_enc; [reflexivity|assumption]).
  assert (W2 : word 2 b = ty) by (apply word_enc; [reflexivity|assumption]).
  assert (W3 : word 3 b = sz) by (apply word_enc; [reflexivity|assumption]).
  assert (Sk : skipn 16 b = data) by (apply skipn_enc; reflexivity).
  rewrite W0, W1, W2, W3, Sk, Z.eqb_refl. cbn [negb]. fold n.
  destruct (Z.ltb_spec (Z.of_nat (length b)) 8); [lia|].
  destruct (Z.ltb_spec (Z.of_nat (length b)) 16); [lia|].
  destruct (Z.eqb_spec ty 0); [contradiction|].
  destruct (category e ty); try reflexivity.
  - destruct (Z.eqb_spec (Z.of_nat (length b)) (16 + Z.of_nat k * n)),
             (Z.eqb_spec (Z.of_nat (length data)) (Z.of_nat k * n)); try lia; reflexivity.
  - destruct (Z.eqb_spec (Z.of_nat (length b)) (16 + 4 * n)),
             (Z.eqb_spec (Z.of_nat (length data)) (4 * n)); try lia; reflexivity.
Qed.

Lemma vec0_from e t r : i32_ok t = true -> vec_from e t (enc_i32s [t; 1; 0; 0]) r = POk (OVec0 t) r.
Proof.
  intros Ht. unfold vec_from.
  assert (L : length (enc_i32s [t; 1; 0; 0]) = 16%nat) by (rewrite enc_i32s_length; reflexivity).
  assert (W : forall i z, nth_error [t; 1; 0; 0] i = Some z -> i32_ok z = true -> word i (enc_i32s [t; 1; 0; 0]) = z).
  { intros i z H1 H2. rewrite <- (app_nil_r (enc_i32s _)). now apply word_enc. }
  rewrite L, (W 0%nat t), (W 2%nat 0) by (reflexivity || assumption). rewrite Z.eqb_refl. reflexivity.
Qed.

(** what ArrayPacker writes for a Vec of strings / of ids *)
Lemma arr_bytes_back {T} (p : epacker T) l :
  ep_bin p = 0%nat -> Forall (packs p) l -> Z.of_nat (arr_packSize p l) < 2 ^ 64 -> int_size (length l) ->
  arr_allocate p (arr_bytes p l) = Ok l.
Proof.
  intros E H Hs Hn. unfold arr_bytes.
  destruct (arr_round p l (arr_packSize p l) E H Hs) as (b & E1 & E2 & E3 & E4); [unfold int_size in Hn; lia|lia|].
  rewrite E1. exact E4.
Qed.

(** ** Arrays *)
Lemma arr_offset_ge k : (16 + 4 * k <= arr_offset k)%nat.
Proof. unfold arr_offset. pose proof (Nat.div_mod (16 + 4 * k + 7) 8). pose proof (Nat.mod_upper_bound (16 + 4 * k + 7) 8). lia. Qed.

Lemma shape_i32 shape : Forall (fun d => 0 <= d < 2 ^ 31) shape -> Forall (fun z => i32_ok z = true) shape.
Proof. apply Forall_impl. unfold i32_ok. intros; lia. Qed.

Lemma num_size_range ty k : num_size ty = Some k -> -47 <= ty <= -32 /\ i32_ok ty = true.
Proof.
  unfold num_size. destruct ((-47 <=? ty) && (ty <=? -32)) eqn:E; [|discriminate].
  intros _. apply andb_true_iff in E. unfold i32_ok. lia.
Qed.

Lemma zprod_nonneg l : Forall (fun d => 0 <= d < 2 ^ 31) l -> 0 <= zprod l.
Proof. induction 1; cbn [zprod fold_right]; [lia|]. fold (zprod l). nia. Qed.

Lemma arr_words t ty shape rest r e :
  i32_ok t = true -> i32_ok ty = true -> ty <> 0 -> (1 <= length shape <= 10)%nat ->
  Forall (fun d => 0 <= d < 2 ^ 31) shape ->
  let b := enc_i32s [t; 1; ty; Z.of_nat (length shape)] ++ enc_i32s shape ++ rest in
  arr_from e t b r =
  match num_size ty with
  | Some el => if Z.of_nat (length b) =? Z.of_nat (arr_offset (length shape)) + zprod shape * Z.of_nat el
               then POk (OArrNum t ty shape (skipn (arr_offset (length shape)) b)) r else PErr r
  | None =>
      if negb (ty =? Tpstring) then PErr r else
      let n := zprod shape in
      if Z.of_nat (length b) <? 16 + 4 * Z.of_nat (length shape) + 4 * n then PErr r else
      let lens := dec_u32s (Z.to_nat n) (skipn (16 + 4 * length shape) b) in
      match split_strings lens (skipn (16 + 4 * length shape + 4 * Z.to_nat n) b) with
      | Some (l, []) => POk (OArrStr t shape l) r
      | _ => PErr r end
  end.
Proof.
  intros Ht Hty Hnz Hr Hsh b. unfold arr_from.
  assert (Lb : length b = (16 + 4 * length shape + length rest)%nat).
  { unfold b. rewrite !app_length, !enc_i32s_length. cbn [length]. lia. }
  assert (W0 : word 0 b = t) by (apply word_enc; [reflexivity|assumption]).
  assert (W1 : word 1 b = 1) by (apply word_enc; reflexivity).
  assert (W2 : word 2 b = ty) by (apply word_enc; [reflexivity|assumption]).
  assert (W3 : word 3 b = Z.of_nat (length shape)).
  { apply word_enc; [reflexivity|]. apply i32_nat. unfold int_size. lia. }
  assert (Sk : skipn 16 b = enc_i32s shape ++ rest) by (apply skipn_enc; reflexivity).
  rewrite W0, W1, W2, W3, Sk, !Z.eqb_refl. cbn [negb].
  rewrite Nat2Z.id, dec_enc_i32s by (apply shape_i32; exact Hsh).
  destruct (Z.ltb_spec (Z.of_nat (length b)) 16); [lia|].
  destruct (Z.eqb_spec ty 0); [contradiction|].
  destruct (Z.ltb_spec (Z.of_nat (length shape)) 1); [lia|].
  destruct (Z.ltb_spec 10 (Z.of_nat (length shape))); [lia|]. cbn [orb].
  destruct (Z.ltb_spec (Z.of_nat (length b)) ((2 + Z.of_nat (length shape)) * 4)); [lia|].
  destruct (Z.ltb_spec (Z.of_nat (length b)) (16 + 4 * Z.of_nat (length shape))); [lia|].
  destruct (num_size ty); reflexivity.
Qed.

Lemma arr0_from e t r : i32_ok t = true -> arr_from e t (enc_i32s [t; 1; 0; 0]) r = POk (OArr0 t) r.
Proof.
  intros Ht. unfold arr_from.
  assert (L : length (enc_i32s [t; 1; 0; 0]) = 16%nat) by (rewrite enc_i32s_length; reflexivity).
  assert (W : forall i z, nth_error [t; 1; 0; 0] i = Some z -> i32_ok z = true -> word i (enc_i32s [t; 1; 0; 0]) = z).
  { intros i z H1 H2. rewrite <- (app_nil_r (enc_i32s _)). now apply word_enc. }
  rewrite L, (W 0%nat t), (W 1%nat 1), (W 2%nat 0), (W 3%nat 0) by (reflexivity || assumption).
  rewrite Z.eqb_refl. reflexivity.
Qed.

Lemma le_val_enc z : 0 <= z < 2 ^ 32 -> le_val (enc_i32 z) = z.
Proof. intros H. unfold enc_i32. rewrite le_val_le_bytes. change (8 * Z.of_nat 4) with 32. apply Z.mod_small. lia. Qed.

Lemma dec_u32s_enc zs rest : Forall (fun z => 0 <= z < 2 ^ 32) zs ->
  dec_u32s (length zs) (enc_i32s zs ++ rest) = zs.
Proof.
  induction 1 as [|z zs Hz _ IH]; cbn [length dec_u32s]; [reflexivity|].
  rewrite enc_i32s_cons, <- app_assoc, firstn_app_len, skipn_app_len by apply enc_i32_length.
  now rewrite le_val_enc, IH.
Qed.

Lemma split_strings_ok l rest :
  split_strings (map (fun s => Z.of_nat (length s)) l) (concat l ++ rest) = Some (l, rest).
Proof.
  induction l as [|s l IH]; cbn [map split_strings concat]; [reflexivity|].
  rewrite <- app_assoc.
  destruct (Z.ltb_spec (Z.of_nat (length (s ++ concat l ++ rest))) (Z.of_nat (length s))) as [L|L];
    [rewrite app_length in L; lia|].
  rewrite Nat2Z.id, firstn_app_len, skipn_app_len by reflexivity. now rewrite IH.
Qed.

Lemma Forall2_mono {A B} (R S : A -> B -> Prop) l m :
  (forall a b, R a b -> S a b) -> Forall2 R l m -> Forall2 S l m.
Proof. intros H. induction 1; constructor; auto. Qed.

(** ** Lists *)
Lemma list_items_ok e rec os : forall os' rest,
  Forall2 (fun o o' => (o = ONull /\ o' = ONull) \/
                       (toBlock o <> [] /\ forall rest', (length rest' <= length (concat (map toBlock os) ++ rest))%nat ->
                          rec (toBlock o ++ rest') = POk o' rest')) os os' ->
  list_items e rec (counts (map toBlock os)) (concat (map toBlock os) ++ rest) = POk os' rest.
Proof.
  induction os as [|o os IH]; intros os' rest H; inversion H as [|? o' ? os'' HA HB]; subst; [reflexivity|].
  assert (IH' : list_items e rec (counts (map toBlock os)) (concat (map toBlock os) ++ rest) = POk os'' rest).
  { apply IH. eapply Forall2_mono; [|exact HB]. intros a b [Hx|[Hx Hy]]; [left; exact Hx|right; split; [exact Hx|]].
    intros rest' Hl. apply Hy. cbn [map concat]. rewrite !app_length in *. lia. }
  cbn [map counts list_items concat]. fold (counts (map toBlock os)).
  destruct HA as [[-> ->]|[Hne Hrec]].
  - cbn [toBlock length app]. change (Z.of_nat 0 =? 0) with true. cbn match. now rewrite IH'.
  - destruct (Z.eqb_spec (Z.of_nat (length (toBlock o))) 0) as [E|E]; [destruct (toBlock o); [congruence|cbn in E; lia]|].
    rewrite <- app_assoc.
    assert (Hr := Hrec (concat (map toBlock os) ++ rest)). rewrite Hr.
    2:{ cbn [map concat]. rewrite !app_length. lia. }
    destruct (toBlock o ++ concat (map toBlock os) ++ rest) eqn:El;
      [destruct (toBlock o); [congruence|discriminate El]|]. rewrite <- El.
    replace (Z.of_nat (length (toBlock o ++ concat (map toBlock os) ++ rest)) -
             Z.of_nat (length (concat (map toBlock os) ++ rest))) with (Z.of_nat (length (toBlock o)))
      by (rewrite (app_length (toBlock o)); lia).
    rewrite Z.eqb_refl. cbn [negb]. now rewrite IH'.
Qed.

(** ** Round trip *)
Lemma hdr4 t n x y d : hdr t n ++ enc_i32s [x; y] ++ d = enc_i32s [t; Z.of_nat n; x; y] ++ d.
Proof. rewrite hdr_enc, app_assoc, <- enc_i32s_app. reflexivity. Qed.
Lemma hdr4' t n x y : hdr t n ++ enc_i32s [x; y] = enc_i32s [t; Z.of_nat n; x; y].
Proof. rewrite hdr_enc, <- enc_i32s_app. reflexivity. Qed.
Lemma hdr3 t n x d : hdr t n ++ enc_i32 x ++ d = enc_i32s [t; Z.of_nat n; x] ++ d.
Proof. rewrite hdr_enc, enc_i32_1, app_assoc, <- enc_i32s_app. reflexivity. Qed.

Lemma head_ok e o : wf_env e -> wf e o ->
  exists b r k, toBlock o = b :: r /\ (4 <= length b)%nat /\ word 0 b = type_of o /\
                te_class e (type_of o) = Some k /\ type_of o <> 0 /\ i32_ok (type_of o) = true.
Proof.
  intros He Hw.
  assert (G : exists k, te_class e (type_of o) = Some k).
  { destruct o; cbn in Hw |- *; try tauto; first [eexists; exact Hw | eexists; exact (proj1 Hw)]. }
  destruct G as (k & Hk). destruct (class_nz _ _ _ He Hk) as [Hnz Hi].
  assert (G : exists n d r, toBlock o = (hdr (type_of o) n ++ d) :: r).
  { destruct o; cbn [wf] in Hw; try tauto; cbn [toBlock type_of]; do 3 eexists; reflexivity. }
  destruct G as (n & d & r & ->). do 3 eexists. split; [reflexivity|]. rewrite hdr_enc.
  split; [rewrite app_length, enc_i32s_length; cbn; lia|].
  split; [|repeat split; eauto]. apply word_enc; [reflexivity|exact Hi].
Qed.

Definition rt (e : tenv) (o : obj) : Prop :=
  wf e o -> int_size (length (toBlock o)) ->
  forall fuel tid rest, tid = 0 \/ tid = type_of o -> (length (toBlock o ++ rest) <= fuel)%nat ->
  exists o', construct_f fuel e tid (toBlock o ++ rest) = POk o' rest /\
             forall t, reads e o t -> reads e o' t.

Lemma rt_child e o t : wf_env e -> rt e o -> blank o \/ wf e o -> int_size (length (toBlock o)) ->
  reads e o t -> reads e (still (toBlock o)) t.
Proof.
  intros He Hrt [[->|(b & bs & ->)]|Hw] Hs Hr; [exact Hr|exact Hr|].
  destruct (Hrt Hw Hs (S (length (toBlock o))) 0 [] (or_introl eq_refl)) as (o' & E1 & E2);
    [rewrite app_nil_r; lia|]. rewrite app_nil_r in E1.
  destruct (head_ok e o He Hw) as (b & r & k & Eb & _). rewrite Eb in *. cbn [still].
  apply rd_packed with o'; [exact E1|]. now apply E2.
Qed.

Lemma concat_in_length {A} (x : list A) l : In x l -> (length x <= length (concat l))%nat.
Proof.
  induction l as [|y l IH]; [intros []|]. intros [->|H]; cbn [concat]; rewrite app_length; [lia|]. specialize (IH H). lia.
Qed.

Lemma int_size_le n m : (n <= m)%nat -> int_size m -> int_size n.
Proof. unfold int_size. lia. Qed.

Lemma counts_i32 bss : int_size (length (concat bss)) -> Forall (fun z => i32_ok z = true) (counts bss).
Proof.
  intros H. unfold counts. apply Forall_map, Forall_forall. intros bs Hin. apply i32_nat.
  eapply int_size_le; [apply concat_in_length; exact Hin|exact H].
Qed.

Lemma counts_length bss : length (counts bss) = length bss.
Proof. apply map_length. Qed.

Lemma still_reads e os : wf_env e -> Forall (rt e) os -> Forall (fun o => blank o \/ wf e o) os ->
  int_size (length (concat (map toBlock os))) ->
  forall ts, Forall2 (reads e) os ts -> Forall2 (reads e) (map still (map toBlock os)) ts.
Proof.
  intros He H1 H2 Hs ts H. induction H as [|o t os ts Ho _ IH]; [constructor|].
  inversion_clear H1; inversion_clear H2. cbn [map concat] in Hs. rewrite app_length in Hs.
  cbn [map]. constructor.
  - apply rt_child; auto. eapply int_size_le; [|exact Hs]. lia.
  - apply IH; auto. eapply int_size_le; [|exact Hs]. lia.
Qed.

Lemma combine_reads e (fs gs : list (list Z * obj)) : wf_env e -> Forall (fun f => rt e (snd f)) fs ->
  Forall (fun f => blank (snd f) \/ wf e (snd f)) fs ->
  int_size (length (concat (map (fun f => toBlock (snd f)) fs))) ->
  Forall2 (fun f g => fst f = fst g /\ reads e (snd f) (snd g)) fs gs ->
  Forall2 (fun f g => fst f = fst g /\ reads e (snd f) (snd g))
    (combine (map fst fs) (map still (map (fun f => toBlock (snd f)) fs))) gs.
Proof.
  intros He H1 H2 Hs H. induction H as [|f g fs gs [Hf Hg] _ IH]; [constructor|].
  inversion_clear H1; inversion_clear H2. cbn [map concat] in Hs. rewrite app_length in Hs.
  cbn [map combine]. constructor.
  - split; [exact Hf|]. apply rt_child; auto. eapply int_size_le; [|exact Hs]. lia.
  - apply IH; auto. eapply int_size_le; [|exact Hs]. lia.
Qed.

Lemma list_children e os fuel rest : wf_env e -> Forall (rt e) os -> Forall (fun o => o = ONull \/ wf e o) os ->
  int_size (length (concat (map toBlock os))) -> (length (concat (map toBlock os) ++ rest) <= fuel)%nat ->
  exists os', list_items e (construct_f fuel e 0) (counts (map toBlock os)) (concat (map toBlock os) ++ rest) = POk os' rest /\
              forall ts, Forall2 (reads e) os ts -> Forall2 (reads e) os' ts.
Proof.
  intros He H1 H2. revert rest. induction os as [|o os IH]; intros rest Hs Hf.
  - exists []. split; [reflexivity|]. auto.
  - inversion_clear H1 as [|? ? HA HB]; inversion_clear H2 as [|? ? HC HD].
    cbn [map concat] in Hs, Hf. rewrite <- app_assoc in Hf. rewrite app_length in Hs. rewrite (app_length (toBlock o)) in Hf.
    destruct (IH HB HD rest) as (os' & E1 & E2); [eapply int_size_le; [|exact Hs]; lia|lia|].
    cbn [map counts list_items concat]. fold (counts (map toBlock os)).
    destruct HC as [->|Hw].
    + exists (ONull :: os'). cbn [toBlock length app]. change (Z.of_nat 0 =? 0) with true. cbn match.
      rewrite E1. split; [reflexivity|]. intros ts Ht. inversion Ht; subst. constructor; auto.
    + destruct (HA Hw) with (fuel := fuel) (tid := 0) (rest := concat (map toBlock os) ++ rest)
        as (o' & C1 & C2); [eapply int_size_le; [|exact Hs]; lia|auto|rewrite app_length; lia|].
      exists (o' :: os').
      destruct (head_ok e o He Hw) as (b & r & k & Eb & _).
      destruct (Z.eqb_spec (Z.of_nat (length (toBlock o))) 0) as [E|E]; [rewrite Eb in E; cbn in E; lia|].
      rewrite <- app_assoc.
      destruct (toBlock o ++ concat (map toBlock os) ++ rest) as [|x y] eqn:El; [rewrite Eb in El; discriminate El|].
      rewrite C1. rewrite <- El.
      replace (Z.of_nat (length (toBlock o ++ concat (map toBlock os) ++ rest)) -
               Z.of_nat (length (concat (map toBlock os) ++ rest))) with (Z.of_nat (length (toBlock o)))
        by (rewrite (app_length (toBlock o)); lia).
      rewrite Z.eqb_refl. cbn [negb]. rewrite E1. split; [reflexivity|].
      intros ts Ht. inversion Ht; subst. constructor; auto.
Qed.

(** Record from a header it wrote itself *)
Lemma rec_words t bc fs r : i32_ok t = true -> i32_ok bc = true -> int_size (length fs) -> Forall finfo_ok fs -> NoDup (map fst fs) ->
  rec_from t (enc_i32s [t; bc; Z.of_nat (length fs)] ++ enc_i32s (fwords fs) ++ enc_i32s (fids fs)) r =
  match take_counts (counts (map (fun f => toBlock (snd f)) fs)) r with
  | POk os r' => if negb (1 + zsum (counts (map (fun f => toBlock (snd f)) fs)) =? bc) then PErr r'
                 else POk (ORec t (combine (map fst fs) os)) r'
  | PErr r' => PErr r' | PUB => PUB
  end.
Proof.
  intros Ht Hb Hn Hok Hnd.
  set (b := enc_i32s [t; bc; Z.of_nat (length fs)] ++ enc_i32s (fwords fs) ++ enc_i32s (fids fs)).
  unfold rec_from.
  assert (Lb : length b = (12 + 8 * length fs + 4 * length (fids fs))%nat).
  { unfold b. rewrite !app_length, !enc_i32s_length, fwords_length. cbn [length]. lia. }
  assert (W0 : word 0 b = t) by (apply word_enc; [reflexivity|assumption]).
  assert (W1 : word 1 b = bc) by (apply word_enc; [reflexivity|assumption]).
  assert (W2 : word 2 b = Z.of_nat (length fs)) by (apply word_enc; [reflexivity|now apply i32_nat]).
  rewrite W0, W1, W2, Z.eqb_refl. cbn [negb].
  destruct (Z.ltb_spec (Z.of_nat (length b)) 12); [lia|].
  destruct (Z.ltb_spec (12 + 8 * Z.of_nat (length fs)) 0); [lia|].
  destruct (Z.ltb_spec (Z.of_nat (length b)) (12 + 8 * Z.of_nat (length fs))); [lia|].
  assert (R := rec_fields_take t bc (Z.of_nat (length fs)) [] fs Hok Hnd [] 1 r eq_refl).
  cbn [app length] in R.
  replace (12 + 8 * Z.of_nat (length fs) + 4 * Z.of_nat (length (fids []))) with (12 + 8 * Z.of_nat (length fs)) in R
    by (cbn; lia).
  replace (enc_i32s (t :: bc :: Z.of_nat (length fs) :: fwords fs) ++ enc_i32s (fids fs)) with b in R.
  2:{ unfold b. rewrite app_assoc, <- enc_i32s_app. reflexivity. }
  rewrite Nat2Z.id, R. destruct (take_counts _ r); reflexivity.
Qed.

Lemma fold_rec_wf e (fs : list (list Z * obj)) :
  fold_right (fun f p => (hiid_ok (fst f) /\ int_size (4 * length (fst f)) /\ (blank (snd f) \/ wf e (snd f))) /\ p) True fs ->
  int_size (length (concat (map (fun f => toBlock (snd f)) fs))) ->
  Forall finfo_ok fs /\ Forall (fun f => blank (snd f) \/ wf e (snd f)) fs.
Proof.
  intros H. apply (fold_and_Forall (fun f => hiid_ok (fst f) /\ int_size (4 * length (fst f)) /\ (blank (snd f) \/ wf e (snd f)))) in H.
  intros Hs. split; [|eapply Forall_impl; [|exact H]; intros ? H0; apply H0].
  apply Forall_forall. intros f Hin. rewrite Forall_forall in H. destruct (H f Hin) as (A & B & _).
  repeat split; auto.
  eapply int_size_le; [|exact Hs]. apply concat_in_length. apply in_map_iff. exists f. auto.
Qed.

Lemma list_words e rec t bc n cs r : i32_ok t = true -> i32_ok bc = true -> int_size n -> n = length cs ->
  Forall (fun z => i32_ok z = true) cs ->
  list_from e rec t (enc_i32s [t; bc; Z.of_nat n] ++ enc_i32s cs) r =
  match list_items e rec cs r with
  | POk os r' => if negb (1 + zsum cs =? bc) then PErr r' else POk (OList t os) r'
  | PErr r' => PErr r' | PUB => PUB
  end.
Proof.
  intros Ht Hb Hn En Hcs.
  set (b := enc_i32s [t; bc; Z.of_nat n] ++ enc_i32s cs).
  unfold list_from.
  assert (Lb : length b = (12 + 4 * n)%nat).
  { unfold b. rewrite !app_length, !enc_i32s_length, En. cbn [length]. lia. }
  assert (W0 : word 0 b = t) by (apply word_enc; [reflexivity|assumption]).
  assert (W1 : word 1 b = bc) by (apply word_enc; [reflexivity|assumption]).
  assert (W2 : word 2 b = Z.of_nat n) by (apply word_enc; [reflexivity|now apply i32_nat]).
  assert (Sk : skipn 12 b = enc_i32s cs) by (apply skipn_enc; reflexivity).
  rewrite W0, W1, W2, Sk, Z.eqb_refl. cbn [negb].
  destruct (Z.ltb_spec (Z.of_nat (length b)) 12); [lia|].
  destruct (Z.eqb_spec (Z.of_nat (length b)) (12 + 4 * Z.of_nat n)); [|lia]. cbn [negb].
  rewrite Nat2Z.id, En. rewrite <- (app_nil_r (enc_i32s cs)), dec_enc_i32s by assumption. reflexivity.
Qed.

Lemma wf_env_string e : category e Tpstring = CString.
Proof. reflexivity. Qed.

Lemma one_i32 : i32_ok 1 = true. Proof. reflexivity. Qed.

Lemma rt_all e : wf_env e -> forall o, rt e o.
Proof.
  intros He. apply obj_ind'; unfold rt.
  - intros [].
  - intros bs [].
  - intros t Hw Hs fuel tid rest Ht Hf. cbn in Hw. destruct (class_nz _ _ _ He Hw) as [Hnz Hi].
    destruct fuel as [|fuel]; [cbn in Hf; lia|]. cbn [toBlock app] in *.
    exists (OVec0 t). split; [|auto].
    rewrite (construct_go _ e tid t _ _ KVec); auto.
    + rewrite hdr4'. now apply vec0_from.
    + rewrite hdr4', enc_i32s_length. cbn. lia.
    + rewrite hdr4', <- (app_nil_r (enc_i32s _)). apply word_enc; [reflexivity|assumption].
  - intros t ty sc n d Hw Hs fuel tid rest Ht Hf.
    destruct Hw as (Hc & Hty & Htz & Hsc & Hn & k & Hk & Hd). destruct (class_nz _ _ _ He Hc) as [Hnz Hi].
    destruct fuel as [|fuel]; [cbn in Hf; lia|]. cbn [toBlock app type_of] in *.
    exists (OVecBin t ty sc n d). split; [|auto]. rewrite hdr4.
    rewrite (construct_go _ e tid t _ _ KVec); auto.
    + assert (Hz := i32_szfield sc n Hn Hsc). destruct (szfield_back sc n Hn Hsc) as [S1 S2].
      rewrite vec_words by (auto using one_i32). rewrite S2, S1, Hk.
      destruct (Z.eqb_spec (Z.of_nat (length d)) (Z.of_nat k * Z.of_nat n)); [|nia]. cbn [negb].
      rewrite Nat2Z.id. reflexivity.
    + rewrite app_length, enc_i32s_length. cbn. lia.
    + apply word_enc; [reflexivity|assumption].
  - intros t sc l Hw Hs fuel tid rest Ht Hf.
    destruct Hw as (Hc & Hsc & Hn & Hp). destruct (class_nz _ _ _ He Hc) as [Hnz Hi].
    destruct fuel as [|fuel]; [cbn in Hf; lia|]. cbn [toBlock app type_of] in *.
    exists (OVecStr t sc l). split; [|auto]. rewrite hdr4.
    rewrite (construct_go _ e tid t _ _ KVec); auto.
    + assert (Hz := i32_szfield sc _ Hn Hsc). destruct (szfield_back sc _ Hn Hsc) as [S1 S2].
      rewrite vec_words by (auto using one_i32; discriminate). rewrite S2, S1, wf_env_string.
      rewrite arr_bytes_back by (auto; apply Forall_forall; intros; apply string_packs).
      rewrite !Z.eqb_refl. reflexivity.
    + rewrite app_length, enc_i32s_length. cbn. lia.
    + apply word_enc; [reflexivity|assumption].
  - intros t ty sc l Hw Hs fuel tid rest Ht Hf.
    destruct Hw as (Hc & -> & Hsc & Hn & Hp & Hl). destruct (class_nz _ _ _ He Hc) as [Hnz Hi].
    destruct fuel as [|fuel]; [cbn in Hf; lia|]. cbn [toBlock app type_of] in *.
    exists (OVecHiid t (te_hiid e) sc l). split; [|auto]. rewrite hdr4.
    destruct He as (_ & _ & He1 & He2 & He3 & _).
    rewrite (construct_go _ e tid t _ _ KVec); auto.
    + assert (Hz := i32_szfield sc _ Hn Hsc). destruct (szfield_back sc _ Hn Hsc) as [S1 S2].
      rewrite vec_words by (auto using one_i32). rewrite S2, S1, He3.
      rewrite arr_bytes_back; auto.
      2:{ eapply Forall_impl; [|exact Hl]. intros x. apply hiid_packs. }
      rewrite !Z.eqb_refl. reflexivity.
    + rewrite app_length, enc_i32s_length. cbn. lia.
    + apply word_enc; [reflexivity|assumption].
  - intros t ty sc es IH Hw Hs fuel tid rest Ht Hf.
    destruct Hw as (Hc & Hty & Htz & Hk & Hsc & Hn & Hes). destruct (class_nz _ _ _ He Hc) as [Hnz Hi].
    apply (fold_and_Forall (fun o => blank o \/ wf e o)) in Hes.
    cbn [toBlock type_of] in *. rewrite hdr4 in *. cbn [app length] in Hf, Hs |- *.
    destruct fuel as [|fuel]; [lia|].
    exists (OVecDyn t ty sc (map still (map toBlock es))). split.
    + rewrite (construct_go _ e tid t _ _ KVec); auto.
      * assert (Hz := i32_szfield sc _ Hn Hsc). destruct (szfield_back sc _ Hn Hsc) as [S1 S2].
        rewrite vec_words by (auto; apply i32_nat; exact Hs). rewrite S2, S1, Hk.
        rewrite enc_i32s_length, counts_length, map_length.
        destruct (Z.eqb_spec (Z.of_nat (4 * length es)) (4 * Z.of_nat (length es))); [|lia]. cbn [negb]. cbv zeta.
        assert (Hcs : Forall (fun z => i32_ok z = true) (counts (map toBlock es)))
          by (apply counts_i32; eapply int_size_le; [|exact Hs]; lia).
        rewrite Nat2Z.id. rewrite <- (app_nil_r (enc_i32s (counts _))).
        replace (length es) with (length (counts (map toBlock es))) by (now rewrite counts_length, map_length).
        rewrite dec_enc_i32s by exact Hcs. rewrite take_counts_ok, zsum_counts.
        destruct (Z.eqb_spec (1 + Z.of_nat (length (concat (map toBlock es)))) (Z.of_nat (1 + length (concat (map toBlock es))))); [|lia].
        reflexivity.
      * rewrite app_length, enc_i32s_length. cbn. lia.
      * apply word_enc; [reflexivity|assumption].
    + intros x Hx. inversion Hx; subst. constructor. apply still_reads; auto.
      eapply int_size_le; [|exact Hs]; lia.
  - intros t Hw Hs fuel tid rest Ht Hf. cbn in Hw. destruct (class_nz _ _ _ He Hw) as [Hnz Hi].
    destruct fuel as [|fuel]; [cbn in Hf; lia|]. cbn [toBlock app] in *.
    exists (OArr0 t). split; [|auto].
    rewrite (construct_go _ e tid t _ _ KArr); auto.
    + rewrite hdr4'. now apply arr0_from.
    + rewrite hdr4', enc_i32s_length. cbn. lia.
    + rewrite hdr4', <- (app_nil_r (enc_i32s _)). apply word_enc; [reflexivity|assumption].
  - intros t ty sh d Hw Hs fuel tid rest Ht Hf.
    destruct Hw as (Hc & Htz & Hr & Hsh & k & Hk & Hd). destruct (class_nz _ _ _ He Hc) as [Hnz Hi].
    destruct (num_size_range _ _ Hk) as [_ Hty].
    destruct fuel as [|fuel]; [cbn in Hf; lia|]. cbn [toBlock app type_of] in *.
    exists (OArrNum t ty sh d). split; [|auto]. rewrite hdr4.
    rewrite (construct_go _ e tid t _ _ KArr); auto.
    + change (Z.of_nat 1) with 1. rewrite arr_words by auto. rewrite Hk.
      set (b := enc_i32s [t; 1; ty; Z.of_nat (length sh)] ++ enc_i32s sh ++ pad (length sh) ++ d).
      assert (Lb : length b = (arr_offset (length sh) + length d)%nat).
      { unfold b, pad. rewrite !app_length, !enc_i32s_length, repeat_length. pose proof (arr_offset_ge (length sh)).
        cbn [length]. lia. }
      destruct (Z.eqb_spec (Z.of_nat (length b)) (Z.of_nat (arr_offset (length sh)) + zprod sh * Z.of_nat k)); [|lia].
      f_equal. f_equal. unfold b. rewrite !app_assoc. apply skipn_app_len.
      unfold pad. rewrite !app_length, !enc_i32s_length, repeat_length. pose proof (arr_offset_ge (length sh)).
      cbn [length]. lia.
    + rewrite app_length, enc_i32s_length. cbn. lia.
    + apply word_enc; [reflexivity|assumption].
  - intros t sh l Hw Hs fuel tid rest Ht Hf.
    destruct Hw as (Hc & Hr & Hsh & Hd & Hl). destruct (class_nz _ _ _ He Hc) as [Hnz Hi].
    destruct fuel as [|fuel]; [cbn in Hf; lia|]. cbn [toBlock app type_of] in *.
    exists (OArrStr t sh l). split; [|auto]. rewrite hdr4.
    rewrite (construct_go _ e tid t _ _ KArr); auto.
    + change (Z.of_nat 1) with 1. rewrite arr_words by (auto; discriminate).
      change (num_size Tpstring) with (@None nat). cbn match. rewrite Z.eqb_refl. cbn [negb]. cbv zeta.
      rewrite <- Hd, Nat2Z.id.
      set (lens := map (fun s => Z.of_nat (length s)) l).
      set (b := enc_i32s [t; 1; Tpstring; Z.of_nat (length sh)] ++ enc_i32s sh ++ enc_i32s lens ++ concat l).
      assert (Ll : length lens = length l) by apply map_length.
      assert (Lb : length b = (16 + 4 * length sh + 4 * length l + length (concat l))%nat).
      { unfold b. rewrite !app_length, !enc_i32s_length, Ll. cbn [length]. lia. }
      destruct (Z.ltb_spec (Z.of_nat (length b)) (16 + 4 * Z.of_nat (length sh) + 4 * Z.of_nat (length l))); [lia|].
      assert (S1 : skipn (16 + 4 * length sh) b = enc_i32s lens ++ concat l).
      { unfold b. rewrite app_assoc. apply skipn_app_len. rewrite app_length, !enc_i32s_length. cbn [length]. lia. }
      assert (S2 : skipn (16 + 4 * length sh + 4 * length l) b = concat l).
      { unfold b. rewrite !app_assoc. apply skipn_app_len. rewrite !app_length, !enc_i32s_length, Ll. cbn [length]. lia. }
      rewrite S1, S2, <- Ll, dec_u32s_enc.
      2:{ unfold lens. apply Forall_map. eapply Forall_impl; [|exact Hl]. intros s Hlt. cbv beta in *. lia. }
      rewrite <- (app_nil_r (concat l)). unfold lens. rewrite split_strings_ok. reflexivity.
    + rewrite app_length, enc_i32s_length. cbn. lia.
    + apply word_enc; [reflexivity|assumption].
  - intros t fs IH Hw Hs fuel tid rest Ht Hf.
    destruct Hw as (Hc & Hn & Hnd & Hfs). destruct (class_nz _ _ _ He Hc) as [Hnz Hi].
    cbn [toBlock type_of] in *. rewrite hdr3, enc_fwords, enc_fids in *. cbn [app length] in Hf, Hs |- *.
    assert (Hs' : int_size (length (concat (map (fun f => toBlock (snd f)) fs)))) by (eapply int_size_le; [|exact Hs]; lia).
    destruct (fold_rec_wf e fs Hfs Hs') as [F1 F2].
    destruct fuel as [|fuel]; [lia|].
    exists (ORec t (combine (map fst fs) (map still (map (fun f => toBlock (snd f)) fs)))). split.
    + rewrite (construct_go _ e tid t _ _ KRec); auto.
      * rewrite rec_words by (auto; apply i32_nat; exact Hs). rewrite take_counts_ok, zsum_counts.
        match goal with |- context [negb (?x =? ?y)] => destruct (Z.eqb_spec x y); [|lia] end. reflexivity.
      * rewrite app_length, enc_i32s_length. cbn. lia.
      * apply word_enc; [reflexivity|assumption].
    + intros x Hx. inversion Hx; subst. constructor. apply combine_reads; auto.
  - intros t os IH Hw Hs fuel tid rest Ht Hf.
    destruct Hw as (Hc & Hn & Hos). destruct (class_nz _ _ _ He Hc) as [Hnz Hi].
    apply (fold_and_Forall (fun o => o = ONull \/ wf e o)) in Hos.
    cbn [toBlock type_of] in *. rewrite hdr3 in *. cbn [app length] in Hf, Hs |- *.
    assert (Hs' : int_size (length (concat (map toBlock os)))) by (eapply int_size_le; [|exact Hs]; lia).
    destruct fuel as [|fuel]; [lia|].
    destruct (list_children e os fuel rest He IH Hos Hs') as (os' & E1 & E2); [lia|].
    exists (OList t os'). split.
    + rewrite (construct_go _ e tid t _ _ KList); auto.
      * rewrite list_words; auto.
        2:{ apply i32_nat; exact Hs. }
        2:{ now rewrite counts_length, map_length. }
        2:{ now apply counts_i32. }
        rewrite E1, zsum_counts.
        match goal with |- context [negb (?x =? ?y)] => destruct (Z.eqb_spec x y); [|lia] end. reflexivity.
      * rewrite app_length, enc_i32s_length. cbn. lia.
      * apply word_enc; [reflexivity|assumption].
    + intros x Hx. inversion Hx; subst. constructor. auto.
Qed.

(** ** Missing blocks *)
Definition short (e : tenv) (o : obj) : Prop :=
  wf e o -> int_size (length (toBlock o)) ->
  forall fuel k, (k < length (toBlock o))%nat -> (k <= fuel)%nat ->
  exists r, construct_f fuel e 0 (firstn k (toBlock o)) = PErr r.

Lemma firstn_concat_cut {A} (a b : list A) k :
  (k < length a)%nat /\ firstn k (a ++ b) = firstn k a \/
  (length a <= k)%nat /\ firstn k (a ++ b) = a ++ firstn (k - length a) b.
Proof.
  destruct (Nat.ltb_spec k (length a)).
  - left. split; [lia|]. rewrite firstn_app. replace (k - length a)%nat with 0%nat by lia.
    cbn [firstn]. apply app_nil_r.
  - right. split; [lia|]. rewrite firstn_app, firstn_all2 by lia. reflexivity.
Qed.

Lemma list_children_short e os fuel k : wf_env e -> Forall (short e) os -> Forall (fun o => o = ONull \/ wf e o) os ->
  int_size (length (concat (map toBlock os))) ->
  (k < length (concat (map toBlock os)))%nat -> (k <= fuel)%nat ->
  exists r, list_items e (construct_f fuel e 0) (counts (map toBlock os)) (firstn k (concat (map toBlock os))) = PErr r.
Proof.
  intros He H1 H2. revert k. induction os as [|o os IH]; intros k Hs Hk Hf; [cbn in Hk; lia|].
  inversion_clear H1 as [|? ? HA HB]; inversion_clear H2 as [|? ? HC HD].
  cbn [map concat] in *. rewrite app_length in Hs, Hk.
  cbn [counts map list_items]. fold (counts (map toBlock os)).
  destruct HC as [->|Hw].
  - cbn [toBlock length app] in *. change (Z.of_nat 0 =? 0) with true. cbn match.
    destruct (IH HB HD k) as (r & E); [exact Hs|lia|lia|]. rewrite E. eauto.
  - destruct (head_ok e o He Hw) as (b & bs & c & Eb & _).
    destruct (Z.eqb_spec (Z.of_nat (length (toBlock o))) 0) as [E|E]; [rewrite Eb in E; cbn in E; lia|].
    assert (So : int_size (length (toBlock o))) by (eapply int_size_le; [|exact Hs]; lia).
    assert (Ss : int_size (length (concat (map toBlock os)))) by (eapply int_size_le; [|exact Hs]; lia).
    destruct (firstn_concat_cut (toBlock o) (concat (map toBlock os)) k) as [[L ->]|[L ->]].
    + destruct (firstn k (toBlock o)) as [|x y] eqn:El; [eauto|].
      destruct (HA Hw So fuel k L Hf) as (r1 & C). rewrite El in C. rewrite C.
      match goal with |- context [negb (?x =? ?y)] => destruct (Z.eqb_spec x y) as [Eq|]; [|cbn [negb]; eauto] end.
      exfalso. rewrite <- El, firstn_length in Eq. lia.
    + assert (Hl : (length (firstn (k - length (toBlock o)) (concat (map toBlock os))) = k - length (toBlock o))%nat)
        by (rewrite firstn_length; lia).
      destruct (rt_all e He o Hw So fuel 0 (firstn (k - length (toBlock o)) (concat (map toBlock os))))
        as (o' & C1 & _); [auto|rewrite app_length, Hl; lia|].
      destruct (IH HB HD (k - length (toBlock o))%nat Ss) as (r & C2); [lia|lia|].
      set (R := firstn (k - length (toBlock o)) (concat (map toBlock os))) in *.
      destruct (toBlock o ++ R) as [|x y] eqn:El; [rewrite Eb in El; discriminate El|].
      rewrite C1, C2. destruct (negb _); eauto.
Qed.

Lemma firstn_S_cons {A} k (x : A) l : firstn (S k) (x :: l) = x :: firstn k l.
Proof. reflexivity. Qed.

Lemma short_all e : wf_env e -> forall o, short e o.
Proof.
  intros He.
  assert (Z0 : forall fuel, exists r, construct_f fuel e 0 [] = PErr r).
  { intros fuel. destruct He as (H0 & _). destruct fuel; cbn; rewrite H0; eauto. }
  apply obj_ind'; unfold short; intros.
  1,2: match goal with H : wf _ _ |- _ => destruct H end.
  1-4,6-8: match goal with H : (?k < length (toBlock _))%nat |- _ => cbn [toBlock length] in H; destruct k; [apply Z0|lia] end.
  - destruct k as [|k]; [apply Z0|].
    destruct H0 as (Hc & Hty & Htz & Hk & Hsc & Hn & Hes). destruct (class_nz _ _ _ He Hc) as [Hnz Hi].
    cbn [toBlock] in *. rewrite hdr4 in *. rewrite firstn_S_cons. cbn [length] in *.
    destruct fuel as [|fuel]; [lia|].
    rewrite (construct_go _ e 0 t _ _ KVec); auto.
    + assert (Hz := i32_szfield sc _ Hn Hsc). destruct (szfield_back sc _ Hn Hsc) as [S1 S2].
      rewrite vec_words by (auto; apply i32_nat; exact H1). rewrite S2, S1, Hk.
      rewrite enc_i32s_length, counts_length, map_length.
      destruct (Z.eqb_spec (Z.of_nat (4 * length es)) (4 * Z.of_nat (length es))); [|lia]. cbn [negb]. cbv zeta.
      assert (Hcs : Forall (fun z => i32_ok z = true) (counts (map toBlock es)))
        by (apply counts_i32; eapply int_size_le; [|exact H1]; lia).
      rewrite Nat2Z.id. rewrite <- (app_nil_r (enc_i32s (counts _))).
      replace (length es) with (length (counts (map toBlock es))) by (now rewrite counts_length, map_length).
      rewrite dec_enc_i32s by exact Hcs.
      destruct (take_counts_short (map toBlock es) (firstn k (concat (map toBlock es)))) as (r' & ->); [|eauto].
      rewrite firstn_length. lia.
    + rewrite app_length, enc_i32s_length. cbn. lia.
    + apply word_enc; [reflexivity|assumption].
  - destruct k as [|k]; [apply Z0|].
    destruct H0 as (Hc & Hn & Hnd & Hfs). destruct (class_nz _ _ _ He Hc) as [Hnz Hi].
    cbn [toBlock] in *. rewrite hdr3, enc_fwords, enc_fids in *. rewrite firstn_S_cons. cbn [length] in *.
    assert (Hs' : int_size (length (concat (map (fun f => toBlock (snd f)) fs)))) by (eapply int_size_le; [|exact H1]; lia).
    destruct (fold_rec_wf e fs Hfs Hs') as [F1 F2].
    destruct fuel as [|fuel]; [lia|].
    rewrite (construct_go _ e 0 t _ _ KRec); auto.
    + rewrite rec_words by (auto; apply i32_nat; exact H1).
      destruct (take_counts_short (map (fun f => toBlock (snd f)) fs) (firstn k (concat (map (fun f => toBlock (snd f)) fs))))
        as (r' & ->); [|eauto].
      rewrite firstn_length. lia.
    + rewrite app_length, enc_i32s_length. cbn. lia.
    + apply word_enc; [reflexivity|assumption].
  - destruct k as [|k]; [apply Z0|].
    destruct H0 as (Hc & Hn & Hos). destruct (class_nz _ _ _ He Hc) as [Hnz Hi].
    apply (fold_and_Forall (fun o => o = ONull \/ wf e o)) in Hos.
    cbn [toBlock] in *. rewrite hdr3 in *. rewrite firstn_S_cons. cbn [length] in *.
    assert (Hs' : int_size (length (concat (map toBlock os)))) by (eapply int_size_le; [|exact H1]; lia).
    destruct fuel as [|fuel]; [lia|].
    rewrite (construct_go _ e 0 t _ _ KList); auto.
    + rewrite list_words; auto.
      2:{ apply i32_nat; exact H1. }
      2:{ now rewrite counts_length, map_length. }
      2:{ now apply counts_i32. }
      destruct (list_children_short e os fuel k He H Hos Hs') as (r & ->); [lia|lia|]. eauto.
    + rewrite app_length, enc_i32s_length. cbn. lia.
    + apply word_enc; [reflexivity|assumption].
Qed.

(** ** Only a prefix of the blocks is consumed, whatever the bytes *)
Definition consumes {A} (p : pres A) (s : list (list Z)) : Prop :=
  match p with POk _ r | PErr r => exists pre, s = pre ++ r | PUB => True end.

Lemma consumes_refl_ok {A} (a : A) r : consumes (POk a r) r.
Proof. exists []. reflexivity. Qed.
Lemma consumes_refl_err {A} r : consumes (@PErr A r) r.
Proof. exists []. reflexivity. Qed.
Lemma consumes_skip {A} (p : pres A) n s : consumes p (skipn n s) -> consumes p s.
Proof.
  destruct p as [a r|r|]; cbn; try tauto; intros (pre & E); exists (firstn n s ++ pre);
    now rewrite <- app_assoc, <- E, firstn_skipn.
Qed.
Lemma consumes_cons {A} (p : pres A) b s : consumes p s -> consumes p (b :: s).
Proof. intros H. apply (consumes_skip p 1). exact H. Qed.
Lemma consumes_length {A} (p : pres A) s : consumes p s ->
  match p with POk _ r | PErr r => (length r <= length s)%nat | PUB => True end.
Proof. destruct p; cbn; auto; intros (pre & ->); rewrite app_length; lia. Qed.

Lemma take_counts_consumes cs : forall r, consumes (take_counts cs r) r.
Proof.
  induction cs as [|c cs IH]; intros r; cbn [take_counts]; [apply consumes_refl_ok|].
  destruct (c =? 0). { specialize (IH r). destruct (take_counts cs r); exact IH. }
  destruct (c <? 0); [exact I|]. destruct (_ <? c); [apply consumes_refl_err|].
  specialize (IH (skipn (Z.to_nat c) r)). apply (consumes_skip _ (Z.to_nat c)).
  destruct (take_counts cs _); exact IH.
Qed.

Lemma vec_from_consumes e t b r : consumes (vec_from e t b r) r.
Proof.
  unfold vec_from.
  repeat match goal with
  | |- consumes (if ?c then _ else _) _ => destruct c
  | |- consumes (match category ?e ?t with _ => _ end) _ => destruct (category e t)
  | |- consumes (match arr_allocate ?p ?x with _ => _ end) _ => destruct (arr_allocate p x)
  | |- consumes (match (if ?c then _ else _) with _ => _ end) _ => destruct c
  end; try exact I; try apply consumes_refl_ok; try apply consumes_refl_err.
  all: cbv zeta; match goal with |- context [take_counts ?cs ?r] =>
    pose proof (take_counts_consumes cs r) as H; destruct (take_counts cs r); try exact H end.
  all: destruct (negb _); exact H.
Qed.

Lemma arr_from_consumes e t b r : consumes (arr_from e t b r) r.
Proof.
  unfold arr_from. cbv zeta.
  repeat match goal with
  | |- consumes (if ?c then _ else _) _ => destruct c
  | |- consumes (match (match num_size ?t with _ => _ end) with _ => _ end) _ => destruct (num_size t)
  | |- consumes (match num_size ?t with _ => _ end) _ => destruct (num_size t)
  | |- consumes (match split_strings ?a ?b with _ => _ end) _ => destruct (split_strings a b) as [[? []]|]
  end; try exact I; try apply consumes_refl_ok; apply consumes_refl_err.
Qed.

Lemma rec_fields_consumes b n : forall i off nref fs r, consumes (rec_fields b n i off nref fs r) r.
Proof.
  induction n as [|n IH]; intros; cbn [rec_fields]; [apply consumes_refl_ok|]. cbv zeta.
  destruct (_ <? _); [apply consumes_refl_err|]. destruct (_ <? 0); [apply consumes_refl_err|].
  destruct (hiid_unpack _ _); [|apply consumes_refl_err|exact I].
  destruct (_ =? 0); [apply IH|]. destruct (_ <? 0); [apply IH|]. destruct (_ <? _); [apply consumes_refl_err|].
  eapply consumes_skip, IH.
Qed.

Lemma rec_from_consumes t b r : consumes (rec_from t b r) r.
Proof.
  unfold rec_from. cbv zeta.
  do 4 (match goal with |- consumes (if ?c then _ else _) _ => destruct c; [apply consumes_refl_err|] end).
  match goal with |- context [rec_fields ?b ?n ?i ?o ?m ?f ?r] =>
    pose proof (rec_fields_consumes b n i o m f r) as H; destruct (rec_fields b n i o m f r) as [[? ?] ?|?|] end; try exact H.
  destruct (negb _); exact H.
Qed.

Lemma consumes_trans {A B} (p : pres A) (q : pres B) s :
  consumes p s -> match p with POk _ r | PErr r => consumes q r | PUB => False end -> consumes q s.
Proof.
  destruct p; cbn; try tauto; intros (pre & ->) H; destruct q; cbn in *; try tauto;
    destruct H as (pre' & ->); exists (pre ++ pre'); now rewrite app_assoc.
Qed.

Lemma list_items_consumes e rec cs : (forall s, consumes (rec s) s) -> forall r, consumes (list_items e rec cs r) r.
Proof.
  intros Hr. induction cs as [|c cs IH]; intros r; cbn [list_items]; [apply consumes_refl_ok|].
  destruct (c =? 0). { specialize (IH r). destruct (list_items e rec cs r); exact IH. }
  destruct r as [|b r]; [apply consumes_refl_err|]. cbv zeta.
  pose proof (Hr (b :: r)) as H. destruct (rec (b :: r)) as [o r1|r1|]; [| |exact I];
    (eapply consumes_trans; [exact H|]; cbn iota; destruct (negb _); [apply consumes_refl_err|];
     specialize (IH r1); destruct (list_items e rec cs r1); exact IH).
Qed.

Lemma construct_f_consumes e fuel : forall tid set, consumes (construct_f fuel e tid set) set.
Proof.
  induction fuel as [|fuel IH]; intros tid [|b r]; cbn [construct_f].
  1,3: destruct (te_class e tid); [apply consumes_refl_ok|apply consumes_refl_err].
  all: destruct (_ && _); [exact I|]; destruct (te_class e _) as [[]|];
    [apply consumes_cons, vec_from_consumes|apply consumes_cons, arr_from_consumes
    |apply consumes_cons, rec_from_consumes| |apply consumes_refl_err].
  { exact I. }
  apply consumes_cons. unfold list_from. cbv zeta.
  do 3 (match goal with |- consumes (if ?c then _ else _) _ => destruct c; [apply consumes_refl_err|] end).
  match goal with |- context [list_items e ?rec ?cs ?r] =>
    pose proof (list_items_consumes e rec cs (IH 0) r) as H; destruct (list_items e rec cs r) as [? ?|?|] end; try exact H.
  destruct (negb _); exact H.
Qed.

(** ** The bound on the nesting depth is immaterial *)
Lemma list_items_ext e f g cs : forall r,
  (forall s, (length s <= length r)%nat -> f s = g s) -> (forall s, consumes (g s) s) ->
  list_items e f cs r = list_items e g cs r.
Proof.
  induction cs as [|c cs IH]; intros r H Hg; cbn [list_items]; [reflexivity|].
  destruct (c =? 0); [now rewrite IH|]. destruct r as [|b r]; [reflexivity|]. cbv zeta.
  rewrite H by lia. pose proof (consumes_length _ _ (Hg (b :: r))) as L.
  destruct (g (b :: r)) as [o r1|r1|]; [| |reflexivity];
    (destruct (negb _); [reflexivity|]; rewrite IH; [reflexivity| |exact Hg]; intros s Hs; apply H; lia).
Qed.

Lemma construct_fuel e f : forall g tid set, (length set <= f)%nat -> (length set <= g)%nat ->
  construct_f f e tid set = construct_f g e tid set.
Proof.
  induction f as [|f IH]; intros [|g] tid [|b r]; cbn [length]; intros Hf Hg; try lia; try reflexivity.
  cbn [construct_f]. destruct (_ && _); [reflexivity|]. destruct (te_class e _) as [[]|]; try reflexivity.
  unfold list_from. cbv zeta.
  rewrite (list_items_ext e (construct_f f e 0) (construct_f g e 0)); [reflexivity| |apply construct_f_consumes].
  intros s Hs. apply IH; lia.
Qed.

(** ** [reads] is a partial function, the identity on plain objects *)
Section ReadsInd.
Variable e : tenv.
Variable P : obj -> obj -> Prop.
Hypothesis Hnull : P ONull ONull.
Hypothesis Hpacked : forall bs o t, construct e 0 bs = POk o [] -> P o t -> P (OPacked bs) t.
Hypothesis Hvec0 : forall t, P (OVec0 t) (OVec0 t).
Hypothesis Hbin : forall t ty sc n d, P (OVecBin t ty sc n d) (OVecBin t ty sc n d).
Hypothesis Hstr : forall t sc l, P (OVecStr t sc l) (OVecStr t sc l).
Hypothesis Hhiid : forall t ty sc l, P (OVecHiid t ty sc l) (OVecHiid t ty sc l).
Hypothesis Hdyn : forall t ty sc es ts, Forall2 P es ts -> P (OVecDyn t ty sc es) (OVecDyn t ty sc ts).
Hypothesis Harr0 : forall t, P (OArr0 t) (OArr0 t).
Hypothesis Hnum : forall t ty sh d, P (OArrNum t ty sh d) (OArrNum t ty sh d).
Hypothesis Hastr : forall t sh l, P (OArrStr t sh l) (OArrStr t sh l).
Hypothesis Hrec : forall t fs gs, Forall2 (fun f g => fst f = fst g /\ P (snd f) (snd g)) fs gs -> P (ORec t fs) (ORec t gs).
Hypothesis Hlist : forall t os ts, Forall2 P os ts -> P (OList t os) (OList t ts).
Fixpoint reads_ind' o t (H : reads e o t) {struct H} : P o t :=
  let go := fix go os ts (H : Forall2 (reads e) os ts) : Forall2 P os ts :=
    match H with
    | Forall2_nil _ => Forall2_nil _
    | Forall2_cons _ _ h r => Forall2_cons _ _ (reads_ind' _ _ h) (go _ _ r)
    end in
  let gof := fix gof fs gs (H : Forall2 (fun f g => fst f = fst g /\ reads e (snd f) (snd g)) fs gs)
      : Forall2 (fun f g => fst f = fst g /\ P (snd f) (snd g)) fs gs :=
    match H with
    | Forall2_nil _ => Forall2_nil _
    | Forall2_cons _ _ h r =>
        Forall2_cons _ _ (match h with conj h1 h2 => conj h1 (reads_ind' _ _ h2) end) (gof _ _ r)
    end in
  match H with
  | rd_null _ => Hnull
  | rd_packed _ bs o t h r => Hpacked bs o t h (reads_ind' _ _ r)
  | rd_vec0 _ t => Hvec0 t
  | rd_bin _ t ty sc n d => Hbin t ty sc n d
  | rd_str _ t sc l => Hstr t sc l
  | rd_hiid _ t ty sc l => Hhiid t ty sc l
  | rd_dyn _ t ty sc es ts h => Hdyn t ty sc es ts (go _ _ h)
  | rd_arr0 _ t => Harr0 t
  | rd_num _ t ty sh d => Hnum t ty sh d
  | rd_astr _ t sh l => Hastr t sh l
  | rd_rec _ t fs gs h => Hrec t fs gs (gof _ _ h)
  | rd_list _ t os ts h => Hlist t os ts (go _ _ h)
  end.
End ReadsInd.

Lemma reads_det e o t1 : reads e o t1 -> forall t2, reads e o t2 -> t1 = t2.
Proof.
  intros H. pattern o, t1. revert o t1 H. apply reads_ind'.
  - intros t2 H; now inversion H.
  - intros bs o t E IH t2 H. inversion H; subst.
    match goal with K : construct e 0 bs = POk ?x [] |- _ => rewrite E in K; injection K as <- end. now apply IH.
  - intros ? ? H; now inversion H.
  - intros ? ? ? ? ? ? H; now inversion H.
  - intros ? ? ? ? H; now inversion H.
  - intros ? ? ? ? ? H; now inversion H.
  - intros t ty sc es ts IH t2 H. inversion H as [| | | | | |? ? ? ? us HF| | | | |]; subst. f_equal.
    clear H. revert us HF. induction IH as [|x y es ts Hx _ IH]; intros us HF; inversion HF; subst; f_equal; auto.
  - intros ? ? H; now inversion H.
  - intros ? ? ? ? ? H; now inversion H.
  - intros ? ? ? ? H; now inversion H.
  - intros t fs gs IH t2 H. inversion H as [| | | | | | | | | |? ? us HF|]; subst. f_equal.
    clear H. revert us HF. induction IH as [|[? ?] [? ?] es ts [Hx1 Hx2] _ IH]; intros us HF; inversion HF as [|? [? ?] ? ? [Hy1 Hy2]]; subst; f_equal; auto.
    cbn [fst snd] in *. subst. f_equal. auto.
  - intros t es ts IH t2 H. inversion H as [| | | | | | | | | | |? ? us HF]; subst. f_equal.
    clear H. revert us HF. induction IH as [|x y es ts Hx _ IH]; intros us HF; inversion HF; subst; f_equal; auto.
Qed.

Lemma plain_reads e o : plain o -> reads e o o.
Proof.
  pattern o. revert o. apply obj_ind'; cbn [plain]; try (intros; now constructor).
  - intros bs [].
  - intros t ty sc es IH H. apply fold_and_Forall in H. constructor.
    induction IH; inversion_clear H; constructor; auto.
  - intros t fs IH H. apply (fold_and_Forall (fun f => plain (snd f))) in H. constructor.
    induction IH; inversion_clear H; constructor; auto.
  - intros t os IH H. apply fold_and_Forall in H. constructor.
    induction IH; inversion_clear H; constructor; auto.
Qed.

(** ** Messages *)
Lemma dec_enc_i16 z : - 2 ^ 15 <= z < 2 ^ 15 -> dec_i16 (enc_i16 z) = z.
Proof.
  intros H. unfold dec_i16, enc_i16, to_signed. rewrite le_val_le_bytes.
  change (8 * Z.of_nat 2) with 16. change (16 - 1) with 15.
  destruct (Z.ltb_spec z 0).
  - assert (E : z mod 2 ^ 16 = z + 2 ^ 16).
    { replace z with (z + 2 ^ 16 + (-1) * 2 ^ 16) by lia. rewrite Z.mod_add by lia. rewrite Z.mod_small by lia. lia. }
    rewrite E. destruct (Z.ltb_spec (z + 2 ^ 16) (2 ^ 15)); lia.
  - rewrite Z.mod_small by lia. destruct (Z.ltb_spec z (2 ^ 15)); lia.
Qed.

Lemma unpack_here x rest : hiid_ok x -> hiid_unpack (enc_i32s x ++ rest) (4 * length x) = Ok x.
Proof.
  intros H. destruct (hiid_pack_ok x (hiid_packSize x) (Nat.le_refl _)) as (bs & E & L).
  assert (Eb : bs = enc_i32s x).
  { unfold hiid_pack in E. destruct (Nat.ltb (hiid_packSize x) (4 * length x)); [discriminate|]. now injection E as <-. }
  subst bs. exact (hiid_pack_unpack _ _ _ _ _ _ H E).
Qed.

Lemma unpack_at_ok a x rest off : hiid_ok x -> Z.of_nat (length a) = off ->
  unpack_at (a ++ enc_i32s x ++ rest) off (Z.of_nat (4 * length x)) = Ok x.
Proof.
  intros H <-. unfold unpack_at. destruct (Z.ltb_spec (Z.of_nat (4 * length x)) 0); [lia|].
  rewrite !Nat2Z.id, skipn_app_len by reflexivity. now apply unpack_here.
Qed.

Definition msg_head (tmsg bc pt : Z) (hb : bool) (m : msgobj) : list Z :=
  enc_i32s [tmsg; bc; mg_pri m; mg_state m; mg_flags m;
            Z.of_nat (hiid_packSize (mg_id m)); Z.of_nat (hiid_packSize (mg_from m));
            Z.of_nat (hiid_packSize (mg_to m)); 0]
  ++ enc_i16 (mg_hops m) ++ [if hb then 1 else 0; 0] ++ enc_i32 pt
  ++ enc_i32s (mg_id m) ++ enc_i32s (mg_from m) ++ enc_i32s (mg_to m).

Lemma msg_head_ok tmsg m : msg_toBlock tmsg m =
  let pl := match mg_payload m with Some o => toBlock o | None => [] end in
  let bl := match mg_block m with Some b => [b] | None => [] end in
  msg_head tmsg (Z.of_nat (1 + length bl + length pl)) (match mg_payload m with Some o => type_of o | None => 0 end)
    (match mg_block m with Some _ => true | None => false end) m :: bl ++ pl.
Proof.
  unfold msg_toBlock, msg_head. cbv zeta. f_equal. rewrite hdr_enc, app_assoc, <- enc_i32s_app.
  destruct (mg_block m); reflexivity.
Qed.

Lemma msg_words e tmsg bc pt hb m r :
  i32_ok tmsg = true -> i32_ok bc = true -> i32_ok pt = true ->
  i32_ok (mg_pri m) = true -> i32_ok (mg_state m) = true -> i32_ok (mg_flags m) = true ->
  - 2 ^ 15 <= mg_hops m < 2 ^ 15 ->
  hiid_ok (mg_id m) -> hiid_ok (mg_from m) -> hiid_ok (mg_to m) ->
  int_size (4 * length (mg_id m)) -> int_size (4 * length (mg_from m)) -> int_size (4 * length (mg_to m)) ->
  msg_fromBlock e tmsg (msg_head tmsg bc pt hb m :: r) =
  match (if hb then match r with [] => None | d :: r' => Some (Some d, r') end else Some (None, r)) with
  | None => PUB
  | Some (dat, r1) =>
      let mk pl := {| mg_pri := mg_pri m; mg_state := mg_state m; mg_flags := mg_flags m; mg_hops := mg_hops m;
                      mg_id := mg_id m; mg_from := mg_from m; mg_to := mg_to m;
                      mg_block := dat; mg_payload := pl |} in
      let n1 := 1 + (if hb then 1 else 0) in
      if pt =? 0 then (if negb (bc =? n1) then PErr r1 else POk (mk None) r1)
      else match construct e pt r1 with
           | POk o r2 => if negb (bc =? n1 + (Z.of_nat (length r1) - Z.of_nat (length r2))) then PErr r2
                         else POk (mk (Some o)) r2
           | PErr r2 => PErr r2
           | PUB => PUB
           end
  end.
Proof.
  intros H1 H2 H3 H4 H5 H6 H7 I1 I2 I3 S1 S2 S3.
  set (b := msg_head tmsg bc pt hb m). unfold msg_fromBlock.
  assert (Lb : Z.of_nat (length b) = 44 + Z.of_nat (4 * length (mg_id m)) + Z.of_nat (4 * length (mg_from m))
                                     + Z.of_nat (4 * length (mg_to m))).
  { unfold b, msg_head. rewrite !app_length, !enc_i32s_length, enc_i32_length. unfold enc_i16.
    rewrite le_bytes_length. cbn [length]. lia. }
  assert (N1 := i32_nat _ S1). assert (N2 := i32_nat _ S2). assert (N3 := i32_nat _ S3).
  assert (W0 : word 0 b = tmsg) by (apply word_enc; [reflexivity|assumption]).
  assert (W1 : word 1 b = bc) by (apply word_enc; [reflexivity|assumption]).
  assert (W2 : word 2 b = mg_pri m) by (apply word_enc; [reflexivity|assumption]).
  assert (W3 : word 3 b = mg_state m) by (apply word_enc; [reflexivity|assumption]).
  assert (W4 : word 4 b = mg_flags m) by (apply word_enc; [reflexivity|assumption]).
  assert (W5 : word 5 b = Z.of_nat (4 * length (mg_id m))) by (apply word_enc; [reflexivity|assumption]).
  assert (W6 : word 6 b = Z.of_nat (4 * length (mg_from m))) by (apply word_enc; [reflexivity|assumption]).
  assert (W7 : word 7 b = Z.of_nat (4 * length (mg_to m))) by (apply word_enc; [reflexivity|assumption]).
  assert (W8 : word 8 b = 0) by (apply word_enc; reflexivity).
  assert (W10 : word 10 b = pt).
  { rewrite <- (dec_enc_i32 pt H3). reflexivity. }
  assert (Wh : dec_i16 (firstn 2 (skipn 36 b)) = mg_hops m).
  { rewrite <- (dec_enc_i16 _ H7). reflexivity. }
  assert (Wb : negb (nth 38 b 0 =? 0) = hb).
  { replace (nth 38 b 0) with (if hb then 1 else 0) by reflexivity. destruct hb; reflexivity. }
  rewrite W0, W1, W2, W3, W4, W5, W6, W7, W8, W10, Wh, Wb, Z.eqb_refl. cbn [negb].
  destruct (Z.ltb_spec (Z.of_nat (length b)) 8); [lia|].
  destruct (Z.ltb_spec (Z.of_nat (length b)) 44); [lia|].
  match goal with |- context [negb (?x =? ?y)] => destruct (Z.eqb_spec x y) as [_|]; [|lia] end. cbn [negb].
  set (pre := enc_i32s [tmsg; bc; mg_pri m; mg_state m; mg_flags m;
            Z.of_nat (hiid_packSize (mg_id m)); Z.of_nat (hiid_packSize (mg_from m));
            Z.of_nat (hiid_packSize (mg_to m)); 0] ++ enc_i16 (mg_hops m) ++ [if hb then 1 else 0; 0] ++ enc_i32 pt).
  assert (Lp : length pre = 44%nat) by reflexivity.
  assert (Eb : b = pre ++ enc_i32s (mg_id m) ++ enc_i32s (mg_from m) ++ enc_i32s (mg_to m)).
  { unfold b, pre, msg_head. now rewrite <- !app_assoc. }
  assert (U1 : unpack_at b 44 (Z.of_nat (4 * length (mg_id m))) = Ok (mg_id m)).
  { rewrite Eb. apply unpack_at_ok; [exact I1|]. rewrite Lp. reflexivity. }
  assert (U2 : unpack_at b (44 + Z.of_nat (4 * length (mg_id m))) (Z.of_nat (4 * length (mg_from m))) = Ok (mg_from m)).
  { rewrite Eb, app_assoc. apply unpack_at_ok; [exact I2|]. rewrite app_length, Lp, enc_i32s_length. lia. }
  assert (U3 : unpack_at b (44 + Z.of_nat (4 * length (mg_id m)) + Z.of_nat (4 * length (mg_from m)))
                 (Z.of_nat (4 * length (mg_to m))) = Ok (mg_to m)).
  { rewrite Eb, !app_assoc. rewrite <- (app_nil_r (enc_i32s (mg_to m))). apply unpack_at_ok; [exact I3|].
    rewrite !app_length, Lp, !enc_i32s_length. lia. }
  rewrite U1. cbn [bind]. rewrite U2. cbn [bind]. rewrite U3. cbn [bind]. reflexivity.
Qed.

Lemma msg_round e tmsg m rest : wf_env e -> wf_msg e tmsg m ->
  exists m', msg_fromBlock e tmsg (msg_toBlock tmsg m ++ rest) = POk m' rest /\ same_msg e m m'.
Proof.
  intros He (H1 & H2 & H3 & H4 & H5 & I1 & I2 & I3 & S1 & S2 & S3 & Hs & Hp).
  rewrite msg_head_ok in *. cbv zeta in *. cbn [app length] in *. rewrite app_length in Hs.
  set (bl := match mg_block m with Some b => [b] | None => [] end) in *.
  set (pl := match mg_payload m with Some o => toBlock o | None => [] end) in *.
  assert (Ipt : i32_ok (match mg_payload m with Some o => type_of o | None => 0 end) = true).
  { destruct (mg_payload m) as [o|]; [|reflexivity]. destruct (head_ok e o He Hp) as (? & ? & ? & ? & ? & ? & ? & ? & ?). assumption. }
  rewrite msg_words; auto; [|apply i32_nat; eapply int_size_le; [|exact Hs]; lia].
  set (mk := fun dat pl => {| mg_pri := mg_pri m; mg_state := mg_state m; mg_flags := mg_flags m; mg_hops := mg_hops m;
                      mg_id := mg_id m; mg_from := mg_from m; mg_to := mg_to m;
                      mg_block := dat; mg_payload := pl |}).
  assert (G : forall o, mg_payload m = Some o -> exists o', construct e (type_of o) (toBlock o ++ rest) = POk o' rest /\
              forall t, reads e o t -> reads e o' t).
  { intros o Eo. rewrite Eo in Hp. unfold pl in Hs. rewrite Eo in Hs.
    destruct (rt_all e He o Hp) with (fuel := S (length (toBlock o ++ rest))) (tid := type_of o) (rest := rest)
      as (o' & E1 & E2); [eapply int_size_le; [|exact Hs]; lia|auto|lia|]. exists o'. auto. }
  assert (Sel : (if match mg_block m with Some _ => true | None => false end
                 then match (bl ++ pl) ++ rest with [] => None | d :: r' => Some (Some d, r') end
                 else Some (None, (bl ++ pl) ++ rest)) = Some (mg_block m, pl ++ rest)).
  { unfold bl. destruct (mg_block m); reflexivity. }
  rewrite Sel. cbv zeta.
  destruct (mg_payload m) as [o|] eqn:Eo.
  - destruct (head_ok e o He Hp) as (b0 & r0 & k0 & Et & _ & _ & _ & Hnz & _).
    destruct (Z.eqb_spec (type_of o) 0); [contradiction|].
    destruct (G o eq_refl) as (o' & E1 & E2). unfold pl. rewrite E1.
    exists (mk (mg_block m) (Some o')).
    match goal with |- context [negb (?x =? ?y)] => destruct (Z.eqb_spec x y) as [_|Hne] end.
    + split; [reflexivity|]. unfold same_msg, mk. cbn. rewrite Eo. repeat split; auto.
    + exfalso. apply Hne. unfold bl, pl. rewrite app_length. destruct (mg_block m); cbn [length]; lia.
  - exists (mk (mg_block m) None). cbn [Z.eqb].
    match goal with |- context [negb (?x =? ?y)] => destruct (Z.eqb_spec x y) as [_|Hne] end.
    + split; [reflexivity|]. unfold same_msg, mk. cbn. rewrite Eo. repeat split; auto.
    + exfalso. apply Hne. unfold bl, pl. destruct (mg_block m); cbn [length]; lia.
Qed.

(** a truncated message: an exception, except that a missing data block is not noticed *)
Lemma msg_short e tmsg m k : wf_env e -> wf_msg e tmsg m ->
  (1 <= k < length (msg_toBlock tmsg m))%nat ->
  (k = 1%nat /\ mg_block m <> None /\ msg_fromBlock e tmsg (firstn k (msg_toBlock tmsg m)) = PUB) \/
  exists r, msg_fromBlock e tmsg (firstn k (msg_toBlock tmsg m)) = PErr r.
Proof.
  intros He (H1 & H2 & H3 & H4 & H5 & I1 & I2 & I3 & S1 & S2 & S3 & Hs & Hp) Hk.
  rewrite msg_head_ok in *. cbv zeta in *. cbn [app length] in *. rewrite app_length in Hs, Hk.
  set (bl := match mg_block m with Some b => [b] | None => [] end) in *.
  set (pl := match mg_payload m with Some o => toBlock o | None => [] end) in *.
  assert (Ipt : i32_ok (match mg_payload m with Some o => type_of o | None => 0 end) = true).
  { destruct (mg_payload m) as [o|]; [|reflexivity]. destruct (head_ok e o He Hp) as (? & ? & ? & ? & ? & ? & ? & ? & ?). assumption. }
  destruct k as [|k]; [lia|]. rewrite firstn_S_cons.
  rewrite msg_words; auto; [|apply i32_nat; eapply int_size_le; [|exact Hs]; lia].
  assert (G : forall o j bc n1, mg_payload m = Some o -> (j < length (toBlock o))%nat -> bc - n1 = Z.of_nat (length (toBlock o)) ->
     exists r, match construct e (type_of o) (firstn j (toBlock o)) with
           | POk o' r2 => if negb (bc =? n1 + (Z.of_nat (length (firstn j (toBlock o))) - Z.of_nat (length r2))) then PErr r2
                         else POk {| mg_pri := mg_pri m; mg_state := mg_state m; mg_flags := mg_flags m; mg_hops := mg_hops m;
                      mg_id := mg_id m; mg_from := mg_from m; mg_to := mg_to m;
                      mg_block := mg_block m; mg_payload := Some o' |} r2
           | PErr r2 => PErr r2
           | PUB => PUB
           end = PErr r).
  { intros o j bc n1 Eo Hj Hbc.
    rewrite Eo in Hp. unfold pl in Hs. rewrite Eo in Hs. assert (So : int_size (length (toBlock o))) by (eapply int_size_le; [|exact Hs]; lia).
    destruct (construct e (type_of o) (firstn j (toBlock o))) as [o' r2|r2|] eqn:C.
    - match goal with |- context [negb (?x =? ?y)] => destruct (Z.eqb_spec x y) as [Heq|_]; [|eexists; reflexivity] end.
      rewrite firstn_length in Heq. lia.
    - eauto.
    - exfalso. destruct j as [|j].
      + cbn [firstn] in C. unfold construct in C. cbn in C. destruct (te_class e (type_of o)); discriminate.
      + destruct (short_all e He o Hp So (S (S (length (toBlock o)))) (S j)) as (r & C2); [lia|lia|].
        destruct (head_ok e o He Hp) as (b0 & r0 & k0 & Et & L4 & W0 & Hk0 & Hnz & _).
        rewrite Et in *. rewrite firstn_S_cons in *.
        unfold construct in C. rewrite (construct_fuel e _ (S (S (length (b0 :: r0))))) in C.
        2:{ lia. } 2:{ cbn [length] in *. rewrite firstn_length. lia. }
        rewrite (construct_go _ e _ (type_of o) _ _ k0) in C by auto.
        rewrite (construct_go _ e _ (type_of o) _ _ k0) in C2 by auto.
        rewrite C in C2. discriminate. }
  destruct (mg_block m) as [d|] eqn:Ed.
  - unfold bl in *. cbn [length] in *. destruct k as [|k].
    + left. repeat split; try congruence.
    + right. cbn [app]. rewrite firstn_S_cons. cbv zeta. cbn iota.
      unfold pl in *. destruct (mg_payload m) as [o|] eqn:Eo; [|cbn [length] in *; lia].
      destruct (head_ok e o He Hp) as (b0 & r0 & k0 & Et & _ & _ & _ & Hnz & _).
      destruct (Z.eqb_spec (type_of o) 0); [contradiction|].
      apply (G o k); [reflexivity|lia|lia].
  - right. unfold bl in *. cbn [length app] in *. cbv zeta. cbn iota.
    unfold pl in *. destruct (mg_payload m) as [o|] eqn:Eo; [|cbn [length] in *; lia].
    destruct (head_ok e o He Hp) as (b0 & r0 & k0 & Et & _ & _ & _ & Hnz & _).
    destruct (Z.eqb_spec (type_of o) 0); [contradiction|].
    apply (G o k); [reflexivity|lia|lia].
Qed.
