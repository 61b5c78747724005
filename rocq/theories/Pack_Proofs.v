From Verif Require Import Base Bytes_Model Bytes_Proofs Hiid_Model Hiid_Spec Hiid_Proofs Pack_Model Pack_Spec.
Local Open Scope Z_scope.

Lemma total_cons {T} (p : epacker T) x xs : total p (x :: xs) = (ep_size p x + total p xs)%nat.
Proof. reflexivity. Qed.

Lemma u64_of_nat n : Z.of_nat n < 2 ^ 64 -> u64_ok (Z.of_nat n) = true.
Proof. unfold u64_ok. lia. Qed.

(** the bytes of one element *)
Lemma pack1_ok {T} (p : epacker T) x : packs p x ->
  exists b, length b = ep_size p x /\
    (forall nleft, (ep_size p x <= nleft)%nat -> pack1 p x nleft = Ok (b, (nleft - ep_size p x)%nat)) /\
    (forall nleft, (nleft < ep_size p x)%nat -> is_ok (pack1 p x nleft) = false) /\
    (if Nat.eqb (ep_bin p) 0 then ep_unpack p b else Ok (ep_unraw p b)) = Ok x.
Proof.
  unfold packs, pack1. destruct (Nat.eqb_spec (ep_bin p) 0) as [E|E].
  - intros (b & H1 & H2 & H4 & H3). exists b. auto.
  - intros (H1 & H2 & H3). exists (ep_raw p x). split; [lia|]. split; [|split; [|now rewrite H2]].
    + intros nl H. destruct (Nat.ltb_spec nl (ep_bin p)); [lia|]. now rewrite H3.
    + intros nl H. destruct (Nat.ltb_spec nl (ep_bin p)); [reflexivity|lia].
Qed.

(** the whole loop *)
Definition tabl {T} (p : epacker T) (xs : list T) : list Z :=
  if Nat.eqb (ep_bin p) 0 then map (fun x => Z.of_nat (ep_size p x)) xs else [].

Lemma tabl_length {T} (p : epacker T) xs : length (tabl p xs) = tab p (length xs).
Proof. unfold tabl, tab. destruct (Nat.eqb (ep_bin p) 0); [apply map_length|reflexivity]. Qed.

Lemma pack_elems_ok {T} (p : epacker T) xs : Forall (packs p) xs ->
  exists d, length d = total p xs /\
    (forall nleft, (total p xs <= nleft)%nat ->
       pack_elems p xs nleft = Ok (tabl p xs, d, (nleft - total p xs)%nat)) /\
    (forall nleft, (nleft < total p xs)%nat -> is_ok (pack_elems p xs nleft) = false) /\
    (forall rest, unpack_elems p (length xs) (tabl p xs) (d ++ rest) = Ok (xs, rest)).
Proof.
  induction 1 as [|x xs Hx Hxs IH].
  - exists []. split; [reflexivity|]. split; [|split; [|reflexivity]].
    + intros nl _. cbn. unfold tabl. destruct (Nat.eqb (ep_bin p) 0); cbn; now rewrite Nat.sub_0_r.
    + intros nl H. cbn in H. lia.
  - destruct (pack1_ok _ _ Hx) as (b & Hb1 & Hb2 & Hb4 & Hb3). destruct IH as (d & Hd1 & Hd2 & Hd4 & Hd3).
    exists (b ++ d). rewrite app_length, total_cons. split; [lia|]. split; [|split].
    + intros nl Hnl. cbn [pack_elems]. rewrite Hb2 by lia. cbn [bind]. rewrite Hd2 by lia. cbn [bind].
      f_equal. f_equal; [f_equal|lia]. unfold tabl. rewrite Hb1. destruct (Nat.eqb (ep_bin p) 0); reflexivity.
    + intros nl Hnl. cbn [pack_elems]. destruct (Nat.ltb_spec nl (ep_size p x)) as [Hlt|Hge].
      * specialize (Hb4 _ Hlt). destruct (pack1 p x nl); [discriminate|reflexivity|reflexivity].
      * rewrite Hb2 by lia. cbn [bind]. specialize (Hd4 (nl - ep_size p x)%nat ltac:(lia)).
        destruct (pack_elems p xs (nl - ep_size p x)); [discriminate|reflexivity|reflexivity].
    + intros rest. cbn [length unpack_elems]. rewrite <- app_assoc.
      assert (Es : (if Nat.eqb (ep_bin p) 0 then Z.to_nat (hd 0 (tabl p (x :: xs))) else ep_bin p) = length b).
      { unfold tabl, packs in *. destruct (Nat.eqb_spec (ep_bin p) 0); cbn; [lia|]. lia. }
      rewrite Es, firstn_app_len, skipn_app_len by reflexivity.
      destruct (Nat.ltb_spec (length (b ++ d ++ rest)) (length b)); [rewrite app_length in *; lia|].
      rewrite Hb3. cbn [bind].
      replace (tl (tabl p (x :: xs))) with (tabl p xs)
        by (unfold tabl; destruct (Nat.eqb (ep_bin p) 0); reflexivity).
      now rewrite Hd3.
Qed.

Lemma tabl_u64 {T} (p : epacker T) xs : Z.of_nat (total p xs) < 2 ^ 64 ->
  Forall (fun z => u64_ok z = true) (tabl p xs).
Proof.
  unfold tabl. destruct (Nat.eqb (ep_bin p) 0); [|constructor].
  induction xs as [|x xs IH]; intros H; cbn [map]; [constructor|]. rewrite total_cons in H.
  constructor; [apply u64_of_nat; lia | apply IH; lia].
Qed.

Lemma total_bin {T} (p : epacker T) xs : ep_bin p <> 0%nat -> Forall (packs p) xs ->
  total p xs = (ep_bin p * length xs)%nat.
Proof.
  intros E H. induction H as [|x xs Hx Hxs IH]; cbn [total length fold_right]; [cbn; lia|].
  unfold packs in Hx. destruct (Nat.eqb_spec (ep_bin p) 0); [lia|]. destruct Hx as (_ & _ & Hx).
  fold (total p xs). rewrite IH, Hx. lia.
Qed.

Lemma seq_packSize_total {T} (p : epacker T) xs : Forall (packs p) xs ->
  seq_packSize p xs = (8 * (1 + tab p (length xs)) + total p xs)%nat.
Proof.
  intros H. unfold seq_packSize, tab. destruct (Nat.eqb_spec (ep_bin p) 0) as [E|E].
  - fold (total p xs). lia.
  - rewrite total_bin by auto. lia.
Qed.

(** layout of the block: count, size table, data *)
Lemma block_split {T} (p : epacker T) (xs : list T) d :
  Z.of_nat (length xs) < 2 ^ 64 -> Z.of_nat (total p xs) < 2 ^ 64 ->
  let block := enc_u64 (Z.of_nat (length xs)) ++ enc_u64s (tabl p xs) ++ d in
  dec_u64 (firstn 8 block) = Z.of_nat (length xs) /\
  dec_u64s (tab p (length xs)) (skipn 8 block) = tabl p xs /\
  skipn (8 * (1 + tab p (length xs))) block = d /\
  length block = (8 * (1 + tab p (length xs)) + length d)%nat.
Proof.
  intros Hn Ht block.
  assert (L : length (enc_u64s (tabl p xs)) = (8 * tab p (length xs))%nat)
    by (now rewrite enc_u64s_length, tabl_length).
  split; [|split; [|split]].
  - unfold block. rewrite firstn_app_len by apply enc_u64_length. apply dec_enc_u64, u64_of_nat, Hn.
  - unfold block. rewrite skipn_app_len by apply enc_u64_length. rewrite <- tabl_length.
    apply dec_enc_u64s, tabl_u64, Ht.
  - unfold block. rewrite app_assoc. apply skipn_app_len. rewrite app_length, enc_u64_length, L. lia.
  - unfold block. rewrite !app_length, enc_u64_length, L. lia.
Qed.

Lemma seq_packs {T} (p : epacker T) xs :
  Forall (packs p) xs -> Z.of_nat (seq_packSize p xs) < 2 ^ 64 -> Z.of_nat (length xs) < 2 ^ 64 ->
  packs (vector_packer p) xs.
Proof.
  intros H Hs Hn. unfold packs. cbn [vector_packer ep_bin Nat.eqb ep_size ep_pack ep_unpack].
  rewrite seq_packSize_total in * by assumption.
  destruct (pack_elems_ok p xs H) as (d & D1 & D2 & D5 & D3).
  exists (enc_u64 (Z.of_nat (length xs)) ++ enc_u64s (tabl p xs) ++ d).
  destruct (block_split p xs d Hn) as (B1 & B2 & B3 & B4); [lia|].
  split; [rewrite B4; lia|]. split; [|split].
  - intros nl Hnl. unfold seq_pack.
    destruct (Nat.ltb_spec nl 8); [lia|].
    destruct (Nat.ltb_spec nl (8 * (1 + tab p (length xs)))); [lia|].
    rewrite D2 by lia. cbn [bind]. f_equal. f_equal. lia.
  - intros nl Hnl. unfold seq_pack. destruct (Nat.ltb_spec nl 8); [reflexivity|].
    destruct (Nat.ltb_spec nl (8 * (1 + tab p (length xs)))); [reflexivity|].
    specialize (D5 (nl - 8 * (1 + tab p (length xs)))%nat ltac:(lia)).
    destruct (pack_elems p xs (nl - 8 * (1 + tab p (length xs)))); [discriminate|reflexivity|reflexivity].
  - unfold seq_unpack. rewrite B1, Nat2Z.id, B2, B3, B4.
    destruct (Nat.ltb_spec (8 * (1 + tab p (length xs)) + length d) 8); [lia|].
    destruct (Nat.ltb_spec (8 * (1 + tab p (length xs)) + length d) (8 * (1 + tab p (length xs)))); [lia|].
    specialize (D3 []). rewrite app_nil_r in D3. rewrite D3. reflexivity.
Qed.

Lemma string_packs s : packs string_packer s.
Proof.
  exists s. cbn. split; [reflexivity|]. split; [|split; [|reflexivity]]; intros nl H; unfold str_pack;
  destruct (Nat.ltb_spec nl (length s)); try lia; reflexivity.
Qed.
Lemma hiid_packs x : hiid_ok x -> packs hiid_packer x.
Proof.
  intros H. exists (enc_i32s x). cbn [hiid_packer ep_size ep_pack ep_unpack].
  split; [unfold hiid_packSize; apply enc_i32s_length|]. split; [|split].
  - intros nl Hn. destruct (hiid_pack_ok x nl Hn) as (bs & E & L). rewrite E.
    unfold hiid_pack in E. destruct (Nat.ltb nl (4 * length x)); [discriminate|].
    injection E as <-. reflexivity.
  - intros nl Hn. unfold hiid_pack, hiid_packSize in *. destruct (Nat.ltb_spec nl (4 * length x)); [reflexivity|lia].
  - destruct (hiid_pack_ok x (hiid_packSize x) (Nat.le_refl _)) as (bs & E & L).
    assert (bs = enc_i32s x).
    { unfold hiid_pack in E. destruct (Nat.ltb (hiid_packSize x) (4 * length x)); [discriminate|].
      now injection E as <-. }
    subst bs. pose proof (hiid_pack_unpack x _ _ _ _ [] H E) as U. rewrite app_nil_r in U.
    now rewrite L.
Qed.
Lemma bin_packs k x : k <> 0%nat -> length x = k -> packs (bin_packer k) x.
Proof. intros E H. unfold packs. cbn. destruct (Nat.eqb_spec k 0); [lia|auto]. Qed.

(** ** Arrays *)
Lemma arr_round {T} (p : epacker T) xs nleft :
  ep_bin p = 0%nat -> Forall (packs p) xs ->
  Z.of_nat (seq_packSize p xs) < 2 ^ 64 -> Z.of_nat (length xs) < 2 ^ 64 ->
  (arr_packSize p xs <= nleft)%nat ->
  exists bytes, arr_pack p xs nleft = Ok (bytes, (nleft - arr_packSize p xs)%nat) /\
    length bytes = arr_packSize p xs /\
    arr_unpack p (length xs) bytes = Ok xs /\ arr_allocate p bytes = Ok xs.
Proof.
  intros E H Hs Hn Hl. unfold arr_packSize in *. rewrite seq_packSize_total in * by assumption.
  destruct (pack_elems_ok p xs H) as (d & D1 & D2 & D5 & D3).
  exists (enc_u64 (Z.of_nat (length xs)) ++ enc_u64s (tabl p xs) ++ d).
  destruct (block_split p xs d Hn) as (B1 & B2 & B3 & B4); [lia|].
  assert (U : arr_unpack p (length xs) (enc_u64 (Z.of_nat (length xs)) ++ enc_u64s (tabl p xs) ++ d) = Ok xs).
  { unfold arr_unpack. assert (Et : tab p (length xs) = length xs) by (unfold tab; now rewrite E).
    rewrite Et in *. rewrite B1, B2, B3, B4.
    destruct (Nat.ltb_spec (8 * (1 + length xs) + length d) 8); [lia|].
    rewrite Z.eqb_refl. cbn [negb].
    destruct (Nat.ltb_spec (8 * (1 + length xs) + length d) (8 * (1 + length xs))); [lia|].
    rewrite E. cbn [Nat.eqb]. specialize (D3 []). rewrite app_nil_r in D3. rewrite D3. reflexivity. }
  split; [|split; [rewrite B4; lia|split; [exact U|]]].
  - unfold arr_pack. destruct (Nat.ltb_spec nleft (8 * (1 + tab p (length xs)))); [lia|].
    rewrite E. cbn [Nat.eqb]. rewrite D2 by lia. cbn [bind]. f_equal. f_equal. lia.
  - unfold arr_allocate. rewrite B4, B1, Nat2Z.id.
    destruct (Nat.ltb_spec (8 * (1 + tab p (length xs)) + length d) 8); [lia|]. exact U.
Qed.

(** ** Maps *)
Section Maps.
Context {K V : Type} (eqb : K -> K -> bool) (pk : epacker K) (pv : epacker V).
Hypothesis eqb_iff : forall a b, eqb a b = true <-> a = b.

Lemma map_set_fresh (m : list (K * V)) k v : ~ In k (map fst m) -> map_set eqb m k v = m ++ [(k, v)].
Proof.
  induction m as [|[k' v'] m IH]; cbn; intros H; [reflexivity|].
  destruct (eqb k k') eqn:E; [apply eqb_iff in E; subst; tauto|]. rewrite IH by tauto. reflexivity.
Qed.

Definition mtab (m : list (K * V)) : list Z :=
  flat_map (fun e => (if Nat.eqb (ep_bin pk) 0 then [Z.of_nat (ep_size pk (fst e))] else []) ++
                     (if Nat.eqb (ep_bin pv) 0 then [Z.of_nat (ep_size pv (snd e))] else [])) m.
Definition mtotal (m : list (K * V)) : nat := (total pk (map fst m) + total pv (map snd m))%nat.

Lemma mtab_length m : length (mtab m) = (tab pk (length m) + tab pv (length m))%nat.
Proof.
  unfold tab. induction m as [|e m IH]; [cbn; destruct (Nat.eqb (ep_bin pk) 0), (Nat.eqb (ep_bin pv) 0); reflexivity|].
  cbn [mtab flat_map]. fold (mtab m). rewrite !app_length, IH. cbn [length].
  destruct (Nat.eqb (ep_bin pk) 0), (Nat.eqb (ep_bin pv) 0); cbn; lia.
Qed.

Lemma mtab_u64 m : Z.of_nat (mtotal m) < 2 ^ 64 -> Forall (fun z => u64_ok z = true) (mtab m).
Proof.
  unfold mtotal. induction m as [|e m IH]; intros H; cbn [mtab flat_map]; [constructor|].
  cbn [map] in H. rewrite !total_cons in H. fold (mtab m).
  apply Forall_app; split; [|apply IH; lia].
  apply Forall_app; split.
  - destruct (Nat.eqb (ep_bin pk) 0); constructor; [|constructor]. apply u64_of_nat. lia.
  - destruct (Nat.eqb (ep_bin pv) 0); constructor; [|constructor]. apply u64_of_nat. lia.
Qed.

(** what unpack adds to its byte count for the elements: wrong for variable-length values *)
Definition counted (m : list (K * V)) : nat :=
  (total pk (map fst m) + (if Nat.eqb (ep_bin pv) 0 then total pk (map fst m) else total pv (map snd m)))%nat.

Lemma map_pack_elems_ok m :
  Forall (packs pk) (map fst m) -> Forall (packs pv) (map snd m) ->
  exists d, length d = mtotal m /\
    (forall nleft, (mtotal m <= nleft)%nat ->
       map_pack_elems pk pv m nleft = Ok (mtab m, d, (nleft - mtotal m)%nat)) /\
    (forall acc sz sz0 rest, NoDup (map fst acc ++ map fst m) -> (sz0 + counted m <= sz)%nat ->
       map_unpack_elems eqb pk pv (length m) sz sz0 (mtab m) (d ++ rest) acc
       = Ok (acc ++ m, (sz0 + counted m)%nat)) /\
    (forall acc sz sz0 rest, sz < sz0 + counted m -> sz0 <= sz ->
       map_unpack_elems eqb pk pv (length m) sz sz0 (mtab m) (d ++ rest) acc = Err)%nat.
Proof.
  induction m as [|[k v] m IH]; cbn [map fst snd]; intros Hk Hv.
  - exists []. split; [reflexivity|]. split; [|split].
    + intros nl _. cbn. now rewrite Nat.sub_0_r.
    + intros acc sz sz0 rest _ Hc. cbn [map_unpack_elems length]. rewrite app_nil_r. f_equal. f_equal.
      unfold counted. cbn. destruct (Nat.eqb (ep_bin pv) 0); lia.
    + intros acc sz sz0 rest H1 H2. unfold counted in H1. cbn in H1.
      destruct (Nat.eqb (ep_bin pv) 0); lia.
  - inversion_clear Hk as [|? ? HA HB]. inversion_clear Hv as [|? ? HC HD].
    destruct (pack1_ok _ _ HA) as (b1 & L1 & P1 & _ & U1). destruct (pack1_ok _ _ HC) as (b2 & L2 & P2 & _ & U2).
    destruct (IH HB HD) as (d & D1 & D2 & D3 & D4).
    exists (b1 ++ b2 ++ d).
    assert (Mt : mtotal ((k, v) :: m) = (ep_size pk k + ep_size pv v + mtotal m)%nat).
    { unfold mtotal. cbn [map fst snd]. rewrite !total_cons. lia. }
    assert (Ct : counted ((k, v) :: m) =
      (ep_size pk k + (if Nat.eqb (ep_bin pv) 0 then ep_size pk k else ep_size pv v) + counted m)%nat).
    { unfold counted. cbn [map fst snd]. rewrite !total_cons. destruct (Nat.eqb (ep_bin pv) 0); lia. }
    rewrite Mt. split; [rewrite !app_length; lia|].
    assert (Es1 : (if Nat.eqb (ep_bin pk) 0 then Z.to_nat (hd 0 (mtab ((k, v) :: m))) else ep_bin pk) = length b1).
    { unfold mtab, packs in *. destruct (Nat.eqb_spec (ep_bin pk) 0); cbn; lia. }
    assert (Et1 : (if Nat.eqb (ep_bin pk) 0 then tl (mtab ((k, v) :: m)) else mtab ((k, v) :: m)) =
                  (if Nat.eqb (ep_bin pv) 0 then [Z.of_nat (ep_size pv v)] else []) ++ mtab m).
    { unfold mtab. destruct (Nat.eqb (ep_bin pk) 0); reflexivity. }
    assert (Es2 : (if Nat.eqb (ep_bin pv) 0
                   then Z.to_nat (hd 0 ((if Nat.eqb (ep_bin pv) 0 then [Z.of_nat (ep_size pv v)] else []) ++ mtab m))
                   else ep_bin pv) = length b2).
    { unfold packs in *. destruct (Nat.eqb_spec (ep_bin pv) 0); cbn; lia. }
    assert (Et2 : (if Nat.eqb (ep_bin pv) 0
                   then tl ((if Nat.eqb (ep_bin pv) 0 then [Z.of_nat (ep_size pv v)] else []) ++ mtab m)
                   else (if Nat.eqb (ep_bin pv) 0 then [Z.of_nat (ep_size pv v)] else []) ++ mtab m) = mtab m).
    { destruct (Nat.eqb (ep_bin pv) 0); reflexivity. }
    split; [|split].
    + intros nl Hnl. cbn [map_pack_elems]. rewrite P1 by lia. cbn [bind]. rewrite P2 by lia. cbn [bind].
      rewrite D2 by lia. cbn [bind]. rewrite L1, L2. f_equal. f_equal; [|lia].
      cbn [mtab flat_map]. rewrite <- app_assoc. reflexivity.
    + intros acc sz sz0 rest Hnd Hc. cbn [length map_unpack_elems].
      rewrite Es1, Et1, Es2, Et2. rewrite <- !app_assoc.
      repeat first [rewrite firstn_app_len by reflexivity | rewrite skipn_app_len by reflexivity].
      rewrite Ct in Hc.
      destruct (Nat.ltb_spec sz (sz0 + length b1)); [lia|].
      destruct (Nat.ltb_spec (length (b1 ++ b2 ++ d ++ rest)) (length b1)); [rewrite app_length in *; lia|].
      rewrite U1. cbn [bind].
      destruct (Nat.ltb_spec sz (sz0 + length b1 + (if Nat.eqb (ep_bin pv) 0 then length b1 else length b2)));
        [destruct (Nat.eqb (ep_bin pv) 0); lia|].
      destruct (Nat.ltb_spec (length (b2 ++ d ++ rest)) (length b2)); [rewrite app_length in *; lia|].
      rewrite U2. cbn [bind].
      assert (Hf : ~ In k (map fst acc)).
      { cbn [map fst] in Hnd. apply NoDup_remove_2 in Hnd. intros Hin. apply Hnd, in_or_app. tauto. }
      rewrite map_set_fresh by exact Hf. rewrite D3.
      * rewrite <- app_assoc. cbn [app]. f_equal. f_equal. rewrite Ct, L1, L2.
        destruct (Nat.eqb (ep_bin pv) 0); lia.
      * rewrite map_app, <- app_assoc. exact Hnd.
      * rewrite L1, L2 in *. destruct (Nat.eqb (ep_bin pv) 0); lia.
    + intros acc sz sz0 rest Hlt Hle. cbn [length map_unpack_elems].
      rewrite Es1, Et1, Es2, Et2. rewrite <- !app_assoc.
      repeat first [rewrite firstn_app_len by reflexivity | rewrite skipn_app_len by reflexivity].
      rewrite Ct in Hlt.
      destruct (Nat.ltb_spec sz (sz0 + length b1)); [reflexivity|].
      destruct (Nat.ltb_spec (length (b1 ++ b2 ++ d ++ rest)) (length b1)); [rewrite app_length in *; lia|].
      rewrite U1. cbn [bind].
      destruct (Nat.ltb_spec sz (sz0 + length b1 + (if Nat.eqb (ep_bin pv) 0 then length b1 else length b2)));
        [reflexivity|].
      destruct (Nat.ltb_spec (length (b2 ++ d ++ rest)) (length b2)); [rewrite app_length in *; lia|].
      rewrite U2. cbn [bind]. apply D4; [|lia]. rewrite L1, L2 in *. destruct (Nat.eqb (ep_bin pv) 0); lia.
Qed.

Lemma map_block m nleft :
  Forall (packs pk) (map fst m) -> Forall (packs pv) (map snd m) -> NoDup (map fst m) ->
  Z.of_nat (length m) < 2 ^ 64 -> Z.of_nat (mtotal m) < 2 ^ 64 ->
  let need := (8 * (1 + tab pk (length m) + tab pv (length m)) + mtotal m)%nat in
  (need <= nleft)%nat ->
  exists bytes, map_pack pk pv m nleft = Ok (bytes, (nleft - need)%nat) /\ length bytes = need /\
    map_unpack eqb pk pv [] bytes = if Nat.eqb (counted m) (mtotal m) then Ok m else Err.
Proof.
  intros Hk Hv Hnd Hn Ht need Hl.
  destruct (map_pack_elems_ok m Hk Hv) as (d & D1 & D2 & D3 & D4).
  assert (L : length (enc_u64s (mtab m)) = (8 * (tab pk (length m) + tab pv (length m)))%nat)
    by (now rewrite enc_u64s_length, mtab_length).
  exists (enc_u64 (Z.of_nat (length m)) ++ enc_u64s (mtab m) ++ d).
  assert (Lb : length (enc_u64 (Z.of_nat (length m)) ++ enc_u64s (mtab m) ++ d) = need)
    by (rewrite !app_length, enc_u64_length, L; unfold need; lia).
  split; [|split; [exact Lb|]].
  - unfold map_pack. destruct (Nat.ltb_spec nleft 8); [unfold need in *; lia|].
    destruct (Nat.ltb_spec nleft (8 * (1 + tab pk (length m) + tab pv (length m)))); [unfold need in *; lia|].
    rewrite D2 by (unfold need in *; lia). cbn [bind]. f_equal. f_equal. unfold need in *. lia.
  - unfold map_unpack. rewrite Lb.
    destruct (Nat.ltb_spec need 8); [unfold need in *; lia|].
    rewrite firstn_app_len by apply enc_u64_length.
    rewrite dec_enc_u64 by (apply u64_of_nat; exact Hn). rewrite Nat2Z.id.
    destruct (Nat.ltb_spec need (8 * (1 + tab pk (length m) + tab pv (length m)))); [unfold need in *; lia|].
    rewrite skipn_app_len by apply enc_u64_length. rewrite <- mtab_length.
    rewrite dec_enc_u64s by (apply mtab_u64; exact Ht).
    rewrite app_assoc, skipn_app_len
      by (rewrite app_length, enc_u64_length, L; lia).
    specialize (D3 [] need (8 * (1 + tab pk (length m) + tab pv (length m)))%nat []).
    specialize (D4 [] need (8 * (1 + tab pk (length m) + tab pv (length m)))%nat []).
    rewrite app_nil_r in D3, D4. cbn [map app] in D3.
    destruct (Nat.le_gt_cases (counted m) (mtotal m)) as [C|C].
    + rewrite D3 by (auto; unfold need; lia). cbn [bind].
      destruct (Nat.eqb_spec need (8 * (1 + tab pk (length m) + tab pv (length m)) + counted m)),
               (Nat.eqb_spec (counted m) (mtotal m)); try reflexivity; unfold need in *; lia.
    + rewrite D4 by (unfold need; lia). cbn [bind].
      destruct (Nat.eqb_spec (counted m) (mtotal m)); [lia|reflexivity].
Qed.
End Maps.

Lemma raw_array_ok {T} (p : epacker T) xs rest : Forall (packs p) xs -> ep_bin p <> 0%nat ->
  raw_array p (length xs) (flat_map (ep_raw p) xs ++ rest) = xs.
Proof.
  intros H E. induction H as [|x xs Hx _ IH]; cbn [length raw_array flat_map]; [reflexivity|].
  unfold packs in Hx. destruct (Nat.eqb_spec (ep_bin p) 0); [lia|]. destruct Hx as (H1 & H2 & _).
  rewrite <- app_assoc, firstn_app_len, skipn_app_len by exact H1. now rewrite H2, IH.
Qed.
