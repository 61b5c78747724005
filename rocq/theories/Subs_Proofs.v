From Verif Require Import Base Bytes_Model Bytes_Proofs Hiid_Model Hiid_Spec Hiid_Proofs Subs_Model.
Local Open Scope Z_scope.

(** ** matching after add / merge / remove *)
Definition covers (e : sub) (id from : hiid) : bool :=
  hiid_matches id (s_mask e) && hiid_matches from (s_scope e).

Lemma covers_mono e e' id from :
  hiid_subset (s_mask e) (s_mask e') = true -> hiid_subset (s_scope e) (s_scope e') = true ->
  covers e id from = true -> covers e' id from = true.
Proof.
  unfold covers. rewrite !andb_true_iff. intros H1 H2 [H3 H4].
  rewrite (matches_sym id), (matches_sym from) in *.
  split; eapply subset_matches_mono; eauto.
Qed.

Lemma add_scan_matches l id scope : forall r l' d mid from,
  add_scan l id scope = Some (r, l', d) ->
  existsb (fun e => covers e mid from) l' =
  existsb (fun e => covers e mid from) l || covers {| s_mask := id; s_scope := scope |} mid from.
Proof.
  induction l as [|e l IH]; intros r l' d mid from H; cbn [add_scan] in H; [discriminate|].
  destruct (hiid_subset id (s_mask e) && hiid_subset scope (s_scope e)) eqn:E1.
  - injection H as <- <- <-. apply andb_true_iff in E1. destruct E1 as [E1 E2].
    cbn [existsb].
    destruct (covers {| s_mask := id; s_scope := scope |} mid from) eqn:C; [|now rewrite orb_false_r].
    assert (covers e mid from = true) as -> by (eapply covers_mono; [| |exact C]; assumption).
    reflexivity.
  - destruct (hiid_subset (s_mask e) id && hiid_subset (s_scope e) scope) eqn:E2.
    + injection H as <- <- <-. apply andb_true_iff in E2. destruct E2 as [E2 E3].
      cbn [existsb].
      destruct (covers e mid from) eqn:C.
      * assert (covers {| s_mask := id; s_scope := scope |} mid from = true) as ->
          by (eapply covers_mono; [| |exact C]; assumption).
        now rewrite orb_true_r.
      * cbn. apply orb_comm.
    + destruct (add_scan l id scope) as [[[r0 l0] d0]|] eqn:E3; [|discriminate].
      injection H as <- <- <-. cbn [existsb]. rewrite (IH _ _ _ mid from eq_refl). now rewrite orb_assoc.
Qed.

Lemma subs_add_matches s id scope mid from :
  subs_matches (snd (subs_add s id scope)) mid from =
  subs_matches s mid from || (hiid_matches mid id && hiid_matches from scope).
Proof.
  unfold subs_add, subs_matches. destruct (add_scan _ _ _) as [[[r l] d]|] eqn:E; cbn [snd s_list].
  - apply (add_scan_matches _ _ _ _ _ _ mid from E).
  - rewrite existsb_app. cbn. now rewrite orb_false_r.
Qed.

Lemma subs_add_false s id scope s' : subs_add s id scope = (false, s') -> s_list s' = s_list s.
Proof.
  unfold subs_add. destruct (add_scan _ _ _) as [[[r l] d]|] eqn:E; [|discriminate].
  intros [= -> <-]. cbn. revert l d E. generalize (s_list s). intros l0.
  induction l0 as [|e l0 IH]; intros l d E; cbn in E; [discriminate|].
  destruct (_ && _); [congruence|]. destruct (_ && _); [discriminate|].
  destruct (add_scan l0 id scope) as [[[r0 l1] d0]|]; [|discriminate].
  injection E as -> <- <-. f_equal. eapply IH; reflexivity.
Qed.

(** adding the same subscription again changes nothing *)
Lemma add_scan_covered l id scope :
  (exists e, In e l /\ hiid_subset id (s_mask e) = true /\ hiid_subset scope (s_scope e) = true) ->
  exists r l' d, add_scan l id scope = Some (r, l', d) .
Proof.
  induction l as [|e l IH]; intros (e' & Hin & H1 & H2); [destruct Hin|].
  cbn [add_scan].
  destruct (hiid_subset id (s_mask e) && hiid_subset scope (s_scope e)) eqn:E1; [eauto|].
  destruct (hiid_subset (s_mask e) id && hiid_subset (s_scope e) scope) eqn:E2; [eauto|].
  destruct Hin as [->|Hin]; [rewrite H1, H2 in E1; discriminate|].
  destruct IH as (r & l' & d & ->); eauto.
Qed.

Lemma add_scan_twice l id scope r l' d :
  add_scan l id scope = Some (r, l', d) -> add_scan l' id scope = Some (false, l', 0).
Proof.
  revert r l' d; induction l as [|e l IH]; intros r l' d H; cbn in H; [discriminate|].
  destruct (hiid_subset id (s_mask e) && hiid_subset scope (s_scope e)) eqn:E1.
  - injection H as <- <- <-. cbn. now rewrite E1.
  - destruct (hiid_subset (s_mask e) id && hiid_subset (s_scope e) scope) eqn:E2.
    + injection H as <- <- <-. cbn. now rewrite !subset_refl.
    + destruct (add_scan l id scope) as [[[r0 l0] d0]|] eqn:E; [|discriminate].
      injection H as <- <- <-. cbn. rewrite E1, E2. now rewrite (IH _ _ _ eq_refl).
Qed.

Lemma add_scan_app_new l id scope :
  add_scan l id scope = None ->
  add_scan (l ++ [{| s_mask := id; s_scope := scope |}]) id scope =
  Some (false, l ++ [{| s_mask := id; s_scope := scope |}], 0).
Proof.
  induction l as [|e l IH]; intros H; cbn in *.
  - now rewrite !subset_refl.
  - destruct (_ && _); [discriminate|]. destruct (_ && _); [discriminate|].
    destruct (add_scan l id scope) as [[[r0 l0] d0]|]; [discriminate|]. now rewrite IH.
Qed.

Lemma subs_add_idempotent s id scope :
  let s' := snd (subs_add s id scope) in
  subs_add s' id scope = (false, s').
Proof.
  cbv zeta. assert (H : exists l p, snd (subs_add s id scope) = {| s_list := l; s_pksize := p |} /\
                 add_scan l id scope = Some (false, l, 0)).
  { unfold subs_add. destruct (add_scan (s_list s) id scope) as [[[r l] d]|] eqn:E; cbn [snd].
    - do 2 eexists. split; [reflexivity|]. apply (add_scan_twice _ _ _ _ _ _ E).
    - do 2 eexists. split; [reflexivity|]. apply (add_scan_app_new _ _ _ E). }
  destruct H as (l & p & -> & E). unfold subs_add. cbn [s_list s_pksize]. rewrite E. now rewrite Z.add_0_r.
Qed.

Lemma subs_merge_matches_gen l acc mid from :
  subs_matches (snd (fold_left (fun acc e => let '(r, s') := subs_add (snd acc) (s_mask e) (s_scope e) in
                          (fst acc || r, s')) l acc)) mid from =
  subs_matches (snd acc) mid from || existsb (fun e => covers e mid from) l.
Proof.
  revert acc; induction l as [|e l IH]; intros [b s]; cbn [fold_left existsb].
  - now rewrite orb_false_r.
  - rewrite IH. cbn [snd fst]. destruct (subs_add s (s_mask e) (s_scope e)) as [r s'] eqn:E.
    cbn [snd]. assert (Hs : s' = snd (subs_add s (s_mask e) (s_scope e))) by now rewrite E.
    rewrite Hs, subs_add_matches. fold (covers e mid from). now rewrite orb_assoc.
Qed.

Lemma subs_merge_matches s other mid from :
  subs_matches (snd (subs_merge s other)) mid from = subs_matches s mid from || subs_matches other mid from.
Proof. apply (subs_merge_matches_gen (s_list other) (false, s)). Qed.

Lemma remove_scan_filter l id :
  snd (fst (remove_scan l id)) = filter (fun e => negb (hiid_subset (s_mask e) id)) l.
Proof.
  induction l as [|e l IH]; cbn; [reflexivity|].
  destruct (remove_scan l id) as [[r l'] d]. cbn in IH. subst l'.
  destruct (hiid_subset (s_mask e) id); reflexivity.
Qed.

Lemma subs_remove_list s id :
  s_list (snd (subs_remove s id)) = filter (fun e => negb (hiid_subset (s_mask e) id)) (s_list s).
Proof.
  unfold subs_remove. rewrite <- remove_scan_filter. now destruct (remove_scan (s_list s) id) as [[r l] d].
Qed.

Lemma subs_remove_sound s id mid from :
  subs_matches (snd (subs_remove s id)) mid from = true -> subs_matches s mid from = true.
Proof.
  unfold subs_matches. rewrite subs_remove_list. rewrite !existsb_exists.
  intros (e & Hin & He). apply filter_In in Hin. exists e; tauto.
Qed.

(** a message stays matched by remove iff some pattern not contained in the
    removed one covers it *)
Lemma subs_remove_matches s id mid from :
  subs_matches (snd (subs_remove s id)) mid from = true <->
  exists e, In e (s_list s) /\ covers e mid from = true /\
            ~ (forall x, concrete x -> denotes (s_mask e) x -> denotes id x).
Proof.
  unfold subs_matches. rewrite subs_remove_list, existsb_exists. split.
  - intros (e & Hin & He). apply filter_In in Hin. destruct Hin as [Hin Hn].
    exists e. repeat split; auto. rewrite <- subset_iff. destruct (hiid_subset (s_mask e) id); [discriminate|congruence].
  - intros (e & Hin & Hc & Hn). exists e. split; [|exact Hc]. apply filter_In. split; [exact Hin|].
    rewrite <- subset_iff in Hn. destruct (hiid_subset (s_mask e) id); [congruence|reflexivity].
Qed.

(** ** pack size accounting *)
Definition elem_size (e : sub) : Z := pksz (s_mask e) + pksz (s_scope e) + 16.
Definition size_of (l : list sub) : Z := 8 + fold_right (fun e a => elem_size e + a) 0 l.
Definition size_ok (s : subs) : Prop := s_pksize s = size_of (s_list s).

Lemma size_of_cons e l : size_of (e :: l) = elem_size e + size_of l.
Proof. unfold size_of. cbn [fold_right]. lia. Qed.
Lemma size_of_nil : size_of [] = 8.
Proof. reflexivity. Qed.
Lemma size_of_app l e : size_of (l ++ [e]) = size_of l + elem_size e.
Proof. induction l as [|x l IH]; cbn [app]; rewrite ?size_of_cons, ?IH; lia. Qed.

Lemma add_scan_size l id scope : forall r l' d,
  add_scan l id scope = Some (r, l', d) -> size_of l' = size_of l + d.
Proof.
  induction l as [|e l IH]; intros r l' d H; cbn in H; [discriminate|].
  destruct (_ && _); [injection H as <- <- <-; lia|].
  destruct (_ && _).
  - injection H as <- <- <-. rewrite !size_of_cons. unfold elem_size; cbn. lia.
  - destruct (add_scan l id scope) as [[[r0 l0] d0]|] eqn:E; [|discriminate].
    injection H as <- <- <-. rewrite !size_of_cons, (IH _ _ _ eq_refl). lia.
Qed.

Lemma subs_add_size s id scope : size_ok s -> size_ok (snd (subs_add s id scope)).
Proof.
  unfold size_ok, subs_add. intros H.
  destruct (add_scan _ _ _) as [[[r l] d]|] eqn:E; cbn [snd s_pksize s_list].
  - rewrite (add_scan_size _ _ _ _ _ _ E), H. reflexivity.
  - rewrite size_of_app, H. unfold elem_size; cbn. lia.
Qed.

Lemma remove_scan_size l id r l' d : remove_scan l id = (r, l', d) -> size_of l' = size_of l - d.
Proof.
  revert r l' d; induction l as [|e l IH]; intros r l' d H; cbn in H; [injection H as <- <- <-; lia|].
  destruct (remove_scan l id) as [[r0 l0] d0]. specialize (IH _ _ _ eq_refl).
  destruct (hiid_subset (s_mask e) id); injection H as <- <- <-; rewrite ?size_of_cons; unfold elem_size; lia.
Qed.

Lemma subs_step_size s o : size_ok s -> size_ok (subs_step s o).
Proof.
  intros H. destruct o as [id scope|id| |other]; cbn [subs_step].
  - now apply subs_add_size.
  - unfold subs_remove. destruct (remove_scan (s_list s) id) as [[r l] d] eqn:E.
    unfold size_ok in *; cbn. rewrite (remove_scan_size _ _ _ _ _ E), H. reflexivity.
  - reflexivity.
  - unfold subs_merge. generalize false as b. generalize (s_list other) as l.
    intros l; revert s H; induction l as [|e l IH]; intros s H b; cbn; [exact H|].
    destruct (subs_add s (s_mask e) (s_scope e)) as [r s'] eqn:E.
    apply IH. assert (s' = snd (subs_add s (s_mask e) (s_scope e))) as -> by now rewrite E.
    now apply subs_add_size.
Qed.

Lemma subs_run_size os : size_ok (fold_left subs_step os subs_init).
Proof.
  assert (G : forall s, size_ok s -> size_ok (fold_left subs_step os s)).
  { induction os as [|o os IH]; intros s H; cbn; [exact H|]. apply IH. now apply subs_step_size. }
  apply G. reflexivity.
Qed.

(** ** pack *)
Definition elem_bytes (e : sub) : list Z := enc_i32s (s_mask e) ++ enc_i32s (s_scope e).
Definition elem_hdr (e : sub) : list Z := [pksz (s_mask e); pksz (s_scope e)].

Lemma pack_elems_ok l : forall nleft,
  size_of l - 8 - 16 * Z.of_nat (length l) <= Z.of_nat nleft ->
  exists n, pack_elems l nleft = Ok (flat_map elem_hdr l, flat_map elem_bytes l, n) /\
    Z.of_nat n = Z.of_nat nleft - (size_of l - 8 - 16 * Z.of_nat (length l)).
Proof.
  induction l as [|e l IH]; intros nleft H.
  - exists nleft. split; [reflexivity|]. rewrite size_of_nil. cbn. lia.
  - rewrite size_of_cons in H. unfold elem_size, pksz in H. cbn [length] in H.
    assert (Hge : 0 <= size_of l - 8 - 16 * Z.of_nat (length l)).
    { clear. induction l as [|x l IH]; [rewrite ?size_of_nil; cbn; lia|]. rewrite size_of_cons. unfold elem_size, pksz. cbn [length]. lia. }
    cbn [pack_elems].
    destruct (hiid_pack_ok (s_mask e) nleft) as (b1 & E1 & L1); [lia|]. rewrite E1. cbn [bind].
    destruct (hiid_pack_ok (s_scope e) (nleft - hiid_packSize (s_mask e))) as (b2 & E2 & L2); [lia|].
    rewrite E2. cbn [bind].
    destruct (IH (nleft - hiid_packSize (s_mask e) - hiid_packSize (s_scope e))%nat) as (n & E3 & Hn); [lia|].
    rewrite E3. cbn [bind]. exists n. split.
    + assert (Hb1 : b1 = enc_i32s (s_mask e)).
      { unfold hiid_pack in E1. destruct (Nat.ltb _ _); [discriminate|]. congruence. }
      assert (Hb2 : b2 = enc_i32s (s_scope e)).
      { unfold hiid_pack in E2. destruct (Nat.ltb _ _); [discriminate|]. congruence. }
      subst b1 b2. cbn [flat_map]. unfold elem_bytes, elem_hdr, pksz. now rewrite <- app_assoc.
    + rewrite Hn, size_of_cons. unfold elem_size, pksz. cbn [length]. lia.
Qed.

Lemma sum_hdr l : fold_right Z.add 0 (flat_map elem_hdr l) = size_of l - 8 - 16 * Z.of_nat (length l).
Proof.
  induction l as [|e l IH]; [rewrite ?size_of_nil; cbn; lia|].
  rewrite size_of_cons. cbn [flat_map elem_hdr app fold_right length]. rewrite IH. unfold elem_size. lia.
Qed.

Definition packed (l : list sub) : list Z :=
  enc_u64 (Z.of_nat (length l)) ++ enc_u64s (flat_map elem_hdr l) ++ flat_map elem_bytes l.

Lemma subs_pack_ok s nleft : size_ok s -> s_pksize s <= Z.of_nat nleft ->
  exists n, subs_pack s nleft = Ok (packed (s_list s), s_pksize s, n) /\
            Z.of_nat n = Z.of_nat nleft - s_pksize s.
Proof.
  unfold size_ok. intros Hs Hn. unfold subs_pack.
  assert (Hge : 0 <= size_of (s_list s) - 8 - 16 * Z.of_nat (length (s_list s))).
  { generalize (s_list s). clear. intros l. induction l as [|x l IH]; [rewrite ?size_of_nil; cbn; lia|].
    rewrite size_of_cons. unfold elem_size, pksz. cbn [length]. lia. }
  set (hs := (8 * (1 + 2 * length (s_list s)))%nat).
  assert (Hhs : Z.of_nat hs = 8 + 16 * Z.of_nat (length (s_list s))) by (unfold hs; lia).
  assert (Z.of_nat hs <=? s_pksize s = true) as -> by lia. cbn [negb].
  destruct (Nat.ltb_spec nleft hs); [lia|].
  destruct (pack_elems_ok (s_list s) (nleft - hs)) as (n & E & Hn'); [lia|].
  rewrite E. cbn [bind]. rewrite sum_hdr.
  assert (Z.of_nat hs + (size_of (s_list s) - 8 - 16 * Z.of_nat (length (s_list s))) =? s_pksize s = true) as -> by lia.
  cbn [negb]. exists n. split; [|lia]. do 2 f_equal. f_equal. lia.
Qed.

Lemma elem_hdr_length l : length (flat_map elem_hdr l) = (2 * length l)%nat.
Proof. induction l; cbn; lia. Qed.
Lemma elem_bytes_length l :
  Z.of_nat (length (flat_map elem_bytes l)) = size_of l - 8 - 16 * Z.of_nat (length l).
Proof.
  induction l as [|e l IH]; [rewrite ?size_of_nil; cbn; lia|].
  cbn [flat_map]. rewrite app_length, size_of_cons. cbn [length]. unfold elem_bytes at 1.
  rewrite app_length, !enc_i32s_length. unfold elem_size, pksz, hiid_packSize. lia.
Qed.

Lemma packed_length l : Z.of_nat (length (packed l)) = size_of l.
Proof.
  unfold packed. rewrite !app_length, enc_u64_length, enc_u64s_length, elem_hdr_length.
  pose proof (elem_bytes_length l). lia.
Qed.

(** ** unpack *)
Definition sub_ok (e : sub) : Prop := hiid_ok (s_mask e) /\ hiid_ok (s_scope e).

Lemma hiid_unpack_enc x rest : hiid_ok x ->
  hiid_unpack (enc_i32s x ++ rest) (hiid_packSize x) = Ok x.
Proof.
  intros H. eapply hiid_pack_unpack with (nleft := hiid_packSize x); [exact H|].
  unfold hiid_pack, hiid_packSize. now rewrite Nat.ltb_irrefl.
Qed.

Lemma unpack_elems_ok : forall l sz chk hrest drest,
  Forall sub_ok l -> 0 <= chk ->
  chk + (size_of l - 8 - 16 * Z.of_nat (length l)) <= sz -> sz < 2 ^ 62 ->
  unpack_elems (length l) sz chk (enc_u64s (flat_map elem_hdr l) ++ hrest) (flat_map elem_bytes l ++ drest) =
  Ok (l, chk + (size_of l - 8 - 16 * Z.of_nat (length l))).
Proof.
  assert (Hge : forall l, 0 <= size_of l - 8 - 16 * Z.of_nat (length l)).
  { clear. intros l. induction l as [|x l IH]; [rewrite ?size_of_nil; cbn; lia|]. rewrite size_of_cons. unfold elem_size, pksz. cbn [length]. lia. }
  induction l as [|e l IH]; intros sz chk hrest drest Hok Hc Hsz Hlim.
  - cbn [unpack_elems length]. do 2 f_equal. rewrite size_of_nil. cbn. lia.
  - inversion Hok as [|? ? [Hm Hs] Hok']; subst.
    specialize (Hge l). rewrite size_of_cons in *. cbn [length] in *.
    assert (Hes : elem_size e = pksz (s_mask e) + pksz (s_scope e) + 16) by reflexivity.
    assert (Hp1 : 0 <= pksz (s_mask e)) by (unfold pksz; lia).
    assert (Hp2 : 0 <= pksz (s_scope e)) by (unfold pksz; lia).
    assert (H62 : 2 ^ 62 < 2 ^ 64) by reflexivity.
    assert (H63 : 2 ^ 62 < 2 ^ 63) by reflexivity.
    assert (Hup : forall x rest, hiid_ok x -> hiid_unpack (enc_i32s x ++ rest) (Z.to_nat (pksz x)) = Ok x).
    { intros x rest Hx. unfold pksz. rewrite Nat2Z.id. now apply hiid_unpack_enc. }
    cbn [unpack_elems flat_map elem_hdr app].
    rewrite !enc_u64s_cons, <- !app_assoc.
    rewrite firstn_app_len by apply enc_u64_length.
    rewrite skipn_app_len by apply enc_u64_length.
    rewrite firstn_app_len by apply enc_u64_length.
    rewrite !dec_enc_u64 by (unfold u64_ok; lia).
    rewrite Z.mod_small by lia.
    destruct (Z.ltb_spec sz (chk + (pksz (s_mask e) + pksz (s_scope e)))); [lia|].
    assert (Hmod : forall x, pksz x mod 4 =? 0 = true).
    { intros x. unfold pksz, hiid_packSize. rewrite Nat2Z.inj_mul, Z.mul_comm, Z.mod_mul by lia. reflexivity. }
    rewrite !Hmod. cbn [negb].
    assert (Heb : elem_bytes e ++ flat_map elem_bytes l ++ drest =
                  enc_i32s (s_mask e) ++ enc_i32s (s_scope e) ++ flat_map elem_bytes l ++ drest)
      by (unfold elem_bytes at 1; now rewrite <- app_assoc).
    rewrite Heb.
    destruct (Z.leb_spec (2 ^ 63) (pksz (s_mask e))); [lia|].
    assert (HL : forall x y : list Z, Z.of_nat (length (x ++ y)) = Z.of_nat (length x) + Z.of_nat (length y))
      by (intros; rewrite app_length; lia).
    assert (HP : forall x, Z.of_nat (length (enc_i32s x)) = pksz x)
      by (intros; rewrite enc_i32s_length; reflexivity).
    destruct (Z.ltb_spec (Z.of_nat (length (enc_i32s (s_mask e) ++ enc_i32s (s_scope e) ++ flat_map elem_bytes l ++ drest))) (pksz (s_mask e)))
      as [Hlt|_]; [rewrite HL, HP in Hlt; lia|].
    rewrite Hup by exact Hm. cbn [bind].
    assert (Hsk : forall x rest, skipn (Z.to_nat (pksz x)) (enc_i32s x ++ rest) = rest).
    { intros x rest. apply skipn_app_len. rewrite enc_i32s_length. unfold pksz. now rewrite Nat2Z.id. }
    rewrite Hsk.
    destruct (Z.leb_spec (2 ^ 63) (pksz (s_scope e))); [lia|].
    destruct (Z.ltb_spec (Z.of_nat (length (enc_i32s (s_scope e) ++ flat_map elem_bytes l ++ drest))) (pksz (s_scope e)))
      as [Hlt|_]; [rewrite HL, HP in Hlt; lia|].
    rewrite Hup by exact Hs. cbn [bind]. rewrite Hsk.
    assert (Hsk16 : skipn 16 (enc_u64 (pksz (s_mask e)) ++ enc_u64 (pksz (s_scope e)) ++ enc_u64s (flat_map elem_hdr l) ++ hrest)
                    = enc_u64s (flat_map elem_hdr l) ++ hrest).
    { rewrite app_assoc. apply skipn_app_len. rewrite app_length, !enc_u64_length. reflexivity. }
    rewrite Hsk16, IH by (auto; lia). cbn [bind].
    replace {| s_mask := s_mask e; s_scope := s_scope e |} with e by now destruct e.
    do 2 f_equal. lia.
Qed.

Lemma subs_unpack_packed s : size_ok s -> Forall sub_ok (s_list s) ->
  s_pksize s < 2 ^ 30 -> subs_unpack (packed (s_list s)) = Ok s.
Proof.
  unfold size_ok. intros Hs Hok Hlim.
  assert (Hlen : 8 + 16 * Z.of_nat (length (s_list s)) <= size_of (s_list s)).
  { generalize (s_list s). clear. intros l. induction l as [|x l IH]; [rewrite ?size_of_nil; cbn; lia|].
    rewrite size_of_cons. unfold elem_size, pksz. cbn [length]. lia. }
  unfold subs_unpack. rewrite packed_length, <- Hs.
  assert (H30 : 2 ^ 30 = 1073741824) by reflexivity. rewrite H30 in Hlim.
  destruct (Z.ltb_spec (s_pksize s) 8); [lia|].
  assert (H64 : 2 ^ 64 = 18446744073709551616) by reflexivity.
  assert (Hts : to_signed 4 (dec_u64 (firstn 8 (packed (s_list s))) mod 2 ^ 32) = Z.of_nat (length (s_list s))).
  { unfold packed. rewrite firstn_app_len by apply enc_u64_length.
    rewrite dec_enc_u64 by (unfold u64_ok; rewrite H64; lia).
    change (2 ^ 32) with 4294967296. rewrite Z.mod_small by lia.
    unfold to_signed. change (2 ^ (8 * Z.of_nat 4 - 1)) with 2147483648.
    destruct (Z.ltb_spec (Z.of_nat (length (s_list s))) 2147483648); [reflexivity|lia]. }
  rewrite Hts.
  assert (H31 : 2 ^ 31 = 2147483648) by reflexivity.
  assert (i32_ok (1 + 2 * Z.of_nat (length (s_list s))) = true) as ->
    by (unfold i32_ok; rewrite H31; lia).
  cbn [negb]. rewrite H64, Z.mod_small by lia.
  destruct (Z.ltb_spec (s_pksize s) (8 * (1 + 2 * Z.of_nat (length (s_list s))))); [lia|].
  rewrite Nat2Z.id.
  assert (Hsk : skipn (Z.to_nat (8 * (1 + 2 * Z.of_nat (length (s_list s))))) (packed (s_list s))
                = flat_map elem_bytes (s_list s)).
  { unfold packed. rewrite app_assoc. apply skipn_app_len.
    rewrite app_length, enc_u64_length, enc_u64s_length, elem_hdr_length. lia. }
  assert (Hsk8 : skipn 8 (packed (s_list s)) = enc_u64s (flat_map elem_hdr (s_list s)) ++ flat_map elem_bytes (s_list s)).
  { unfold packed. apply skipn_app_len, enc_u64_length. }
  rewrite Hsk, Hsk8. rewrite <- (app_nil_r (flat_map elem_bytes (s_list s))) at 2.
  rewrite unpack_elems_ok; [|exact Hok|lia|lia|change (2^62) with 4611686018427387904; lia].
  cbn [bind].
  assert (s_pksize s =? 8 * (1 + 2 * Z.of_nat (length (s_list s))) +
    (size_of (s_list s) - 8 - 16 * Z.of_nat (length (s_list s))) = true) as -> by lia.
  cbn [negb]. now destruct s.
Qed.

(** a corrupt block can make unpack read past its end *)
Definition evil_block : list Z :=
  enc_u64 1 ++ enc_u64 1000 ++ enc_u64 (2 ^ 64 - 992) ++ le_bytes 8 0.
Lemma subs_unpack_unsafe : subs_unpack evil_block = UB.
Proof. vm_compute. reflexivity. Qed.
Lemma subs_unpack_unsafe_ex :
  exists block, Forall (fun b => byte_ok b = true) block /\ subs_unpack block = UB.
Proof.
  exists evil_block. split; [|exact subs_unpack_unsafe].
  unfold evil_block. repeat (apply Forall_app; split); apply le_bytes_byte.
Qed.
