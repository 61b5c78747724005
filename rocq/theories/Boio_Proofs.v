From Verif Require Import Base Bytes_Model Bytes_Proofs Ser_Model Ser_Spec Ser_Proofs Boio_Model Boio_Spec.
Local Open Scope Z_scope.

Definition sizes_of (bs : list (list Z)) : list Z := map (fun b => Z.of_nat (length b)) bs.

Lemma fread_exact a b eof : a <> [] -> fread (length a) (a ++ b) eof = (true, a, b, eof).
Proof.
  intros N. unfold fread. destruct (Nat.eqb_spec (length a) 0); [destruct a; [contradiction|discriminate]|].
  destruct (Nat.leb_spec (length a) (length (a ++ b))); [|rewrite app_length in *; lia].
  rewrite firstn_app, firstn_all, skipn_app, skipn_all, Nat.sub_diag. cbn. now rewrite app_nil_r.
Qed.
Lemma fread_short n rem eof : (length rem < n)%nat -> fread n rem eof = (false, rem, [], true).
Proof. intros H. unfold fread. destruct (Nat.eqb_spec n 0); [lia|]. destruct (Nat.leb_spec n (length rem)); [lia|reflexivity]. Qed.
Lemma fread_zero rem eof : fread 0 rem eof = (false, [], rem, eof).
Proof. reflexivity. Qed.

Lemma enc_hdr_length t n : length (enc_hdr t n) = 8%nat.
Proof. unfold enc_hdr. rewrite app_length, !enc_i32_length. reflexivity. Qed.
Lemma hdr_tid_enc t n : i32_ok t = true -> hdr_tid (enc_hdr t n) = t.
Proof. intros H. unfold hdr_tid, enc_hdr. rewrite <- (enc_i32_length t) at 1. rewrite firstn_app, firstn_all, Nat.sub_diag. cbn [firstn]. rewrite app_nil_r. now apply dec_enc_i32. Qed.
Lemma hdr_n_enc t n : Z.of_nat n < 2 ^ 31 -> hdr_n (enc_hdr t n) = Z.of_nat n.
Proof.
  intros H. unfold hdr_n, enc_hdr. rewrite <- (enc_i32_length t) at 2. rewrite skipn_app, skipn_all, Nat.sub_diag. cbn [skipn app].
  rewrite <- (enc_i32_length (Z.of_nat n)) at 1. rewrite firstn_all. apply dec_enc_i32. unfold i32_ok. lia.
Qed.

(** reading a whole header *)
Lemma nextType_ok r t n R : rd_have r = false -> rd_eof r = false -> rd_rem r = enc_hdr t n ++ R -> i32_ok t = true -> length (rd_hdr r) = 8%nat ->
  boio_nextType r = (t, {| rd_file := rd_file r; rd_rem := R; rd_eof := false; rd_have := true; rd_hdr := enc_hdr t n |}).
Proof.
  intros H1 H2 H3 Ht Hl. unfold boio_nextType. rewrite H1, H2, H3. rewrite <- (enc_hdr_length t n) at 1. rewrite fread_exact by (intros E; apply (f_equal (@length Z)) in E; rewrite enc_hdr_length in E; discriminate).
  rewrite enc_hdr_length. rewrite skipn_all2 by (rewrite app_length, skipn_length, Hl; cbn; lia). rewrite app_nil_r, hdr_tid_enc by exact Ht. reflexivity.
Qed.

Lemma read_blocks_ok bs : forall R eof, Forall (fun b => b <> []) bs ->
  read_blocks (sizes_of bs) (concat bs ++ R) eof = (Some bs, R, eof).
Proof.
  induction bs as [|b bs IH]; intros R eof H; [reflexivity|]. inversion_clear H as [|? ? Hb Hbs]. cbn [sizes_of map read_blocks concat].
  rewrite Nat2Z.id, <- app_assoc, fread_exact by exact Hb. fold (sizes_of bs). rewrite IH by exact Hbs. reflexivity.
Qed.
(** the first empty block stops the writer and the reader at the same place *)
Lemma read_blocks_empty bs : forall R eof, existsb (fun b => Nat.eqb (length b) 0) bs = true ->
  read_blocks (sizes_of bs) (fst (write_blocks bs) ++ R) eof = (None, R, eof) /\ snd (write_blocks bs) = None.
Proof.
  induction bs as [|b bs IH]; intros R eof H; [discriminate|]. cbn [existsb] in H. destruct b as [|x b].
  - cbn [sizes_of map read_blocks write_blocks fst snd length]. cbn. auto.
  - cbn in H. destruct (IH R eof H) as [E1 E2]. cbn [sizes_of map read_blocks write_blocks]. fold (sizes_of bs).
    destruct (write_blocks bs) as [l w]. cbn [fst snd] in *. rewrite Nat2Z.id, <- app_assoc, fread_exact by discriminate. rewrite E1, E2. auto.
Qed.
Lemma write_blocks_ok bs : Forall (fun b => b <> []) bs -> write_blocks bs = (concat bs, Some (length (concat bs))).
Proof.
  induction 1 as [|b bs Hb Hbs IH]; [reflexivity|]. cbn [write_blocks concat]. destruct b; [contradiction|]. rewrite IH, app_length. reflexivity.
Qed.

Lemma solid_iff i : solid i = true <-> snd i <> [] /\ Forall (fun b => b <> []) (snd i).
Proof.
  unfold solid. rewrite andb_true_iff, forallb_forall, Forall_forall. split.
  - intros [A B]. split; [intros E; rewrite E in A; discriminate|]. intros x Hx. specialize (B x Hx). destruct x; [discriminate|discriminate].
  - intros [A B]. split; [destruct (snd i); [contradiction|reflexivity]|]. intros x Hx. specialize (B x Hx). destruct x; [contradiction|reflexivity].
Qed.
Lemma solid_false bs : forallb (fun b => negb (Nat.eqb (length b) 0)) bs = false -> existsb (fun b : list Z => Nat.eqb (length b) 0) bs = true.
Proof. induction bs as [|b bs IH]; [discriminate|]. cbn. destruct (Nat.eqb (length b) 0); auto. Qed.

Lemma sizes_length bs : length (sizes_of bs) = length bs.
Proof. apply map_length. Qed.
Lemma sizes_dec bs : Forall (fun b => Z.of_nat (length b) < 2 ^ 64) bs -> dec_u64s (length bs) (enc_u64s (sizes_of bs)) = sizes_of bs.
Proof.
  induction 1 as [|b bs Hb Hbs IH]; [reflexivity|]. cbn [length dec_u64s sizes_of map]. unfold enc_u64s in *. cbn [flat_map].
  fold (sizes_of bs). set (x := enc_u64 (Z.of_nat (length b))). assert (L : length x = 8%nat) by apply enc_u64_length.
  rewrite <- L at 1 2. rewrite firstn_app, firstn_all, skipn_app, skipn_all, Nat.sub_diag. cbn [firstn skipn app]. rewrite app_nil_r, IH. f_equal.
  apply dec_enc_u64. unfold u64_ok. lia.
Qed.
Lemma enc_u64s_len l : length (enc_u64s l) = (8 * length l)%nat.
Proof. unfold enc_u64s. apply flat_map_length_const. apply enc_u64_length. Qed.

Definition fresh (r : reader) : Prop := rd_have r = false /\ rd_eof r = false /\ length (rd_hdr r) = 8%nat.

Lemma read_item i r R : item_ok i -> fresh r -> rd_rem r = fst (boio_write (fst i) (snd i)) ++ R ->
  exists r', boio_readAny r = (expected i, r') /\ fresh r' /\ rd_rem r' = R.
Proof.
  destruct i as [t bs]. intros (Ht & Ht0 & Hn & Hs) (F1 & F2 & F3) E. cbn [fst snd] in *. unfold boio_write in E. unfold boio_readAny, expected.
  destruct bs as [|b bs].
  - cbn [fst] in E. rewrite (nextType_ok r t 0 R F1 F2 E Ht F3). destruct (Z.eqb_spec t 0); [contradiction|]. cbn [rd_hdr rd_rem rd_eof rd_file].
    rewrite hdr_n_enc by (cbn; lia). cbn. eexists. split; [reflexivity|]. cbn. split; [|reflexivity]. repeat split.
  - remember (b :: bs) as l. assert (Nl : l <> []) by (subst; discriminate). clear b bs Heql.
    assert (E' : rd_rem r = enc_hdr t (length l) ++ (enc_u64s (sizes_of l) ++ fst (write_blocks l) ++ R)).
    { rewrite E. destruct l; [contradiction|]. unfold sizes_of. destruct (write_blocks (l :: l0)) as [w o]. cbn [fst]. now rewrite <- !app_assoc. }
    clear E. rewrite (nextType_ok r t (length l) _ F1 F2 E' Ht F3). destruct (Z.eqb_spec t 0); [contradiction|]. cbn [rd_hdr rd_rem rd_eof rd_file].
    rewrite hdr_n_enc by exact Hn. destruct (Z.ltb_spec (Z.of_nat (length l)) 0); [lia|]. rewrite Nat2Z.id.
    assert (L8 : (8 * length l)%nat = length (enc_u64s (sizes_of l))) by (rewrite enc_u64s_len, sizes_length; reflexivity).
    rewrite L8, fread_exact.
    2:{ intros X. apply (f_equal (@length Z)) in X. rewrite <- L8 in X. destruct l; [contradiction|]. cbn in X. lia. }
    cbn [negb]. rewrite sizes_dec by exact Hs. unfold solid. cbn [snd].
    destruct (Nat.eqb_spec (length l) 0); [destruct l; [contradiction|discriminate]|]. cbn [negb andb].
    destruct (forallb (fun b => negb (Nat.eqb (length b) 0)) l) eqn:Ef.
    + assert (F : Forall (fun b => b <> []) l).
      { apply (solid_iff (t, l)). unfold solid. cbn [snd]. rewrite Ef. destruct (Nat.eqb_spec (length l) 0); [contradiction|reflexivity]. }
      rewrite (write_blocks_ok l F). cbn [fst]. rewrite read_blocks_ok by exact F. eexists. split; [reflexivity|]. split; [|reflexivity].
      unfold fresh. cbn [rd_have rd_eof rd_hdr]. rewrite enc_hdr_length. auto.
    + apply solid_false in Ef. destruct (read_blocks_empty l R false Ef) as [E2 _]. rewrite E2. eexists. split; [reflexivity|]. split; [|reflexivity].
      unfold fresh. cbn [rd_have rd_eof rd_hdr]. rewrite enc_hdr_length. auto.
Qed.

(** at the end of the file nothing can be read any more *)
Lemma hdr_zero (h : list Z) : length h = 8%nat -> length ([0;0;0;0] ++ skipn 4 h) = 8%nat.
Proof. intros H. rewrite app_length, skipn_length, H. reflexivity. Qed.
Definition dead (r : reader) : Prop := rd_rem r = [] /\ rd_eof r = true /\ length (rd_hdr r) = 8%nat.
Definition quiet (r : reader) : Prop := dead r /\ (rd_have r = false \/ hdr_tid (rd_hdr r) = 0).
Lemma read_dead r : dead r -> exists o r', boio_readAny r = (o, r') /\ is_obj o = false /\ dead r'.
Proof.
  intros (D1 & D2 & D3). unfold boio_readAny, boio_nextType. rewrite D2. destruct (rd_have r).
  - destruct (Z.eqb_spec (hdr_tid (rd_hdr r)) 0); [eexists _, _; split; [reflexivity|]; split; [reflexivity|]; repeat split; auto|].
    destruct (Z.ltb_spec (hdr_n (rd_hdr r)) 0); [eexists _, _; split; [reflexivity|]; split; [reflexivity|]; repeat split; auto|].
    rewrite D1, D2. unfold fread. destruct (Nat.eqb (8 * Z.to_nat (hdr_n (rd_hdr r))) 0) eqn:E.
    + eexists _, _. split; [reflexivity|]. split; [reflexivity|]. repeat split; auto.
    + apply Nat.eqb_neq in E. cbn [length]. destruct (Nat.leb_spec (8 * Z.to_nat (hdr_n (rd_hdr r))) 0); [lia|].
      eexists _, _. split; [reflexivity|]. split; [reflexivity|]. repeat split; auto.
  - eexists _, _. split; [cbn -[skipn app]; reflexivity|]. split; [reflexivity|]. repeat split; auto. now apply hdr_zero.
Qed.
Lemma read_quiet r : quiet r -> exists r', boio_readAny r = (REof, r') /\ quiet r'.
Proof.
  intros ((D1 & D2 & D3) & H). unfold boio_readAny, boio_nextType. rewrite D2. destruct (rd_have r) eqn:Eh.
  - destruct H as [H|H]; [discriminate|]. rewrite H. cbn. eexists. split; [reflexivity|]. split; [repeat split; auto|auto].
  - eexists. split; [cbn -[skipn app]; reflexivity|]. split; [|right; reflexivity]. repeat split; auto. now apply hdr_zero.
Qed.
Lemma read_n_dead n : forall r, dead r -> forallb (fun o => negb (is_obj o)) (read_n n r) = true.
Proof.
  induction n as [|n IH]; intros r D; [reflexivity|]. cbn [read_n]. destruct (read_dead r D) as (o & r' & E & O & D'). rewrite E. cbn. rewrite O. cbn. auto.
Qed.
Lemma read_n_quiet n : forall r, quiet r -> read_n n r = repeat REof n.
Proof.
  induction n as [|n IH]; intros r D; [reflexivity|]. cbn [read_n repeat]. destruct (read_quiet r D) as (r' & E & D'). rewrite E. f_equal. auto.
Qed.

Lemma read_end r : fresh r -> rd_rem r = [] -> exists r', boio_readAny r = (REof, r') /\ quiet r'.
Proof.
  intros (F1 & F2 & F3) E. unfold boio_readAny, boio_nextType. rewrite F1, F2, E.
  eexists. split; [cbn -[skipn app]; reflexivity|]. split; [|right; reflexivity]. repeat split. cbn [rd_hdr length skipn]. now apply hdr_zero.
Qed.

Lemma read_all l : forall r n, Forall item_ok l -> fresh r -> rd_rem r = file_of l -> read_n (length l + n) r = map expected l ++ repeat REof n.
Proof.
  induction l as [|i l IH]; intros r n H F E.
  - cbn [length plus map app]. destruct n as [|n]; [reflexivity|]. cbn [read_n repeat]. destruct (read_end r F E) as (r' & E' & Q). rewrite E'. f_equal. now apply read_n_quiet.
  - inversion_clear H as [|? ? Hi Hl]. cbn [length plus read_n map app]. destruct (read_item i r (file_of l) Hi F E) as (r' & E' & F' & R'). rewrite E'. f_equal. now apply IH.
Qed.

(** a cut inside an item *)
Lemma read_blocks_short bs : forall k eof, Forall (fun b => b <> []) bs -> (k < length (concat bs))%nat ->
  read_blocks (sizes_of bs) (firstn k (concat bs)) eof = (None, [], true).
Proof.
  induction bs as [|b bs IH]; intros k eof H Hk; [cbn in Hk; lia|]. inversion_clear H as [|? ? Hb Hbs]. cbn [sizes_of map read_blocks concat] in *. rewrite Nat2Z.id, app_length in *.
  rewrite firstn_app. destruct (Nat.ltb_spec k (length b)) as [L|L].
  - replace (k - length b)%nat with 0%nat by lia. cbn [firstn]. rewrite app_nil_r, fread_short; [reflexivity|]. rewrite firstn_length. lia.
  - rewrite firstn_all2 by exact L. rewrite fread_exact by exact Hb. fold (sizes_of bs). rewrite IH; [reflexivity|exact Hbs|lia].
Qed.
Lemma read_cut i r k : item_ok i -> solid i = true -> fresh r -> (k < length (fst (boio_write (fst i) (snd i))))%nat ->
  rd_rem r = firstn k (fst (boio_write (fst i) (snd i))) ->
  exists o r', boio_readAny r = (o, r') /\ (o = REof \/ o = RThrow) /\ dead r'.
Proof.
  destruct i as [t l]. intros (Ht & Ht0 & Hn & Hs) So (F1 & F2 & F3) Hk E. cbn [fst snd] in *.
  apply solid_iff in So as [Nl F]. cbn [snd] in *.
  assert (EW : fst (boio_write t l) = enc_hdr t (length l) ++ (enc_u64s (sizes_of l) ++ concat l)).
  { unfold boio_write. rewrite (write_blocks_ok l F). destruct l; [contradiction|]. reflexivity. }
  rewrite EW in *. clear EW.
  destruct (Nat.ltb_spec k 8) as [L|L].
  - (* header cut *) unfold boio_readAny, boio_nextType. rewrite F1, F2, E.
    rewrite fread_short by (rewrite firstn_length; lia).
    cbn [Z.eqb]. eexists _, _. split; [reflexivity|]. split; [now left|]. repeat split. cbn [rd_hdr].
    set (g := firstn k _). assert (Lg : (length g <= k)%nat) by (unfold g; apply firstn_le_length).
    rewrite app_length, skipn_length, app_length, skipn_length, F3. cbn [length]. lia.
  - rewrite firstn_app, enc_hdr_length, (firstn_all2 (enc_hdr t (length l))) in E by (rewrite enc_hdr_length; exact L).
    unfold boio_readAny. rewrite (nextType_ok r t (length l) _ F1 F2 E Ht F3). destruct (Z.eqb_spec t 0); [contradiction|]. cbn [rd_hdr rd_rem rd_eof rd_file].
    rewrite hdr_n_enc by exact Hn. destruct (Z.ltb_spec (Z.of_nat (length l)) 0); [lia|]. rewrite Nat2Z.id.
    assert (L8 : (8 * length l)%nat = length (enc_u64s (sizes_of l))) by (rewrite enc_u64s_len, sizes_length; reflexivity).
    rewrite !app_length, enc_hdr_length in Hk.
    destruct (Nat.ltb_spec (k - 8) (8 * length l)) as [L2|L2].
    + rewrite fread_short by (rewrite firstn_length; lia). cbn [negb]. eexists _, _. split; [reflexivity|]. split; [now right|]. repeat split.
    + rewrite firstn_app, (firstn_all2 (enc_u64s (sizes_of l))) by lia. rewrite L8, fread_exact.
      2:{ intros X. apply (f_equal (@length Z)) in X. rewrite <- L8 in X. destruct l; [contradiction|]. cbn in X. lia. }
      cbn [negb]. rewrite sizes_dec by exact Hs. rewrite read_blocks_short by (auto; lia).
      eexists _, _. split; [reflexivity|]. split; [now right|]. repeat split.
Qed.

Lemma file_cons i l : file_of (i :: l) = fst (boio_write (fst i) (snd i)) ++ file_of l.
Proof. reflexivity. Qed.
Lemma read_truncated l : forall r cut n, Forall item_ok l -> Forall (fun i => solid i = true) l -> fresh r -> rd_rem r = firstn cut (file_of l) ->
  exists k tail, read_n n r = map expected (firstn k l) ++ tail /\ (k <= length l)%nat /\ forallb (fun o => negb (is_obj o)) tail = true /\
    (length (file_of (firstn k l)) <= cut)%nat /\
    ((k < n)%nat -> exists o tl, tail = o :: tl /\ (o = REof \/ o = RThrow)) /\ ((length l < n)%nat -> (length (file_of l) <= cut)%nat -> k = length l).
Proof.
  induction l as [|i l IH]; intros r cut n H HS F E.
  - exists 0%nat, (repeat REof n). assert (R : rd_rem r = file_of []) by (rewrite E; now destruct cut).
    pose proof (read_all [] r n H F R) as RA. cbn in RA. cbn [firstn map app]. split; [exact RA|]. split; [lia|]. split; [clear; induction n; auto|].
    split; [cbn; lia|]. split; [|auto]. intros Hn. destruct n; [lia|]. exists REof, (repeat REof n). auto.
  - destruct n as [|n].
    { exists 0%nat, []. cbn. repeat split; auto; lia. }
    inversion_clear H as [|? ? Hi Hl]. inversion_clear HS as [|? ? Si Sl]. rewrite file_cons in *. set (w := fst (boio_write (fst i) (snd i))) in *.
    cbn [read_n]. destruct (Nat.ltb_spec cut (length w)) as [Lc|Lc].
    + rewrite firstn_app in E. replace (cut - length w)%nat with 0%nat in E by lia. cbn [firstn] in E. rewrite app_nil_r in E.
      destruct (read_cut i r cut Hi Si F Lc E) as (o & r' & E' & O & D). rewrite E'. exists 0%nat, (o :: read_n n r').
      cbn [firstn map app file_of flat_map length]. split; [reflexivity|]. split; [lia|]. split.
      * cbn. rewrite (read_n_dead n r' D). destruct O as [-> | ->]; reflexivity.
      * split; [lia|]. split; [eauto|]. intros _ X. rewrite app_length in X. lia.
    + rewrite firstn_app, firstn_all2 in E by exact Lc.
      destruct (read_item i r _ Hi F E) as (r' & E' & F' & R'). rewrite E'.
      destruct (IH r' (cut - length w)%nat n Hl Sl F' R') as (k & tail & E2 & K & T & C & X & Y).
      exists (S k), tail. cbn [firstn map app length]. split; [now rewrite E2|]. split; [lia|]. split; [exact T|]. rewrite file_cons. fold w. rewrite app_length.
      split; [lia|]. split; [intros; apply X; lia|]. intros A B. f_equal. apply Y; [lia|]. rewrite app_length in B. lia.
Qed.

(** every block of an object without parts still in blocks starts with a header *)
Lemma toBlock_nonempty o : plain o -> Forall (fun b => b <> []) (toBlock o).
Proof.
  assert (Hd : forall t n x, hdr t n ++ x <> []) by (intros t n x E; apply (f_equal (@length Z)) in E; unfold hdr in E; rewrite !app_length, enc_i32_length in E; cbn in E; lia).
  pattern o. revert o. apply obj_ind'; cbn [plain toBlock]; try (intros; repeat constructor; apply Hd).
  - intros bs [].
  - intros t ty sc es IH H. apply fold_and_Forall in H. constructor; [apply Hd|]. apply Forall_concat, Forall_map.
    rewrite Forall_forall in *. intros x Hx. now apply IH; [|apply H].
  - intros t fs IH H. apply (fold_and_Forall (fun f => plain (snd f))) in H. constructor; [apply Hd|]. apply Forall_concat, Forall_map.
    rewrite Forall_forall in *. intros x Hx. now apply IH; [|apply H].
  - intros t es IH H. apply fold_and_Forall in H. constructor; [apply Hd|]. apply Forall_concat, Forall_map.
    rewrite Forall_forall in *. intros x Hx. now apply IH; [|apply H].
Qed.
