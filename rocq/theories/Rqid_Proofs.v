From Verif Require Import Base Hiid_Model Hiid_Proofs Rqid_Model Rqid_Spec.
Local Open Scope Z_scope.

Lemma bit_on_pow mask i : 0 <= i -> bit_on mask (2 ^ i) = Z.testbit mask i.
Proof.
  intros Hi. unfold bit_on.
  assert (E : Z.land mask (2 ^ i) = if Z.testbit mask i then 2 ^ i else 0).
  { apply Z.bits_inj'. intros n Hn. rewrite Z.land_spec, Z.pow2_bits_eqb by lia.
    destruct (Z.eqb_spec i n) as [->|Hne].
    - destruct (Z.testbit mask n); cbn; [rewrite Z.pow2_bits_eqb by lia; now rewrite Z.eqb_refl | now rewrite Z.bits_0].
    - rewrite andb_false_r. destruct (Z.testbit mask i); [|now rewrite Z.bits_0].
      rewrite Z.pow2_bits_eqb by lia. symmetry. now apply Z.eqb_neq. }
  rewrite E. assert (0 < 2 ^ i) by (apply Z.pow_pos_nonneg; lia).
  destruct (Z.testbit mask i); [|reflexivity].
  destruct (2 ^ i =? 0) eqn:E0; [lia|reflexivity].
Qed.

Lemma pow2_S k : 2 * 2 ^ Z.of_nat k = 2 ^ Z.of_nat (S k).
Proof. rewrite Nat2Z.inj_succ, Z.pow_succ_r by lia. reflexivity. Qed.

Lemma nth_tl id i : nth i (tl id) 0 = nth (S i) id 0.
Proof. destruct id; cbn; [now destruct i|reflexivity]. Qed.

Lemma next_ix_nth id : next_ix id = nth 0 id 0.
Proof. now destruct id. Qed.

(** ** loops as position-wise maps *)
Lemma mask_loop_nth n k mask id i :
  nth i (mask_loop n (2 ^ Z.of_nat k) mask id) 0 =
  if Nat.ltb i n && negb (Z.testbit mask (Z.of_nat (k + i))) then 0 else nth i id 0.
Proof.
  revert k id i; induction n as [|n IH]; intros k id i.
  - cbn. reflexivity.
  - destruct id as [|x id]; [cbn; destruct i; now destruct (_ && _)|].
    cbn [mask_loop]. rewrite pow2_S. destruct i as [|i].
    + cbn [nth]. rewrite bit_on_pow by lia. rewrite Nat.add_0_r. cbn.
      now destruct (Z.testbit mask _).
    + cbn [nth]. rewrite IH. replace (S k + i)%nat with (k + S i)%nat by lia. reflexivity.
Qed.
Lemma mask_loop_length n m1 mask id : length (mask_loop n m1 mask id) = length id.
Proof. revert m1 id; induction n; intros m1 [|x id]; cbn; auto. Qed.

Lemma incr_loop_nth n k mask id i : (i < length id)%nat ->
  nth i (incr_loop n (2 ^ Z.of_nat k) mask id) 0 =
  nth i id 0 + (if Nat.ltb i n && Z.testbit mask (Z.of_nat (k + i)) then 1 else 0).
Proof.
  revert k id i; induction n as [|n IH]; intros k id i Hi.
  - cbn. lia.
  - destruct id as [|x id]; [cbn in Hi; lia|].
    cbn [incr_loop]. rewrite pow2_S. destruct i as [|i].
    + cbn [nth]. rewrite bit_on_pow by lia. rewrite Nat.add_0_r. cbn [Nat.ltb Nat.leb andb].
      destruct (Z.testbit mask _); lia.
    + cbn [nth]. cbn in Hi. rewrite IH by lia. replace (S k + i)%nat with (k + S i)%nat by lia. reflexivity.
Qed.
Lemma incr_loop_length n m1 mask id : length (incr_loop n m1 mask id) = length id.
Proof. revert m1 id; induction n; intros m1 [|x id]; cbn; auto. Qed.

Lemma set_loop_nth n k mask v id i : (i < length id)%nat ->
  nth i (set_loop n (2 ^ Z.of_nat k) mask v id) 0 =
  (if Nat.ltb i n && Z.testbit mask (Z.of_nat (k + i)) then v else nth i id 0).
Proof.
  revert k id i; induction n as [|n IH]; intros k id i Hi.
  - reflexivity.
  - destruct id as [|x id]; [cbn in Hi; lia|].
    cbn [set_loop]. rewrite pow2_S. destruct i as [|i].
    + cbn [nth]. rewrite bit_on_pow by lia. rewrite Nat.add_0_r. cbn [Nat.ltb Nat.leb andb].
      destruct (Z.testbit mask _); lia.
    + cbn [nth]. cbn in Hi. rewrite IH by lia. replace (S k + i)%nat with (k + S i)%nat by lia. reflexivity.
Qed.
Lemma set_loop_length n m1 mask v id : length (set_loop n m1 mask v id) = length id.
Proof. revert m1 id; induction n; intros m1 [|x id]; cbn; auto. Qed.

Lemma cmp_loop_iff n k mask a b :
  cmp_loop n (2 ^ Z.of_nat k) mask a b = true <->
  (forall i, (i < n)%nat -> Z.testbit mask (Z.of_nat (k + i)) = true -> nth i a 0 = nth i b 0).
Proof.
  revert k a b; induction n as [|n IH]; intros k a b.
  - cbn. split; [lia|reflexivity].
  - assert (Hstep :
      (if bit_on mask (2 ^ Z.of_nat k) && negb (next_ix a =? next_ix b) then false
       else cmp_loop n (2 * 2 ^ Z.of_nat k) mask (tl a) (tl b)) = true <->
      (forall i, (i < S n)%nat -> Z.testbit mask (Z.of_nat (k + i)) = true -> nth i a 0 = nth i b 0)).
    { rewrite pow2_S, bit_on_pow, !next_ix_nth by lia. split.
      - intros H i Hi Hb. destruct (_ && _) eqn:E; [discriminate|].
        destruct i as [|i].
        + rewrite Nat.add_0_r in Hb. rewrite Hb in E. cbn in E. lia.
        + rewrite <- !nth_tl. rewrite IH in H. apply H; [lia|].
          replace (S k + i)%nat with (k + S i)%nat by lia. exact Hb.
      - intros H. destruct (_ && _) eqn:E.
        + exfalso. apply andb_true_iff in E. destruct E as [Eb Ee].
          specialize (H 0%nat ltac:(lia)). rewrite Nat.add_0_r in H. rewrite H in Ee by exact Eb. lia.
        + apply IH. intros i Hi Hb. rewrite !nth_tl. apply H; [lia|].
          replace (k + S i)%nat with (S k + i)%nat by lia. exact Hb. }
    cbn [cmp_loop]. destruct a as [|x a], b as [|y b]; try exact Hstep.
    split; [|reflexivity]. intros _ i _ _. now destruct i.
Qed.

Lemma diff_loop_testbit n k mask a b j :
  0 <= j ->
  Z.testbit (diff_loop n (2 ^ Z.of_nat k) mask a b) j =
  Z.testbit mask j ||
  ((Z.of_nat k <=? j) && (j <? Z.of_nat (k + n)) &&
   negb (nth (Z.to_nat j - k) a 0 =? nth (Z.to_nat j - k) b 0)).
Proof.
  intros Hj. revert k mask a b; induction n as [|n IH]; intros k mask a b.
  - cbn [diff_loop]. destruct (_ <=? j) eqn:E1, (j <? _) eqn:E2; cbn; try lia; now rewrite orb_false_r.
  - assert (Hstep :
      Z.testbit (diff_loop n (2 * 2 ^ Z.of_nat k)
        (if negb (next_ix a =? next_ix b) then Z.lor mask (2 ^ Z.of_nat k) else mask) (tl a) (tl b)) j =
      Z.testbit mask j ||
      ((Z.of_nat k <=? j) && (j <? Z.of_nat (k + S n)) &&
       negb (nth (Z.to_nat j - k) a 0 =? nth (Z.to_nat j - k) b 0))).
    { rewrite pow2_S, IH, !next_ix_nth, !nth_tl.
      destruct (Z.eq_dec j (Z.of_nat k)) as [->|Hne].
      - rewrite Nat2Z.id, Nat.sub_diag.
        replace (Z.of_nat (S k) <=? Z.of_nat k) with false by lia.
        replace (Z.of_nat k <=? Z.of_nat k) with true by lia.
        replace (Z.of_nat k <? Z.of_nat (k + S n)) with true by lia.
        cbn [andb]. rewrite orb_false_r.
        destruct (negb _); [|now rewrite orb_false_r].
        rewrite Z.lor_spec, Z.pow2_bits_true by lia. reflexivity.
      - assert (Hm : Z.testbit (if negb (nth 0 a 0 =? nth 0 b 0) then Z.lor mask (2 ^ Z.of_nat k) else mask) j
                     = Z.testbit mask j).
        { destruct (negb _); [|reflexivity].
          rewrite Z.lor_spec, Z.pow2_bits_false by lia. apply orb_false_r. }
        rewrite Hm. f_equal.
        destruct (Z_lt_dec j (Z.of_nat k)) as [Hlt|Hge].
        + replace (Z.of_nat (S k) <=? j) with false by lia.
          replace (Z.of_nat k <=? j) with false by lia. reflexivity.
        + replace (Z.of_nat (S k) <=? j) with true by lia.
          replace (Z.of_nat k <=? j) with true by lia.
          replace (S k + n)%nat with (k + S n)%nat by lia.
          replace (S (Z.to_nat j - S k)) with (Z.to_nat j - k)%nat by lia. reflexivity. }
    cbn [diff_loop]. destruct a as [|x a], b as [|y b]; try exact Hstep.
    replace (nth (Z.to_nat j - k) [] 0) with 0 by now destruct (Z.to_nat j - k)%nat.
    rewrite Z.eqb_refl. cbn. now rewrite andb_false_r, orb_false_r.
Qed.

(** ** maskedCompare / diffMask *)
Lemma maskedCompare_iff a b mask :
  maskedCompare a b mask = true <->
  mask = 0 \/ (a <> [] /\ b <> [] /\ agree_under mask a b).
Proof.
  unfold maskedCompare, agree_under, selected, at_pos.
  destruct (Z.eqb_spec mask 0) as [->|Hm]; [split; auto|].
  destruct a as [|x a]; [split; [discriminate|intros [H|(H & _)]; congruence]|].
  destruct b as [|y b]; [split; [discriminate|intros [H|(_ & H & _)]; congruence]|].
  change 1 with (2 ^ Z.of_nat 0). rewrite cmp_loop_iff. split.
  - intros H. right. repeat split; try discriminate. intros i Hi.
    apply andb_true_iff in Hi. destruct Hi as [Hi Hb]. apply H; [|exact Hb].
    apply Nat.ltb_lt in Hi. exact Hi.
  - intros [H|(_ & _ & H)]; [congruence|]. intros i Hi Hb. apply H.
    apply andb_true_iff; split; [now apply Nat.ltb_lt|exact Hb].
Qed.

Lemma diffMask_testbit a b i :
  Z.testbit (diffMask a b) (Z.of_nat i) = (Nat.ltb i 16) && negb (at_pos a i =? at_pos b i).
Proof.
  unfold diffMask, at_pos. change 1 with (2 ^ Z.of_nat 0).
  rewrite diff_loop_testbit by lia. rewrite Z.bits_0, Nat2Z.id, Nat.sub_0_r. cbn [orb].
  change (Z.of_nat 0) with 0. unfold RQIDM_NBITS.
  replace (0 <=? Z.of_nat i) with true by lia. cbn [andb].
  replace (Z.of_nat i <? Z.of_nat (0 + 16)) with (Nat.ltb i 16) by lia. reflexivity.
Qed.

Lemma diffMask_testbit_neg a b j : j < 0 -> Z.testbit (diffMask a b) j = false.
Proof. intros H. apply Z.testbit_neg_r. exact H. Qed.

Lemma testbit_ext_nat x y :
  (forall i : nat, Z.testbit x (Z.of_nat i) = Z.testbit y (Z.of_nat i)) -> x = y.
Proof. intros H. apply Z.bits_inj'. intros n Hn. rewrite <- (Z2Nat.id n) by lia. apply H. Qed.

Lemma agree_iff_diffMask mask a b :
  agree_under mask a b <-> Z.land (diffMask a b) mask = 0.
Proof.
  unfold agree_under. split.
  - intros H. apply testbit_ext_nat. intros i. rewrite Z.land_spec, diffMask_testbit, Z.bits_0.
    specialize (H i). unfold selected in H.
    destruct (Nat.ltb i 16); [|reflexivity]. cbn [andb] in *.
    destruct (Z.testbit mask (Z.of_nat i)); [|apply andb_false_r].
    rewrite H by reflexivity. now rewrite Z.eqb_refl.
  - intros H i Hs. unfold selected in Hs. apply andb_true_iff in Hs. destruct Hs as [Hi Hb].
    assert (E : Z.testbit (Z.land (diffMask a b) mask) (Z.of_nat i) = false) by now rewrite H, Z.bits_0.
    rewrite Z.land_spec, diffMask_testbit, Hi, Hb in E. cbn in E. lia.
Qed.

Lemma maskedCompare_diffMask a b mask : a <> [] -> b <> [] ->
  (maskedCompare a b mask = true <-> Z.land (diffMask a b) mask = 0).
Proof.
  intros Ha Hb. rewrite maskedCompare_iff, <- agree_iff_diffMask. split.
  - intros [->|(_ & _ & H)]; [|exact H]. intros i Hi. unfold selected in Hi.
    rewrite Z.bits_0, andb_false_r in Hi. discriminate.
  - auto.
Qed.

Lemma agree_equiv mask :
  (forall a, agree_under mask a a) /\
  (forall a b, agree_under mask a b -> agree_under mask b a) /\
  (forall a b c, agree_under mask a b -> agree_under mask b c -> agree_under mask a c).
Proof.
  unfold agree_under. split; [auto|split].
  - intros a b H i Hi. symmetry; auto.
  - intros a b c H1 H2 i Hi. rewrite H1 by exact Hi. auto.
Qed.

Lemma maskedCompare_equiv mask :
  (forall a, a <> [] -> maskedCompare a a mask = true) /\
  (forall a b, maskedCompare a b mask = maskedCompare b a mask) /\
  (forall a b c, maskedCompare a b mask = true -> maskedCompare b c mask = true ->
                 maskedCompare a c mask = true).
Proof.
  destruct (agree_equiv mask) as (R & S & T). split; [|split].
  - intros a Ha. apply maskedCompare_iff. right. auto.
  - intros a b. apply eq_true_iff_eq. rewrite !maskedCompare_iff.
    split; (intros [H|(Ha & Hb & H)]; [auto|right; auto]).
  - intros a b c. rewrite !maskedCompare_iff.
    intros [->|(Ha & Hb & H1)]; [auto|]. intros [->|(Hb' & Hc & H2)]; [auto|].
    right. repeat split; auto. eapply T; eauto.
Qed.

Lemma maskedCompare_mono a b m1 m2 :
  Z.land m1 m2 = m1 -> m2 <> 0 -> maskedCompare a b m2 = true -> maskedCompare a b m1 = true.
Proof.
  intros Hl Hm. rewrite !maskedCompare_iff. intros [->|(Ha & Hb & H)]; [congruence|].
  right. repeat split; auto. intros i Hi. apply H. unfold selected in *.
  apply andb_true_iff in Hi. destruct Hi as [Hi Hbit]. rewrite Hi. cbn.
  rewrite <- Hl, Z.land_spec in Hbit. apply andb_true_iff in Hbit. tauto.
Qed.

(** ** msb *)
Lemma shiftr1_lt m k : 0 < m < 2 ^ Z.of_nat (S k) -> 0 <= Z.shiftr m 1 < 2 ^ Z.of_nat k.
Proof.
  rewrite Z.shiftr_div_pow2 by lia. change (2 ^ 1) with 2. rewrite <- pow2_S. intros H.
  split; [apply Z.div_pos; lia|]. apply Z.div_lt_upper_bound; lia.
Qed.

Lemma msb_loop_ok fuel : forall m acc, 0 <= m < 2 ^ Z.of_nat fuel ->
  exists r, msb_loop fuel m acc = Some (acc + r)%nat /\ (r <= fuel)%nat /\ m < 2 ^ Z.of_nat r.
Proof.
  induction fuel as [|f IH]; intros m acc Hm.
  - change (2 ^ Z.of_nat 0) with 1 in Hm. assert (m = 0) as -> by lia.
    exists 0%nat. cbn. rewrite Nat.add_0_r. repeat split; lia.
  - cbn [msb_loop]. destruct (Z.eqb_spec m 0) as [->|Hne].
    + exists 0%nat. rewrite Nat.add_0_r. repeat split; lia.
    + destruct (IH (Z.shiftr m 1) (S acc)) as (r & E & Hr & Hlt).
      { apply shiftr1_lt. lia. }
      exists (S r). rewrite E. split; [f_equal; lia|]. split; [lia|].
      rewrite <- pow2_S. rewrite Z.shiftr_div_pow2 in Hlt by lia. change (2 ^ 1) with 2 in Hlt.
      pose proof (Z.mul_div_le m 2 ltac:(lia)).
      pose proof (Z.mod_pos_bound m 2 ltac:(lia)). pose proof (Z.div_mod m 2 ltac:(lia)). lia.
Qed.

Lemma msb_loop_neg fuel m acc : m < 0 -> msb_loop fuel m acc = None.
Proof.
  revert m acc; induction fuel as [|f IH]; intros m acc Hm; cbn [msb_loop].
  - destruct (Z.eqb_spec m 0); [lia|reflexivity].
  - destruct (Z.eqb_spec m 0); [lia|]. apply IH. rewrite Z.shiftr_neg. exact Hm.
Qed.

Lemma rq_resize_nth id n i : nth i (rq_resize id n) 0 = nth i id 0.
Proof.
  unfold rq_resize. destruct (Nat.ltb_spec i (length id)).
  - now rewrite app_nth1 by lia.
  - rewrite app_nth2 by lia. rewrite (nth_overflow id) by lia. apply nth_repeat.
Qed.
Lemma rq_resize_length id n : length (rq_resize id n) = Nat.max (length id) n.
Proof. unfold rq_resize. rewrite app_length, repeat_length. lia. Qed.

Lemma resized id msb :
  let id1 := if Nat.ltb (length id) msb then rq_resize id msb else id in
  (forall i, nth i id1 0 = nth i id 0) /\ (msb <= length id1)%nat /\ (length id <= length id1)%nat.
Proof.
  cbv zeta. destruct (Nat.ltb_spec (length id) msb).
  - split; [intros; apply rq_resize_nth|]. rewrite rq_resize_length. lia.
  - auto with arith.
Qed.

Lemma testbit_above m r i : 0 <= m < 2 ^ Z.of_nat r -> (r <= i)%nat -> Z.testbit m (Z.of_nat i) = false.
Proof.
  intros Hm Hi. destruct (Z.eq_dec m 0) as [->|Hne]; [apply Z.bits_0|].
  apply Z.bits_above_log2; [lia|]. apply Z.log2_lt_pow2; [lia|].
  eapply Z.lt_le_trans; [apply Hm|]. apply Z.pow_le_mono_r; lia.
Qed.

Lemma incrSubId_spec fuel id mask : 0 <= mask < 2 ^ Z.of_nat fuel ->
  exists id', incrSubId fuel id mask = Some id' /\
    forall i, at_pos id' i = at_pos id i + (if selected mask i then 1 else 0).
Proof.
  intros Hm. unfold incrSubId, at_pos, selected.
  destruct (Z.eqb_spec mask 0) as [->|Hne].
  - exists id. split; [reflexivity|]. intros i. rewrite Z.bits_0, andb_false_r. lia.
  - destruct (msb_loop_ok fuel mask 0 Hm) as (r & E & _ & Hr). rewrite E. cbn [plus] in *.
    set (id1 := if Nat.ltb _ _ then _ else _).
    destruct (resized id r) as (Hn & Hl & _). fold id1 in Hn, Hl.
    eexists. split; [reflexivity|]. intros i.
    change 1 with (2 ^ Z.of_nat 0) at 1.
    destruct (Nat.ltb_spec i (length id1)).
    + rewrite incr_loop_nth by assumption. rewrite Hn. reflexivity.
    + rewrite nth_overflow by (rewrite incr_loop_length; lia).
      rewrite <- Hn, nth_overflow by lia.
      rewrite (testbit_above mask r) by lia. rewrite andb_false_r. reflexivity.
Qed.

Lemma setSubId_spec fuel id mask v : 0 <= mask < 2 ^ Z.of_nat fuel ->
  exists id', setSubId fuel id mask v = Some id' /\
    forall i, at_pos id' i = (if selected mask i then v else at_pos id i).
Proof.
  intros Hm. unfold setSubId, at_pos, selected.
  destruct (Z.eqb_spec mask 0) as [->|Hne].
  - exists id. split; [reflexivity|]. intros i. rewrite Z.bits_0, andb_false_r. reflexivity.
  - destruct (msb_loop_ok fuel mask 0 Hm) as (r & E & _ & Hr). rewrite E. cbn [plus] in *.
    set (id1 := if Nat.ltb _ _ then _ else _).
    destruct (resized id r) as (Hn & Hl & _). fold id1 in Hn, Hl.
    eexists. split; [reflexivity|]. intros i.
    change 1 with (2 ^ Z.of_nat 0) at 1.
    destruct (Nat.ltb_spec i (length id1)).
    + rewrite set_loop_nth by assumption. rewrite Hn. reflexivity.
    + rewrite nth_overflow by (rewrite set_loop_length; lia).
      rewrite (testbit_above mask r) by lia. rewrite andb_false_r.
      rewrite <- Hn. now rewrite nth_overflow by lia.
Qed.

Lemma update_negative_mask fuel id mask v : mask < 0 ->
  incrSubId fuel id mask = None /\ setSubId fuel id mask v = None.
Proof.
  intros H. unfold incrSubId, setSubId. destruct (Z.eqb_spec mask 0); [lia|].
  rewrite msb_loop_neg by exact H. auto.
Qed.

Lemma maskSubId_spec id mask :
  forall i, at_pos (maskSubId id mask) i =
    if Nat.ltb i 16 then (if Z.testbit mask (Z.of_nat i) then at_pos id i else 0)
    else if mask =? 0 then 0 else at_pos id i.
Proof.
  intros i. unfold maskSubId, at_pos. destruct (Z.eqb_spec mask 0) as [->|Hne].
  - rewrite Z.bits_0. destruct (Nat.ltb i 16); destruct i as [|[|i]]; reflexivity.
  - change 1 with (2 ^ Z.of_nat 0). rewrite mask_loop_nth. unfold RQIDM_NBITS. cbn [plus].
    destruct (Nat.ltb i 16); cbn [andb]; [|reflexivity].
    destruct (Z.testbit mask (Z.of_nat i)); reflexivity.
Qed.

Lemma diffMask_incr fuel id mask id' : 0 <= mask < 2 ^ Z.of_nat fuel ->
  incrSubId fuel id mask = Some id' -> diffMask id id' = Z.land mask (Z.ones 16).
Proof.
  intros Hm E. destruct (incrSubId_spec fuel id mask Hm) as (id2 & E2 & H).
  rewrite E in E2. injection E2 as <-.
  apply testbit_ext_nat. intros i. rewrite diffMask_testbit, Z.land_spec, H, Z.testbit_ones by lia.
  unfold selected. destruct (Nat.ltb_spec i 16).
  - replace (Z.of_nat i <? 16) with true by lia. replace (0 <=? Z.of_nat i) with true by lia.
    cbn [andb]. destruct (Z.testbit mask (Z.of_nat i)); cbn; lia.
  - replace (Z.of_nat i <? 16) with false by lia. rewrite !andb_false_r. reflexivity.
Qed.

Lemma maskSubId_equiv id mask : id <> [] -> maskedCompare id (maskSubId id mask) mask = true.
Proof.
  intros Hid. apply maskedCompare_iff. destruct (Z.eq_dec mask 0) as [->|Hm]; [auto|right].
  split; [exact Hid|]. split.
  - unfold maskSubId. destruct (Z.eqb_spec mask 0); [congruence|]. intros E.
    apply (f_equal (@length Z)) in E. rewrite mask_loop_length in E. destruct id; [congruence|discriminate].
  - intros i Hi. rewrite maskSubId_spec. unfold selected in Hi.
    apply andb_true_iff in Hi. destruct Hi as [-> ->]. reflexivity.
Qed.

(** the sub-id is canonical: ids of the same length (at most 16) agree under the
    mask exactly when their sub-ids are equal *)
Lemma maskSubId_canonical a b mask :
  length a = length b -> (length a <= 16)%nat -> a <> [] ->
  (maskedCompare a b mask = true <-> maskSubId a mask = maskSubId b mask).
Proof.
  intros Hl H16 Ha. rewrite maskedCompare_iff.
  assert (Hb : b <> []) by (destruct a, b; cbn in *; congruence).
  destruct (Z.eq_dec mask 0) as [->|Hm].
  { unfold maskSubId. cbn. tauto. }
  split.
  - intros [|(_ & _ & H)]; [congruence|].
    apply nth_ext with (d := 0) (d' := 0).
    + unfold maskSubId. destruct (Z.eqb_spec mask 0); [congruence|]. now rewrite !mask_loop_length.
    + intros i Hi. fold (at_pos (maskSubId a mask) i). fold (at_pos (maskSubId b mask) i).
      rewrite !maskSubId_spec. destruct (Nat.ltb_spec i 16) as [Hi16|Hi16].
      * destruct (Z.testbit mask (Z.of_nat i)) eqn:E; [|reflexivity].
        apply H. unfold selected. rewrite E. apply Nat.ltb_lt in Hi16. now rewrite Hi16.
      * exfalso. unfold maskSubId in Hi. destruct (Z.eqb_spec mask 0); [congruence|].
        rewrite mask_loop_length in Hi. lia.
  - intros E. right. repeat split; auto. intros i Hi.
    assert (Ei : at_pos (maskSubId a mask) i = at_pos (maskSubId b mask) i) by now rewrite E.
    rewrite !maskSubId_spec in Ei. unfold selected in Hi. apply andb_true_iff in Hi.
    destruct Hi as [Hi Hbit]. rewrite Hi, Hbit in Ei. exact Ei.
Qed.

(** ** Symdeps *)
Lemma sd_find_put m k v k' :
  sd_find (sd_put m k v) k' = if hiid_eqb k k' then Some v else sd_find m k'.
Proof.
  assert (Hsym : forall a b, hiid_eqb a b = hiid_eqb b a).
  { intros a b. apply eq_true_iff_eq. rewrite !hiid_eqb_iff. split; congruence. }
  assert (Hrefl : forall a, hiid_eqb a a = true) by (intros; now apply hiid_eqb_iff).
  induction m as [|[k1 v1] m IH]; cbn.
  - rewrite (Hsym k' k). now destruct (hiid_eqb k k').
  - destruct (hiid_eqb k k1) eqn:E; cbn.
    + apply hiid_eqb_iff in E. subst k1. rewrite (Hsym k' k). now destruct (hiid_eqb k k').
    + rewrite IH. destruct (hiid_eqb k' k1) eqn:E1; [|reflexivity].
      apply hiid_eqb_iff in E1. subst k1. now rewrite E.
Qed.

(** the assignments in force after a history *)
Fixpoint sd_assignments (acc : list (hiid * Z)) (os : list sd_op) : list (hiid * Z) :=
  match os with
  | [] => acc
  | SdSet k v :: os' => sd_assignments (acc ++ [(k, v)]) os'
  | SdLoad kvs :: os' => sd_assignments kvs os'
  | _ :: os' => sd_assignments acc os'
  end.
Fixpoint sd_actives (acc : list hiid) (os : list sd_op) : list hiid :=
  match os with
  | [] => acc
  | SdSetActive d :: os' => sd_actives d os'
  | SdSetActiveVec d :: os' => sd_actives d os'
  | SdSetActiveNone :: os' => sd_actives [] os'
  | _ :: os' => sd_actives acc os'
  end.

Lemma latest_app h k v k' :
  latest (h ++ [(k, v)]) k' = if list_eq_dec Z.eq_dec k k' then Some v else latest h k'.
Proof. unfold latest. rewrite fold_left_app. reflexivity. Qed.

Lemma eqb_dec {A} k k' (x y : A) :
  (if hiid_eqb k k' then x else y) = (if list_eq_dec Z.eq_dec k k' then x else y).
Proof.
  destruct (list_eq_dec Z.eq_dec k k') as [->|H].
  - assert (hiid_eqb k' k' = true) as -> by now apply hiid_eqb_iff. reflexivity.
  - destruct (hiid_eqb k k') eqn:E; [apply hiid_eqb_iff in E; congruence|reflexivity].
Qed.

Lemma load_latest kvs : forall k,
  sd_find (fold_left (fun m kv => sd_put m (fst kv) (snd kv)) kvs []) k = latest kvs k.
Proof.
  induction kvs as [|[k1 v1] kvs IH] using rev_ind; intros k; [reflexivity|].
  rewrite fold_left_app. cbn [fold_left fst snd]. rewrite sd_find_put, latest_app, IH. apply eqb_dec.
Qed.

Lemma sd_getMask_bits m deps acc i :
  Z.testbit (fold_left (fun mask d => match sd_find m d with Some v => Z.lor mask v | None => mask end) deps acc) i
  = true <-> Z.testbit acc i = true \/ exists d v, In d deps /\ sd_find m d = Some v /\ Z.testbit v i = true.
Proof.
  revert acc; induction deps as [|d deps IH]; intros acc; cbn [fold_left].
  - split; [auto|]. intros [H|(d & v & [] & _)]. exact H.
  - rewrite IH. destruct (sd_find m d) as [v|] eqn:E.
    + rewrite Z.lor_spec, orb_true_iff. split.
      * intros [[H|H]|(d' & v' & Hi & Hf & Hb)]; [auto| |].
        -- right. exists d, v. repeat split; auto. now left.
        -- right. exists d', v'. repeat split; auto. now right.
      * intros [H|(d' & v' & [->|Hi] & Hf & Hb)]; [auto| |].
        -- left. right. congruence.
        -- right. eauto.
    + split.
      * intros [H|(d' & v' & Hi & Hf & Hb)]; [auto|]. right. exists d', v'. repeat split; auto. now right.
      * intros [H|(d' & v' & [->|Hi] & Hf & Hb)]; [auto|congruence|]. right. eauto.
Qed.

Lemma sd_run_spec os : forall s acc,
  (forall k, sd_find (sd_map s) k = latest acc k) ->
  sd_mask s = sd_getMask (sd_map s) (sd_active s) ->
  forall s', sd_run s os = Ok s' ->
  (forall k, sd_find (sd_map s') k = latest (sd_assignments acc os) k) /\
  sd_active s' = sd_actives (sd_active s) os /\
  sd_mask s' = sd_getMask (sd_map s') (sd_active s').
Proof.
  induction os as [|o os IH]; intros s acc Hm Hk s' H.
  - injection H as <-. auto.
  - cbn [sd_run] in H. destruct (sd_step s o) as [s1| |] eqn:E; [|discriminate|discriminate].
    cbn [bind] in H.
    destruct o as [k v|kvs|deps| |deps]; cbn in E.
    + injection E as <-. apply IH with (acc := acc ++ [(k, v)]) in H; [exact H| |reflexivity].
      intros k'. cbn [sd_map]. rewrite sd_find_put, latest_app, Hm. apply eqb_dec.
    + injection E as <-. apply IH with (acc := kvs) in H; [exact H| |reflexivity].
      intros k'. cbn [sd_map]. apply load_latest.
    + injection E as <-. apply IH with (acc := acc) in H; [exact H|exact Hm|reflexivity].
    + injection E as <-. apply IH with (acc := acc) in H; [exact H|exact Hm|reflexivity].
    + destruct deps as [|d deps]; [discriminate|]. injection E as <-.
      apply IH with (acc := acc) in H; [exact H|exact Hm|reflexivity].
Qed.

Lemma sd_mask_correct os s' : sd_run sd_init os = Ok s' ->
  forall i, 0 <= i ->
  (Z.testbit (sd_mask s') i = true <->
   exists d v, In d (sd_actives [] os) /\ latest (sd_assignments [] os) d = Some v /\ Z.testbit v i = true).
Proof.
  intros H i Hi. destruct (sd_run_spec os sd_init [] ltac:(reflexivity) eq_refl s' H) as (Hm & Ha & Hk).
  rewrite Hk. unfold sd_getMask. rewrite sd_getMask_bits, Z.bits_0.
  cbn [sd_active sd_init] in Ha. rewrite Ha. split.
  - intros [H0|(d & v & Hin & Hf & Hb)]; [discriminate|]. exists d, v. rewrite <- Hm. auto.
  - intros (d & v & Hin & Hf & Hb). right. exists d, v. rewrite Hm. auto.
Qed.

(** the only operation that can fail to return is setActive on an empty vector *)
Lemma sd_run_defined os s : ~ In (SdSetActiveVec []) os -> exists s', sd_run s os = Ok s'.
Proof.
  revert s; induction os as [|o os IH]; intros s H; [eexists; reflexivity|].
  cbn [sd_run]. assert (Ho : exists s1, sd_step s o = Ok s1).
  { destruct o as [k v|kvs|deps| |[|d deps]]; cbn; eauto. exfalso. apply H. now left. }
  destruct Ho as (s1 & ->). cbn [bind]. apply IH. intros Hi. apply H. now right.
Qed.
