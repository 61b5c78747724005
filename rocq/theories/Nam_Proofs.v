(** Proofs about the text form of identifiers. *)
From Verif Require Import Base Bytes_Model Bytes_Proofs Hiid_Model Nam_Model Nam_Spec.
Local Open Scope Z_scope.

Lemma str_eqb_spec a b : reflect (a = b) (str_eqb a b).
Proof. unfold str_eqb. destruct (list_eq_dec Z.eq_dec a b); constructor; auto. Qed.

Lemma strlower_eq s : strlowercase s = lower_str s.
Proof. reflexivity. Qed.

Definition named (r : registry) (s : list Z) (k : Z) : Prop := k <> 0 /\ reg_rfind r s = k.

(** ** Splitting *)
Lemma existsb_In c seps : existsb (Z.eqb c) seps = true <-> In c seps.
Proof.
  rewrite existsb_exists. split.
  - intros [x [Hx E]]. apply Z.eqb_eq in E. subst. exact Hx.
  - intros Hx. exists c. split; [exact Hx | apply Z.eqb_refl].
Qed.

Lemma free_cons seps c f : free_of seps (c :: f) -> ~ In c seps /\ free_of seps f.
Proof. intros F. split; [apply F; left; reflexivity | intros d Hd; apply F; right; exact Hd]. Qed.

Lemma split_first_last seps f : free_of seps f -> split_first seps f = (f, None).
Proof.
  induction f as [|c f IH]; intros F; cbn [split_first]; [reflexivity|].
  apply free_cons in F as [A B].
  destruct (existsb (Z.eqb c) seps) eqn:E; [apply existsb_In in E; contradiction|].
  rewrite (IH B). reflexivity.
Qed.

Lemma split_first_more seps g c s : free_of seps g -> In c seps ->
  split_first seps (g ++ c :: s) = (g, Some (c, s)).
Proof.
  induction g as [|d g IH]; intros F I; cbn [split_first app].
  - apply existsb_In in I. rewrite I. reflexivity.
  - apply free_cons in F as [A B].
    destruct (existsb (Z.eqb d) seps) eqn:E; [apply existsb_In in E; contradiction|].
    rewrite (IH B I). reflexivity.
Qed.

Lemma decompose seps s : exists fcs f, splits seps fcs f /\ join fcs f = s.
Proof.
  induction s as [|c s [fcs [f [[F G] J]]]].
  - exists [], []. split; [split; [intros c []|constructor]|reflexivity].
  - destruct (in_dec Z.eq_dec c seps) as [I|I].
    + exists (([], c) :: fcs), f. split; [|cbn; rewrite J; reflexivity].
      split; [exact F|]. constructor; [|exact G]. split; [intros d []|exact I].
    + destruct fcs as [|[g d] fcs].
      * exists [], (c :: f). cbn in J. subst f. split; [|reflexivity].
        split; [|constructor]. intros d [->|Hd]; [exact I|apply F; exact Hd].
      * exists ((c :: g, d) :: fcs), f. split; [|cbn in J |- *; rewrite J; reflexivity].
        split; [exact F|]. inversion G as [|x y [A B] G']; subst. constructor; [|exact G'].
        split; [|exact B]. intros e [->|He]; [exact I|apply A; exact He].
Qed.

Lemma decompose_unique seps fcs f fcs' f' :
  splits seps fcs f -> splits seps fcs' f' -> join fcs f = join fcs' f' -> fcs = fcs' /\ f = f'.
Proof.
  revert fcs'. induction fcs as [|[g c] fcs IH]; intros [|[g' c'] fcs'] [F G] [F' G'] J; cbn [join] in J.
  - split; [reflexivity|exact J].
  - inversion G' as [|x y [A B] G'']; subst. cbn [fst snd] in *.
    pose proof (split_first_last seps _ F) as P.
    rewrite (split_first_more seps g' c' _ A B) in P. discriminate.
  - inversion G as [|x y [A B] G'']; subst. cbn [fst snd] in *.
    pose proof (split_first_last seps _ F') as P.
    rewrite (split_first_more seps g c _ A B) in P. discriminate.
  - inversion G as [|x y [A B] G2]; subst. inversion G' as [|x y [A' B'] G2']; subst.
    cbn [fst snd] in *.
    pose proof (split_first_more seps g c (join fcs f) A B) as P.
    rewrite J, (split_first_more seps g' c' (join fcs' f') A' B') in P.
    assert (g' = g) by congruence. assert (c' = c) by congruence.
    assert (join fcs' f' = join fcs f) by congruence. subst g' c'.
    destruct (IH fcs' (conj F G2) (conj F' G2')) as [-> ->]; auto.
Qed.

Lemma join_length fcs f : (length fcs <= length (join fcs f))%nat.
Proof.
  induction fcs as [|[g c] fcs IH]; cbn [join length]; [lia|].
  rewrite app_length. cbn [length]. lia.
Qed.

(** ** Numbers *)
Lemma digits_val_decimal s : forall acc,
  digits_val acc s = acc * 10 ^ Z.of_nat (length s) + decimal s.
Proof.
  induction s as [|c s IH]; intros acc; cbn [digits_val decimal length].
  - rewrite Z.pow_0_r. ring.
  - rewrite IH. rewrite Nat2Z.inj_succ, Z.pow_succ_r by lia. ring.
Qed.

Lemma isdigit_spec c : isdigit c = true <-> digit c.
Proof. unfold isdigit, digit. lia. Qed.
Lemma digits_spec s : forallb isdigit s = true <-> Forall digit s.
Proof.
  rewrite forallb_forall, Forall_forall. split; intros H x Hx; apply isdigit_spec; auto.
Qed.

Lemma atoi_spec s : atoi s = if decimal s <? 2^31 then Ok (decimal s) else UB.
Proof.
  unfold atoi. rewrite digits_val_decimal. rewrite Z.mul_0_l, Z.add_0_l. reflexivity.
Qed.

Lemma decimal_nonneg s : Forall digit s -> 0 <= decimal s < 10 ^ Z.of_nat (length s).
Proof.
  induction 1 as [|c s D F IH]; cbn [decimal length].
  - rewrite Z.pow_0_r. lia.
  - unfold digit in D. rewrite Nat2Z.inj_succ, Z.pow_succ_r by lia.
    assert (0 < 10 ^ Z.of_nat (length s)) by (apply Z.pow_pos_nonneg; lia). nia.
Qed.

Lemma decimal_app s c : decimal (s ++ [c]) = 10 * decimal s + (c - 48).
Proof.
  induction s as [|d s IH]; cbn [app decimal length].
  - rewrite Z.pow_0_r. lia.
  - rewrite IH, app_length. cbn [length]. rewrite Nat.add_1_r, Nat2Z.inj_succ, Z.pow_succ_r by lia.
    ring.
Qed.

Lemma dec_fuel_spec f : forall n, (0 < f)%nat -> 0 <= n < 10 ^ Z.of_nat f -> numeral n (dec_fuel f n).
Proof.
  induction f as [|f IH]; intros n P B; [lia|]. cbn [dec_fuel].
  destruct (n <? 10) eqn:E.
  - apply Z.ltb_lt in E. split; [discriminate|]. split; [repeat constructor; unfold digit; lia|].
    split; [cbn [decimal length]; rewrite Z.pow_0_r; lia|].
    intros H. cbn in H. injection H as H. rewrite H. reflexivity.
  - apply Z.ltb_ge in E.
    rewrite Nat2Z.inj_succ, Z.pow_succ_r in B by lia.
    assert (Pf : (0 < f)%nat).
    { destruct f; [|lia]. change (10 ^ Z.of_nat 0) with 1 in B. lia. }
    assert (Q : 0 <= n / 10 < 10 ^ Z.of_nat f).
    { split; [apply Z.div_pos; lia | apply Z.div_lt_upper_bound; lia]. }
    destruct (IH (n / 10) Pf Q) as (N & D & V & Z0).
    pose proof (Z.mod_pos_bound n 10 ltac:(lia)) as M.
    split; [destruct (dec_fuel f (n/10)); discriminate|].
    split; [apply Forall_app; split; [exact D|repeat constructor; unfold digit; lia]|].
    split.
    { rewrite decimal_app, V. pose proof (Z.div_mod n 10 ltac:(lia)). lia. }
    intros H. destruct (dec_fuel f (n / 10)) as [|d ds] eqn:Ed; [contradiction|].
    cbn in H. injection H as H. subst d. specialize (Z0 eq_refl). injection Z0 as ->.
    cbn [decimal length] in V. rewrite Z.pow_0_r in V.
    pose proof (Z.div_le_lower_bound n 10 1 ltac:(lia) ltac:(lia)). lia.
Qed.

Lemma sprintf_spec n : 0 <= n < 2^31 -> numeral n (sprintf_d n).
Proof.
  intros B. unfold sprintf_d. replace (n <? 0) with false by lia.
  apply dec_fuel_spec; [lia|]. change (10 ^ Z.of_nat 10) with 10000000000.
  change (2^31) with 2147483648 in B. lia.
Qed.

(** a numeral is determined by its number *)
Lemma decimal_lead s : Forall digit s -> hd_error s <> Some 48 -> s <> [] ->
  10 ^ (Z.of_nat (length s) - 1) <= decimal s.
Proof.
  intros F H N. destruct s as [|c s]; [contradiction|]. inversion F as [|x y D F']; subst.
  cbn [decimal length]. rewrite Nat2Z.inj_succ.
  replace (Z.succ (Z.of_nat (length s)) - 1) with (Z.of_nat (length s)) by lia.
  pose proof (decimal_nonneg s F') as [A _].
  assert (c <> 48) by (intros ->; apply H; reflexivity). unfold digit in D.
  assert (0 < 10 ^ Z.of_nat (length s)) by (apply Z.pow_pos_nonneg; lia). nia.
Qed.

Lemma decimal_inj s t : length s = length t -> Forall digit s -> Forall digit t ->
  decimal s = decimal t -> s = t.
Proof.
  revert t. induction s as [|c s IH]; intros [|d t] L F G E; cbn in L; try discriminate; [reflexivity|].
  injection L as L. inversion F as [|x y D F']; subst. inversion G as [|x y D' G']; subst.
  cbn [decimal] in E. rewrite <- L in E.
  pose proof (decimal_nonneg s F') as A. pose proof (decimal_nonneg t G') as B.
  rewrite <- L in B. unfold digit in *.
  assert (c = d) by nia. subst d. f_equal. apply IH; auto. lia.
Qed.

Lemma numeral_unique n s t : numeral n s -> numeral n t -> s = t.
Proof.
  intros (N1 & D1 & V1 & Z1) (N2 & D2 & V2 & Z2).
  assert (P : forall u, u <> [] -> Forall digit u -> decimal u = n ->
            (hd_error u = Some 48 -> u = [48]) ->
            (u = [48] /\ n = 0) \/ (10 ^ (Z.of_nat (length u) - 1) <= n < 10 ^ Z.of_nat (length u))).
  { intros u Nu Du Vu Zu. destruct (Z.eq_dec (hd 0 u) 48) as [E|E].
    - left. destruct u as [|c u]; [contradiction|]. cbn in E. subst c.
      specialize (Zu eq_refl). injection Zu as ->. split; [reflexivity|].
      cbn in Vu. lia.
    - right. split; [rewrite <- Vu; apply decimal_lead; auto|].
      + destruct u as [|c u]; [contradiction|]. cbn in E |- *. congruence.
      + rewrite <- Vu. apply decimal_nonneg. exact Du. }
  pose proof (P s N1 D1 V1 Z1) as A. pose proof (P t N2 D2 V2 Z2) as B. clear P.
  assert (L1 : (1 <= length s)%nat) by (destruct s; [contradiction|cbn; lia]).
  assert (L2 : (1 <= length t)%nat) by (destruct t; [contradiction|cbn; lia]).
  destruct A as [[-> A]|A], B as [[-> B]|B]; [reflexivity| | |].
  - assert (0 < 10 ^ (Z.of_nat (length t) - 1)) by (apply Z.pow_pos_nonneg; lia). lia.
  - assert (0 < 10 ^ (Z.of_nat (length s) - 1)) by (apply Z.pow_pos_nonneg; lia). lia.
  - apply decimal_inj; auto; [|congruence].
    destruct (Nat.lt_trichotomy (length s) (length t)) as [H|[H|H]]; [|exact H|].
    + assert (10 ^ Z.of_nat (length s) <= 10 ^ (Z.of_nat (length t) - 1)) by (apply Z.pow_le_mono_r; lia). lia.
    + assert (10 ^ Z.of_nat (length t) <= 10 ^ (Z.of_nat (length s) - 1)) by (apply Z.pow_le_mono_r; lia). lia.
Qed.

(** ** Literals *)
Lemma word_dec b0 b1 b2 b3 : byte b0 -> byte b1 -> byte b2 -> byte b3 ->
  word (dec_i32 [b0; b1; b2; b3]) b0 b1 b2 b3.
Proof.
  unfold byte. intros B0 B1 B2 B3. unfold word, dec_i32, to_signed. cbn [le_val].
  change (8 * Z.of_nat 4 - 1) with 31. change (8 * Z.of_nat 4) with 32.
  change (2^31) with 2147483648. change (2^32) with 4294967296.
  destruct (_ <? _) eqn:E.
  - split; [lia|]. rewrite Z.mod_small; lia.
  - split; [lia|].
    replace (b0 + 256 * (b1 + 256 * (b2 + 256 * (b3 + 256 * 0))) - 4294967296)
      with ((b0 + 256 * b1 + 65536 * b2 + 16777216 * b3) + (-1) * 4294967296) by ring.
    rewrite Z.mod_add by lia. rewrite Z.mod_small; lia.
Qed.

Lemma word_enc a b0 b1 b2 b3 : byte b0 -> byte b1 -> byte b2 -> byte b3 ->
  word a b0 b1 b2 b3 -> enc_i32 a = [b0; b1; b2; b3].
Proof.
  intros B0 B1 B2 B3 [R M]. unfold byte in *.
  unfold enc_i32. rewrite <- (le_bytes_mod 4 a).
  change (2 ^ (8 * Z.of_nat 4)) with (2 ^ 32). rewrite M.
  replace (b0 + 256 * b1 + 65536 * b2 + 16777216 * b3) with (le_val [b0; b1; b2; b3])
    by (cbn [le_val]; ring).
  apply (le_bytes_le_val [b0; b1; b2; b3]).
  repeat constructor; unfold byte_ok; lia.
Qed.

Lemma word_inj a a' b0 b1 b2 b3 : word a b0 b1 b2 b3 -> word a' b0 b1 b2 b3 -> a = a'.
Proof.
  intros [R M] [R' M']. rewrite <- M' in M.
  change (2^31) with 2147483648 in *. change (2^32) with 4294967296 in *.
  pose proof (Z.div_mod a 4294967296 ltac:(lia)). pose proof (Z.div_mod a' 4294967296 ltac:(lia)).
  pose proof (Z.mod_pos_bound a 4294967296 ltac:(lia)).
  pose proof (Z.mod_pos_bound a' 4294967296 ltac:(lia)). lia.
Qed.

Lemma atoms_of_len n : ((S (S (S (S n))) + 4 - 1) / 4 = S ((n + 4 - 1) / 4))%nat.
Proof.
  replace (S (S (S (S n))) + 4 - 1)%nat with ((n + 4 - 1) + 1 * 4)%nat by lia.
  rewrite Nat.div_add by lia. lia.
Qed.

Lemma dec4 n b0 b1 b2 b3 s :
  dec_i32s (S n) (b0 :: b1 :: b2 :: b3 :: s) = dec_i32 [b0; b1; b2; b3] :: dec_i32s n s.
Proof. reflexivity. Qed.

Lemma packed_make n : forall s, (length s <= n)%nat -> Forall byte s ->
  packed s (dec_i32s ((length s + 4 - 1) / 4)
              (s ++ repeat 255 ((length s + 4 - 1) / 4 * 4 - length s))).
Proof.
  assert (B255 : byte 255) by (unfold byte; lia).
  induction n as [|n IH]; intros s L F.
  - destruct s; [constructor|cbn in L; lia].
  - destruct s as [|b0 [|b1 [|b2 [|b3 s]]]].
    + constructor.
    + inversion F; subst. cbn. constructor. apply word_dec; auto.
    + inversion F as [|x y F0 F1]; subst. inversion F1; subst. cbn. constructor. apply word_dec; auto.
    + inversion F as [|x y F0 F1]; subst. inversion F1 as [|x y F2 F3]; subst. inversion F3; subst.
      cbn. constructor. apply word_dec; auto.
    + inversion F as [|x y F0 F1]; subst. inversion F1 as [|x y F2 F3]; subst.
      inversion F3 as [|x y F4 F5]; subst. inversion F5 as [|x y F6 F7]; subst.
      cbn [length] in *. rewrite atoms_of_len.
      replace (S ((length s + 4 - 1) / 4) * 4 - S (S (S (S (length s)))))%nat
        with ((length s + 4 - 1) / 4 * 4 - length s)%nat by lia.
      cbn [app]. rewrite dec4. constructor; [apply word_dec; auto|].
      apply IH; [lia|exact F7].
Qed.

Lemma packed_unique s h : packed s h -> forall h', packed s h' -> h = h'.
Proof.
  induction 1; intros h' P; inversion P; subst; auto; f_equal;
    try (eapply word_inj; eassumption); auto.
Qed.

Lemma packed_length s h : packed s h -> length h = ((length s + 4 - 1) / 4)%nat.
Proof.
  induction 1; try reflexivity. cbn [length]. rewrite atoms_of_len, IHpacked. reflexivity.
Qed.

Lemma packed_bytes s h : packed s h -> Forall byte s -> exists pad, enc_i32s h = s ++ pad.
Proof.
  assert (B255 : byte 255) by (unfold byte; lia).
  induction 1 as [|a b0 W|a b0 b1 W|a b0 b1 b2 W|a b0 b1 b2 b3 s h W P IH]; intros F.
  - exists []. reflexivity.
  - inversion F; subst. exists [255; 255; 255]. rewrite enc_i32s_cons, (word_enc _ _ _ _ _ H1 B255 B255 B255 W).
    reflexivity.
  - inversion F as [|x y F0 F1]; subst. inversion F1; subst. exists [255; 255].
    rewrite enc_i32s_cons, (word_enc _ _ _ _ _ F0 H1 B255 B255 W). reflexivity.
  - inversion F as [|x y F0 F1]; subst. inversion F1 as [|x y F2 F3]; subst. inversion F3; subst.
    exists [255]. rewrite enc_i32s_cons, (word_enc _ _ _ _ _ F0 F2 H1 B255 W). reflexivity.
  - inversion F as [|x y F0 F1]; subst. inversion F1 as [|x y F2 F3]; subst.
    inversion F3 as [|x y F4 F5]; subst. inversion F5 as [|x y F6 F7]; subst.
    destruct (IH F7) as [pad E]. exists pad. rewrite enc_i32s_cons, E.
    rewrite (word_enc _ _ _ _ _ F0 F2 F4 F6 W). reflexivity.
Qed.

Lemma marker_lor n : 0 <= n < 65536 -> Z.lor 2147418112 n = 2147418112 + n.
Proof.
  intros B.
  assert (L : Z.land 2147418112 n = 0).
  { replace n with (n mod 2^16) by (apply Z.mod_small; change (2^16) with 65536; lia).
    rewrite <- Z.land_ones by lia.
    rewrite (Z.land_comm n), Z.land_assoc. reflexivity. }
  rewrite (Z.add_nocarry_lxor _ _ L), (Z.lxor_lor _ _ L). reflexivity.
Qed.

Lemma literal_make s h : Forall byte s -> Z.of_nat (length s) < 65536 ->
  exists l, makeLiteral s h = h ++ l /\ literal s l.
Proof.
  intros F L. unfold makeLiteral, LITERAL_RATIO, LITERAL_MARKER. eexists. split; [reflexivity|].
  eexists. split; [|apply (packed_make (length s)); [lia|exact F]].
  f_equal. rewrite marker_lor by lia. apply dec_enc_i32. unfold i32_ok.
  change (2^31) with 2147483648. lia.
Qed.

Lemma literal_unique s h h' : literal s h -> literal s h' -> h = h'.
Proof.
  intros [a [-> P]] [b [-> Q]]. f_equal. eapply packed_unique; eauto.
Qed.

Lemma packed_inj s t h : packed s h -> packed t h -> length s = length t ->
  Forall byte s -> Forall byte t -> s = t.
Proof.
  intros P Q L F G.
  destruct (packed_bytes _ _ P F) as [p E]. destruct (packed_bytes _ _ Q G) as [q E'].
  rewrite E in E'. clear - L E'. revert t L E'.
  induction s as [|a s IH]; intros [|b t] L E; cbn in L; try discriminate; [reflexivity|].
  injection E as -> E. f_equal. apply IH; auto.
Qed.

Lemma literal_inj s t h : literal s h -> literal t h ->
  Forall byte s -> Forall byte t -> s = t.
Proof.
  intros [a [-> P]] [b [E Q]] F G.
  assert (a = b) by congruence. subst b.
  assert (2147418112 + Z.of_nat (length s) = 2147418112 + Z.of_nat (length t)) by congruence.
  eapply packed_inj; eauto. lia.
Qed.

(** ** Case *)
Lemma tolower_idem c : tolower (tolower c) = tolower c.
Proof. unfold tolower. destruct ((65 <=? c) && (c <=? 90)) eqn:E; [|rewrite E; reflexivity].
  replace ((65 <=? c + 32) && (c + 32 <=? 90)) with false by lia. reflexivity. Qed.
Lemma lower_idem s : lower_str (lower_str s) = lower_str s.
Proof. unfold lower_str. rewrite map_map. apply map_ext. intros c. apply tolower_idem. Qed.
Lemma lower_length s : length (lower_str s) = length s.
Proof. apply map_length. Qed.
Lemma lower_byte s : Forall byte s -> Forall byte (lower_str s).
Proof.
  intros F. apply Forall_forall. intros c Hc. apply in_map_iff in Hc as [d [<- Hd]].
  rewrite Forall_forall in F. specialize (F d Hd). unfold byte, lower in *.
  destruct (_ && _) eqn:E; lia.
Qed.
Lemma tolower_digit c : digit (tolower c) <-> digit c.
Proof. unfold digit, tolower. destruct (_ && _) eqn:E; lia. Qed.
Lemma lower_digit_same s : Forall digit s -> lower_str s = s.
Proof.
  intros F. induction F as [|c s D F IH]; [reflexivity|]. cbn [lower_str map].
  fold (lower_str s). rewrite IH. f_equal. unfold lower, digit in *.
  replace ((65 <=? c) && (c <=? 90)) with false by lia. reflexivity.
Qed.
Lemma lower_digits s : Forall digit (lower_str s) <-> Forall digit s.
Proof.
  split.
  - intros F. apply Forall_forall. intros c Hc. apply tolower_digit.
    rewrite Forall_forall in F. apply F. apply in_map_iff. exists c. split; auto.
  - intros F. rewrite lower_digit_same; auto.
Qed.
Lemma forallb_digit_lower s : forallb isdigit (strlowercase s) = forallb isdigit s.
Proof.
  apply eq_true_iff_eq. rewrite !digits_spec. apply lower_digits.
Qed.

Lemma findName_lower r s : findName r (strlowercase s) = findName r s.
Proof.
  unfold findName. rewrite forallb_digit_lower.
  destruct (forallb isdigit s) eqn:E.
  - apply digits_spec in E. rewrite strlower_eq, lower_digit_same by exact E. reflexivity.
  - rewrite !strlower_eq, lower_idem. reflexivity.
Qed.

Lemma add_field_dollar r allow rest h :
  add_field r allow (36 :: rest) h = Ok (makeLiteral (strlowercase rest) h).
Proof. reflexivity. Qed.

Lemma add_field_other r allow s h : hd_error s <> Some 36 ->
  add_field r allow s h =
  bind (findName r s) (fun f =>
      match f with
      | Some a => Ok (h ++ [a])
      | None => if allow then Ok (makeLiteral (strlowercase s) h) else Err
      end).
Proof.
  intros N. destruct s as [|c s]; [reflexivity|]. unfold add_field.
  destruct (Z.eq_dec c 36) as [->|E]; [exfalso; apply N; reflexivity|].
  destruct c as [|p|p]; try reflexivity.
  do 6 (destruct p as [p|p|]; try reflexivity). exfalso; apply E; reflexivity.
Qed.

Lemma allow_after_other allow s : hd_error s <> Some 36 -> allow_after allow s = allow.
Proof.
  intros N. destruct s as [|c s]; [reflexivity|]. unfold allow_after.
  destruct (Z.eq_dec c 36) as [->|E]; [exfalso; apply N; reflexivity|].
  destruct c as [|p|p]; try reflexivity.
  do 6 (destruct p as [p|p|]; try reflexivity). exfalso; apply E; reflexivity.
Qed.

Lemma dollar_dec (s : list Z) : (exists t, s = 36 :: t) \/ hd_error s <> Some 36.
Proof.
  destruct s as [|c s]; [right; discriminate|].
  destruct (Z.eq_dec c 36) as [->|E]; [left; eauto|right; cbn; congruence].
Qed.

Lemma tolower_36 c : tolower c = 36 <-> c = 36.
Proof. unfold tolower. destruct (_ && _) eqn:E; lia. Qed.

Lemma hd_lower s : hd_error (strlowercase s) <> Some 36 <-> hd_error s <> Some 36.
Proof.
  destruct s as [|c s]; cbn; [tauto|]. split; intros H E; apply H; injection E as E; f_equal;
  apply tolower_36; auto.
Qed.

Lemma add_field_lower r allow s h : add_field r allow (strlowercase s) h = add_field r allow s h.
Proof.
  destruct (dollar_dec s) as [[t ->]|N].
  - change (strlowercase (36 :: t)) with (36 :: strlowercase t).
    rewrite !add_field_dollar, !strlower_eq, lower_idem. reflexivity.
  - rewrite (add_field_other r allow s h N).
    rewrite (add_field_other r allow _ h (proj2 (hd_lower s) N)).
    rewrite findName_lower, !strlower_eq, lower_idem. reflexivity.
Qed.

Lemma allow_after_lower allow s : allow_after allow (strlowercase s) = allow_after allow s.
Proof.
  destruct (dollar_dec s) as [[t ->]|N]; [reflexivity|].
  rewrite (allow_after_other allow s N). apply allow_after_other, hd_lower, N.
Qed.

Definition letterless (seps : list Z) : Prop :=
  forall c, In c seps -> ~ upper_letter c /\ ~ lower_letter c.

Lemma sep_lower seps c : letterless seps -> existsb (Z.eqb (tolower c)) seps = existsb (Z.eqb c) seps.
Proof.
  intros Ls. apply eq_true_iff_eq. rewrite !existsb_In.
  unfold tolower. destruct ((65 <=? c) && (c <=? 90)) eqn:E; [|tauto].
  split; intros I; apply Ls in I; unfold upper_letter, lower_letter in I; lia.
Qed.

Lemma split_first_lower seps s : letterless seps ->
  split_first seps (strlowercase s) =
  (strlowercase (fst (split_first seps s)),
   match snd (split_first seps s) with
   | Some (c, s') => Some (c, strlowercase s') | None => None end).
Proof.
  intros Ls. induction s as [|c s IH]; [reflexivity|].
  cbn [strlowercase map split_first]. rewrite (sep_lower _ _ Ls).
  destruct (existsb (Z.eqb c) seps) eqn:E.
  - cbn. f_equal. f_equal. f_equal.
    unfold tolower. apply existsb_In, Ls in E. unfold upper_letter in E.
    replace ((65 <=? c) && (c <=? 90)) with false by lia. reflexivity.
  - fold (strlowercase s). rewrite IH.
    destruct (split_first seps s) as [n [[d s']|]]; reflexivity.
Qed.

Lemma add_loop_lower r seps : letterless seps -> forall fuel allow s h,
  add_loop fuel r seps allow (strlowercase s) h = add_loop fuel r seps allow s h.
Proof.
  intros Ls. induction fuel as [|fuel IH]; intros allow s h; [reflexivity|].
  cbn [add_loop]. rewrite (split_first_lower _ _ Ls).
  destruct s as [|c s]; [reflexivity|].
  change (strlowercase (c :: s)) with (tolower c :: strlowercase s) at 1. cbv iota.
  destruct (split_first seps (c :: s)) as [name [[d s']|]]; cbn [fst snd].
  - rewrite allow_after_lower.
    assert (E : (match strlowercase name with
                 | [] => Ok (h ++ [AidEmpty])
                 | _ :: _ => add_field r allow (strlowercase name) h end)
                = match name with
                  | [] => Ok (h ++ [AidEmpty])
                  | _ :: _ => add_field r allow name h end).
    { destruct name as [|e name]; [reflexivity|].
      rewrite add_field_lower. reflexivity. }
    rewrite E. destruct (match name with [] => _ | _ :: _ => _ end); cbn [bind]; auto.
  - apply add_field_lower.
Qed.

Lemma addString_lower r s sepset allow h : letterless sepset ->
  addString r (strlowercase s) sepset allow h = addString r s sepset allow h.
Proof.
  intros Ls. unfold addString.
  assert (L2 : letterless (sepset ++ [47; 58])).
  { intros c Hc. apply in_app_iff in Hc as [Hc|Hc]; [auto|].
    unfold upper_letter, lower_letter. cbn in Hc. lia. }
  rewrite (add_loop_lower r _ L2). unfold strlowercase. rewrite map_length.
  destruct s; reflexivity.
Qed.
