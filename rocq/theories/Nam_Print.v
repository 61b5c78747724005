(** Printing an identifier, and reading the text back. *)
From Verif Require Import Base Bytes_Model Bytes_Proofs Hiid_Model Nam_Model Nam_Spec Nam_Proofs Nam_Parse.
Local Open Scope Z_scope.

Lemma land_mask a : Z.land a LITERAL_MASK = a / 65536 * 65536.
Proof.
  unfold LITERAL_MASK. change (-65536) with (Z.lnot (Z.ones 16)).
  rewrite <- Z.ldiff_land, Z.ldiff_ones_r by lia.
  rewrite Z.shiftl_mul_pow2, Z.shiftr_div_pow2 by lia. reflexivity.
Qed.

Lemma not_marker a : a < 2147418112 -> (Z.land a LITERAL_MASK =? LITERAL_MARKER) = false.
Proof.
  intros B. rewrite land_mask. unfold LITERAL_MARKER.
  pose proof (Z.mul_div_le a 65536 ltac:(lia)). lia.
Qed.

Lemma is_marker n : 0 <= n < 65536 ->
  (Z.land (2147418112 + n) LITERAL_MASK =? LITERAL_MARKER) = true.
Proof.
  intros B. rewrite land_mask. unfold LITERAL_MARKER.
  replace (2147418112 + n) with (n + 32767 * 65536) by lia.
  rewrite Z.div_add, Z.div_small by lia. lia.
Qed.

Lemma marker_length n : 0 <= n < 65536 ->
  Z.land (2147418112 + n) LITERAL_LENGTH_MASK = n.
Proof.
  intros B. unfold LITERAL_LENGTH_MASK. change 65535 with (Z.ones 16).
  rewrite Z.land_ones by lia. change (2^16) with 65536.
  replace (2147418112 + n) with (n + 32767 * 65536) by lia.
  rewrite Z.mod_add, Z.mod_small by lia. reflexivity.
Qed.

Lemma i32_enough a : 0 <= a < 2147418112 -> 0 <= a < 2^31.
Proof. change (2^31) with 2147483648. lia. Qed.

Lemma firstn_exact {A} (l l' : list A) n : length l = n -> firstn n (l ++ l') = l.
Proof. intros <-. rewrite firstn_app, Nat.sub_diag, firstn_all, firstn_O, app_nil_r. reflexivity. Qed.
Lemma skipn_exact {A} (l l' : list A) n : length l = n -> skipn n (l ++ l') = l'.
Proof. intros <-. rewrite skipn_app, Nat.sub_diag, skipn_all. reflexivity. Qed.

Section Print.
  Variable r : registry.
  Variable seps : list Z.
  Variable mark : bool.
  Variable separator : Z.

  Lemma print_item i ha t h' fuel sep :
    item_ok (named r) (reg_find r) seps mark i -> item_atoms i ha -> item_text mark i t ->
    print_loop (S fuel) r separator mark (ha ++ h') sep =
    bind (print_loop fuel r separator mark h' false) (fun t' =>
      Ok ((if sep then [] else [separator]) ++ t ++ t')).
  Proof.
    intros O A T. inversion O as [n B|k s N N3 N4 Nm Na Dg Dl Fr By Sh|s By Lo Fr Sh Un]; subst.
    - inversion A; subst. inversion T; subst. cbn [app print_loop].
      rewrite not_marker by lia.
      assert (E1 : (n =? AidSlash) || (n =? AidRange) = false) by (unfold AidSlash, AidRange; lia).
      rewrite E1. destruct (print_loop fuel r separator mark h' false); cbn [bind]; try reflexivity.
      assert (E2 : aid_toString r n = t).
      { unfold aid_toString, aid_index. replace (0 <=? n) with true by lia.
        replace (0 <=? n) with true by lia.
        apply (numeral_unique n); [apply sprintf_spec, i32_enough, B|assumption]. }
      rewrite E2. destruct sep; reflexivity.
    - inversion A; subst. inversion T; subst. cbn [app print_loop].
      rewrite not_marker by lia.
      assert (E1 : (k =? AidSlash) || (k =? AidRange) = false) by (unfold AidSlash, AidRange; lia).
      rewrite E1. destruct (print_loop fuel r separator mark h' false); cbn [bind]; try reflexivity.
      assert (E2 : aid_toString r k = reg_find r k).
      { unfold aid_toString, aid_index. replace (0 <=? k) with false by lia.
        change (0 <=? -1) with false. cbv iota.
        destruct (reg_find r k) eqn:E; [exfalso; apply Dg; constructor|reflexivity]. }
      rewrite E2. destruct sep; reflexivity.
    - inversion A as [| |s' h L]; subst. destruct L as [hb [-> P]]. inversion T; subst.
      cbn [app print_loop].
      rewrite is_marker by lia. rewrite marker_length by lia. rewrite Nat2Z.id.
      pose proof (packed_length _ _ P) as Pl. destruct (packed_bytes _ _ P By) as [pad Pb].
      change LITERAL_RATIO with 4%nat. rewrite <- Pl.
      rewrite app_length. replace (Nat.ltb (length hb + length h') (length hb)) with false by lia.
      rewrite (firstn_exact hb h' _ eq_refl), (skipn_exact hb h' _ eq_refl).
      rewrite Pb, (firstn_exact s pad _ eq_refl).
      destruct (print_loop fuel r separator mark h' false); cbn [bind]; try reflexivity.
      destruct sep, mark; reflexivity.
  Qed.

  Hypothesis slash_name : reg_find r (-3) = [47].
  Hypothesis range_name : reg_find r (-4) = [58].
  Hypothesis sep_not : separator <> 47 /\ separator <> 58.

  Lemma item_atoms_nonempty i h : item_atoms i h -> h <> [].
  Proof. intros A. inversion A as [| |s l [h' [-> _]]]; discriminate. Qed.

  Lemma print_chain l : forall i h t fuel sep,
    chain_ok (named r) (reg_find r) seps mark separator i l ->
    chain_atoms i l h -> chain_text mark i l t -> (length h < fuel)%nat ->
    print_loop fuel r separator mark h sep = Ok ((if sep then [] else [separator]) ++ t).
  Proof.
    destruct sep_not as [Ns Nr].
    induction l as [|[c j] l IH]; intros i h t fuel sep [O Fl] A T Fu.
    - inversion A as [? ? Ai|]; subst. inversion T as [? ? Ti|]; subst.
      destruct fuel as [|fuel]; [lia|].
      assert (P : print_loop fuel r separator mark [] false = Ok []).
      { destruct fuel; [|reflexivity]. apply item_atoms_nonempty in Ai.
        destruct h; [contradiction|cbn in Fu; lia]. }
      rewrite <- (app_nil_r h).
      rewrite (print_item i h t [] fuel sep O Ai Ti), P. cbn [bind]. rewrite app_nil_r. reflexivity.
    - inversion A as [|? ? ? ? h1 h2 Ai Aj]; subst. inversion T as [|? ? ? ? t1 t2 Ti Tj]; subst.
      inversion Fl as [|? ? [Hc Oj] Fl']; subst. cbn [fst snd] in *.
      pose proof (item_atoms_nonempty _ _ Ai) as N1.
      assert (L1 : (1 <= length h1)%nat) by (destruct h1; [contradiction|cbn; lia]).
      rewrite !app_length in Fu.
      destruct fuel as [|fuel]; [lia|].
      rewrite (print_item i h1 t1 (sep_atoms c ++ h2) fuel sep O Ai Ti).
      assert (Ok1 : chain_ok (named r) (reg_find r) seps mark separator j l) by (split; assumption).
      assert (P : print_loop fuel r separator mark (sep_atoms c ++ h2) false = Ok (c :: t2)).
      { unfold sep_atoms in *. destruct (c =? 47) eqn:E47.
        - apply Z.eqb_eq in E47. subst c. cbn [app length] in *. destruct fuel as [|fuel]; [lia|].
          cbn [print_loop]. rewrite not_marker by lia.
          change ((-3 =? AidSlash) || (-3 =? AidRange)) with true.
          rewrite (IH j h2 t2 fuel true Ok1 Aj Tj) by lia. cbn [bind].
          unfold aid_toString, aid_index. change (0 <=? -3) with false. cbv iota.
          change (0 <=? -1) with false. cbv iota. rewrite slash_name. reflexivity.
        - destruct (c =? 58) eqn:E58.
          + apply Z.eqb_eq in E58. subst c. cbn [app length] in *. destruct fuel as [|fuel]; [lia|].
            cbn [print_loop]. rewrite not_marker by lia.
            change ((-4 =? AidSlash) || (-4 =? AidRange)) with true.
            rewrite (IH j h2 t2 fuel true Ok1 Aj Tj) by lia. cbn [bind].
            unfold aid_toString, aid_index. change (0 <=? -4) with false. cbv iota.
            change (0 <=? -1) with false. cbv iota. rewrite range_name. reflexivity.
          + assert (c = separator) by lia. subst c. cbn [app length] in *.
            rewrite (IH j h2 t2 fuel false Ok1 Aj Tj) by lia. reflexivity. }
      rewrite P. reflexivity.
  Qed.

  Lemma toString_chain i l h t :
    chain_ok (named r) (reg_find r) seps mark separator i l ->
    chain_atoms i l h -> chain_text mark i l t ->
    toString r separator mark h = Ok t.
  Proof.
    intros O A T. unfold toString.
    assert (N : h <> []).
    { inversion A; subst; [eapply item_atoms_nonempty; eauto|].
      apply item_atoms_nonempty in H. intros E. apply app_eq_nil in E. tauto. }
    rewrite (print_chain l i h t (S (length h)) true O A T) by lia.
    destruct h; [contradiction|reflexivity].
  Qed.
End Print.

Section Read.
  Variable r : registry.
  Variable seps : list Z.
  Hypothesis plain : plain_seps seps.

  Lemma numeral_short n t : 0 <= n < 2147418112 -> numeral n t -> fits t.
  Proof.
    intros B N. split.
    - destruct N as (_ & D & _). eapply Forall_impl; [|exact D]. unfold digit, byte. intros; lia.
    - assert (Hd : hd_error t <> Some 36).
      { destruct N as (_ & D & _). destruct t as [|c t]; [discriminate|]. inversion D; subst.
        unfold digit in *. cbn. intros E. injection E as ->. lia. }
      unfold short. rewrite (payload_other _ Hd). destruct (Z.lt_ge_cases (Z.of_nat (length t)) 65536) as [H|H]; [exact H|exfalso].
      destruct N as (N0 & D & V & Z0). destruct (Z.eq_dec (hd 0 t) 48) as [E|E].
      + destruct t as [|c t]; [contradiction|]. cbn in E. subst c. specialize (Z0 eq_refl).
        rewrite Z0 in H. cbn in H. lia.
      + assert (hd_error t <> Some 48) by (destruct t; [contradiction|cbn in *; congruence]).
        pose proof (decimal_lead t D H0 N0) as L. rewrite V in L.
        assert (10 ^ 10 <= 10 ^ (Z.of_nat (length t) - 1)) by (apply Z.pow_le_mono_r; lia).
        change (10 ^ 10) with 10000000000 in H1. lia.
  Qed.

  Lemma item_reads mark allow i h t :
    item_ok (named r) (reg_find r) seps mark i -> item_atoms i h -> item_text mark i t ->
    mark = true \/ allow = true ->
    field_means (named r) allow t h /\ free_of seps t /\ fits t.
  Proof.
    intros O A T MA. inversion O as [n B|k s N N3 N4 Nm Na Dg Dl Fr By Sh|s By Lo Fr Sh Un]; subst.
    - inversion A; subst. inversion T as [? ? Nt| |]; subst. pose proof Nt as (N0 & D & V & _).
      split; [|split].
      + rewrite <- V. apply fm_number; auto. rewrite V. apply i32_enough; exact B.
      + intros c Hc I. apply plain in I. rewrite Forall_forall in D. apply (proj1 I), D, Hc.
      + eapply numeral_short; eauto.
    - inversion A; subst. inversion T; subst. split; [|split; [exact Fr|split; [assumption|unfold short; rewrite payload_other; assumption]]].
      apply fm_name; assumption.
    - inversion A as [| |? ? L]; subst. inversion T; subst. destruct mark.
      + split; [apply fm_dollar; rewrite Lo; exact L|]. split.
        * intros c [<-|Hc]; [intros I; apply plain in I; lia|apply Fr; exact Hc].
        * split; [constructor; [unfold byte; lia|exact By]|].
          exact Sh.
      + destruct (Un eq_refl) as (Nd & Nh & Nn).
        split; [|split; [exact Fr|split; [assumption|unfold short; rewrite payload_other; assumption]]].
        apply fm_other; rewrite ?Lo; auto. destruct MA; [discriminate|assumption].
  Qed.

  Lemma chain_reads mark l :
    forall i h t allow,
    item_ok (named r) (reg_find r) seps mark i /\
    Forall (fun cj => In (fst cj) seps /\ item_ok (named r) (reg_find r) seps mark (snd cj)) l ->
    chain_atoms i l h -> chain_text mark i l t -> mark = true \/ allow = true ->
    exists fcs f, join fcs f = t /\ splits seps fcs f /\ fields_fit fcs f /\
                  reads (named r) allow fcs f h.
  Proof.
    induction l as [|[c j] l IH]; intros i h t allow [O Fl] A T MA.
    - inversion A as [? ? Ai|]; subst. inversion T as [? ? Ti|]; subst.
      destruct (item_reads mark allow i h t O Ai Ti MA) as (M & Fr & Fi).
      exists [], t. split; [reflexivity|]. split; [split; [exact Fr|constructor]|].
      split; [split; [constructor|exact Fi]|]. constructor. exact M.
    - inversion A as [|? ? ? ? h1 h2 Ai Aj]; subst. inversion T as [|? ? ? ? t1 t2 Ti Tj]; subst.
      inversion Fl as [|? ? [Hc Oj] Fl']; subst. cbn [fst snd] in *.
      destruct (item_reads mark allow i h1 t1 O Ai Ti MA) as (M & Fr & Fi).
      assert (MA' : mark = true \/ allow_after allow t1 = true).
      { destruct MA as [->| ->]; [left; reflexivity|right; apply allow_true]. }
      destruct (IH j h2 t2 (allow_after allow t1) (conj Oj Fl') Aj Tj MA')
        as (fcs & f & J & [Sf Sg] & [Fg Ff] & R).
      exists ((t1, c) :: fcs), f. split; [cbn [join]; rewrite J; reflexivity|].
      split; [split; [exact Sf|constructor; [split; [exact Fr|]|exact Sg]]|].
      { exact Hc. }
      split; [split; [constructor; assumption|exact Ff]|].
      constructor; assumption.
  Qed.

  Lemma item_text_nonempty mark i t :
    item_ok (named r) (reg_find r) seps mark i -> item_text mark i t -> t <> [].
  Proof.
    intros O T. inversion T as [? ? (N & _)| |]; subst; [exact N| |].
    - inversion O; subst. intros E. match goal with H : ~ Forall digit _ |- _ => apply H; rewrite E; constructor end.
    - inversion O as [| |? By Lo Fr Sh Un]; subst. destruct mark; [discriminate|].
      destruct (Un eq_refl) as (Nd & _). intros ->. apply Nd. constructor.
  Qed.
End Read.

Lemma read_items r sepset mark i l h t allow :
  plain_seps sepset ->
  item_ok (named r) (reg_find r) (sepset ++ [47; 58]) mark i ->
  Forall (fun cj => In (fst cj) (sepset ++ [47; 58]) /\
                    item_ok (named r) (reg_find r) (sepset ++ [47; 58]) mark (snd cj)) l ->
  chain_atoms i l h -> chain_text mark i l t -> mark = true \/ allow = true ->
  addString r t sepset allow [] = Ok h.
Proof.
  intros P O Fl A T MA.
  assert (P2 : plain_seps (sepset ++ [47; 58])).
  { intros c Hc. apply in_app_iff in Hc as [Hc|Hc]; [auto|]. unfold digit. cbn in Hc. lia. }
  destruct (chain_reads r _ P2 mark l i h t allow (conj O Fl) A T MA)
    as (fcs & f & J & Sp & Fi & R).
  assert (N : join fcs f <> []).
  { rewrite J. inversion T; subst; [eapply item_text_nonempty; eassumption|].
    match goal with |- ?a ++ _ <> [] => destruct a; discriminate end. }
  rewrite <- J. rewrite (addString_reads r sepset allow fcs f [] h Sp Fi N).
  exists h. split; [reflexivity|exact R].
Qed.

Lemma read_chain r sepset mark sep i l h t allow :
  plain_seps sepset -> In sep sepset ->
  chain_ok (named r) (reg_find r) (sepset ++ [47; 58]) mark sep i l ->
  chain_atoms i l h -> chain_text mark i l t -> mark = true \/ allow = true ->
  addString r t sepset allow [] = Ok h.
Proof.
  intros P Is [O Fl] A T MA. apply (read_items r sepset mark i l h t allow P O); [|exact A|exact T|exact MA].
  eapply Forall_impl; [|exact Fl]. intros [c j] [Hc Oj]. cbn [fst snd] in *.
  split; [|exact Oj]. apply in_app_iff.
  destruct Hc as [->|[->| ->]]; [left; exact Is|right; cbn; auto|right; cbn; auto].
Qed.
