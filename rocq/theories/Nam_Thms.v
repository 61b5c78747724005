(** The text form of identifiers. *)
From Verif Require Import Base Bytes_Model Bytes_Proofs Hiid_Model Nam_Model Nam_Spec Nam_Proofs
  Nam_Parse Nam_Print Nam_Reg Nam_Lit.
Local Open Scope Z_scope.

(** characters used below: a=97 b=98 z=122 A=65 $=36 .=46 _=95 /=47 :=58 *)
Definition reg_ex : registry :=
  reg_step (reg_step reg_basic (-1001) [65] true) (-1019) [66; 97; 122] true.  (* "A", "Baz" *)

(** ** Reading field by field *)
Theorem every_string_splits : forall seps s,
  (exists fcs f, splits seps fcs f /\ join fcs f = s) /\
  (forall fcs f fcs' f', splits seps fcs f -> splits seps fcs' f' ->
     join fcs f = s -> join fcs' f' = s -> fcs = fcs' /\ f = f').
Proof.
  intros seps s. split; [apply decompose|].
  intros fcs f fcs' f' A B E E'. eapply decompose_unique; eauto. congruence.
Qed.
Print Assumptions every_string_splits.

Theorem reading_fields : forall r sepset allow fcs f h,
  splits (sepset ++ [47; 58]) fcs f -> fields_fit fcs f -> join fcs f <> [] ->
  (hiid_of_string_sep r (join fcs f) allow sepset = Ok h <->
   reads (fun s k => k <> 0 /\ reg_rfind r s = k) allow fcs f h).
Proof.
  intros r sepset allow fcs f h Sp Fi N. unfold hiid_of_string_sep.
  rewrite (addString_reads r sepset allow fcs f [] h Sp Fi N). split.
  - intros [l [-> R]]. exact R.
  - intros R. exists h. split; [reflexivity|exact R].
Qed.
Print Assumptions reading_fields.
Example ex_reading :   (* "a/7._.zz" *)
  hiid_of_string_sep reg_ex [97; 47; 55; 46; 46; 122; 122] true [46; 95]
  = Ok [-1001; AidSlash; 7; AidEmpty; 2147418114; -34182].
Proof. reflexivity. Qed.

Theorem reading_ignores_case : forall r s t allow sepset,
  same_but_case s t ->
  (forall c, In c sepset -> ~ upper_letter c /\ ~ lower_letter c) ->
  hiid_of_string_sep r s allow sepset = hiid_of_string_sep r t allow sepset.
Proof.
  intros r s t allow sepset E L. unfold hiid_of_string_sep.
  rewrite <- (addString_lower r s), <- (addString_lower r t) by exact L.
  rewrite !strlower_eq. unfold same_but_case in E. rewrite E. reflexivity.
Qed.
Print Assumptions reading_ignores_case.
Example ex_case : hiid_of_string reg_ex [98; 65; 90] = Ok [-1019].
Proof. reflexivity. Qed.

(** two strings put together with a '.' read as the two identifiers put together *)
Theorem reading_joins : forall r sepset c s t h1 h2 allow,
  In c sepset -> c <> 47 -> c <> 58 ->
  Forall byte s -> Forall byte t ->
  Z.of_nat (length s) < 65536 -> Z.of_nat (length t) < 65536 ->
  s <> [] -> t <> [] ->
  hiid_of_string_sep r s allow sepset = Ok h1 ->
  hiid_of_string_sep r t allow sepset = Ok h2 ->
  hiid_of_string_sep r (s ++ c :: t) allow sepset = Ok (h1 ++ h2).
Proof.
  intros r sepset c s t h1 h2 allow I N47 N58 Bs Bt Ls Lt Ns Nt H1 H2.
  assert (FF : forall u, Forall byte u -> Z.of_nat (length u) < 65536 -> fits u).
  { intros u B L. split; [exact B|]. unfold short.
    destruct (dollar_dec u) as [[v ->]|D]; [cbn [payload length] in *; lia|rewrite (payload_other _ D); exact L]. }
  assert (FJ : forall fcs f, Forall byte (join fcs f) -> Z.of_nat (length (join fcs f)) < 65536 -> fields_fit fcs f).
  { induction fcs as [|[g d] fcs IH]; intros f B L; cbn [join] in *.
    - split; [constructor|]. apply FF; assumption.
    - apply Forall_app in B as [B1 B2]. apply Forall_cons_iff in B2 as [_ B2].
      rewrite app_length in L. cbn [length] in L.
      destruct (IH f B2 ltac:(lia)) as [Q1 Q2].
      split; [|exact Q2]. constructor; [|exact Q1]. cbn [fst]. apply FF; [exact B1|lia]. }
  destruct (decompose (sepset ++ [47; 58]) s) as (fcs1 & f1 & S1 & <-).
  destruct (decompose (sepset ++ [47; 58]) t) as (fcs2 & f2 & S2 & <-).
  assert (F1 := FJ _ _ Bs Ls). assert (F2 := FJ _ _ Bt Lt).
  rewrite (reading_fields r sepset allow fcs1 f1 h1 S1 F1 Ns) in H1.
  rewrite (reading_fields r sepset allow fcs2 f2 h2 S2 F2 Nt) in H2.
  rewrite <- join_app.
  rewrite (reading_fields r sepset allow (fcs1 ++ (f1, c) :: fcs2) f2 (h1 ++ h2)).
  - pose proof (reads_app _ allow fcs1 f1 c fcs2 f2 h1 h2 H1 H2) as R.
    unfold sep_atoms in R. replace (c =? 47) with false in R by lia.
    replace (c =? 58) with false in R by lia. exact R.
  - apply splits_app; auto. apply in_app_iff. left. exact I.
  - destruct F1 as [F1a F1b]. destruct F2 as [F2a F2b]. split; [|exact F2b].
    apply Forall_app. split; [exact F1a|]. constructor; assumption.
  - rewrite join_app. destruct (join fcs1 f1); discriminate.
Qed.
Print Assumptions reading_joins.
Example ex_joins :
  hiid_of_string reg_ex [97; 46] = Ok [-1001; AidEmpty] /\
  hiid_of_string reg_ex [47; 98; 97; 122] = Ok [AidEmpty; AidSlash; -1019] /\
  hiid_of_string reg_ex [97; 46; 46; 47; 98; 97; 122] = Ok [-1001; AidEmpty; AidEmpty; AidSlash; -1019].
Proof. split; [|split]; reflexivity. Qed.

(** the order of the fields decides whether an unknown one is accepted: a field with
    a '$' switches literals on for the fields after it *)
Theorem field_order_refuted :
  ~ (forall r s t c h, In c [46; 95] -> s <> [] -> t <> [] ->
       hiid_of_string r (s ++ c :: t) = Ok h ->
       exists h', hiid_of_string r (t ++ c :: s) = Ok h').
Proof.
  intros C. (* "$a.zz" and "zz.$a" *)
  destruct (C reg_ex [36; 97] [122; 122] 46 [2147418113; -159; 2147418114; -34182])
    as [h' E]; [cbn; auto|discriminate|discriminate|reflexivity|].
  vm_compute in E. discriminate.
Qed.
Print Assumptions field_order_refuted.

(** ** Printing and reading back *)
Theorem printed_reads_back_partial : forall r sepset sep i l h t allow,
  reg_find r (-3) = [47] -> reg_find r (-4) = [58] ->
  plain_seps sepset -> In sep sepset -> sep <> 47 -> sep <> 58 ->
  chain_ok (fun s k => k <> 0 /\ reg_rfind r s = k) (reg_find r) (sepset ++ [47; 58]) true sep i l ->
  chain_atoms i l h -> chain_text true i l t ->
  toString r sep true h = Ok t /\
  hiid_of_string_sep r t allow sepset = Ok h.
Proof.
  intros r sepset sep i l h t allow Ns Nr P I N47 N58 O A T. split.
  - apply (toString_chain r (sepset ++ [47; 58]) true sep Ns Nr (conj N47 N58) i l h t O A T).
  - apply (read_chain r sepset true sep i l h t allow P I O A T). left. reflexivity.
Qed.
Print Assumptions printed_reads_back_partial.
Example ex_back :   (* "A_$zz/7:Baz" *)
  toString reg_ex 95 true [-1001; 2147418114; -34182; AidSlash; 7; AidRange; -1019]
  = Ok [65; 95; 36; 122; 122; 47; 55; 58; 66; 97; 122] /\
  hiid_of_string reg_ex [65; 95; 36; 122; 122; 47; 55; 58; 66; 97; 122]
  = Ok [-1001; 2147418114; -34182; AidSlash; 7; AidRange; -1019].
Proof. split; reflexivity. Qed.

(** not so for every identifier that a string can give: an empty field becomes two *)
Theorem printed_reads_back_refuted :
  ~ (forall r s h t, hiid_of_string r s = Ok h -> toString r 95 true h = Ok t ->
       hiid_of_string r t = Ok h).
Proof.
  intros C. (* "a." reads as A and the empty atom, which prints as "A__" *)
  specialize (C reg_ex [97; 46] [-1001; AidEmpty] [65; 95; 95] eq_refl eq_refl).
  vm_compute in C. discriminate.
Qed.
Print Assumptions printed_reads_back_refuted.

(** an index at or above 2147418112 is taken for the start of a literal: the text is
    lost, or memory past the identifier is read *)
Theorem large_index_refuted :
  ~ (forall r n, 0 <= n < 2^31 ->
       exists t, toString r 95 true [n] = Ok t /\ hiid_of_string r t = Ok [n]).
Proof.
  intros C. destruct (C reg_ex 2147418116 ltac:(change (2^31) with 2147483648; lia)) as [t [E _]].
  vm_compute in E. discriminate.
Qed.
Print Assumptions large_index_refuted.
Example ex_large_index : toString reg_ex 95 true [2147418112] = Ok [36].
Proof. reflexivity. Qed.

(** ** Record keys through Python and back *)
Theorem python_keys_partial : forall r i l h t u,
  reg_find r (-3) = [47] -> reg_find r (-4) = [58] ->
  item_ok (fun s k => k <> 0 /\ reg_rfind r s = k) (reg_find r) [46; 95; 47; 58] false i ->
  Forall (fun cj => In (fst cj) [46; 95; 47; 58] /\
          item_ok (fun s k => k <> 0 /\ reg_rfind r s = k) (reg_find r) [46; 95; 47; 58] false (snd cj)) l ->
  chain_atoms i l h -> chain_text false i l t -> same_but_case u t ->
  key_of_python r u = Ok h /\
  python_of_key r h = Ok (lower_str (map dot_us u)).
Proof.
  intros r i l h t u Ns Nr O F A T E.
  assert (P : plain_seps [46; 95]).
  { intros c Hc. unfold digit. cbn in Hc. lia. }
  assert (P4 : plain_seps [46; 95; 47; 58]).
  { intros c Hc. unfold digit. cbn in Hc. lia. }
  assert (LL : forall c, In c [46; 95] -> ~ upper_letter c /\ ~ lower_letter c).
  { intros c Hc. unfold upper_letter, lower_letter. cbn in Hc. lia. }
  split.
  - unfold key_of_python. rewrite (reading_ignores_case r u t true [46; 95] E LL).
    apply (read_items r [46; 95] false i l h t true P O F A T). right. reflexivity.
  - assert (O2 : chain_ok (named r) (reg_find r) [46; 95; 47; 58] false 95 i (map us_sep l)).
    { split; [exact O|]. apply Forall_forall. intros [c j] Hc. apply in_map_iff in Hc as [[d k] [X Y]].
      rewrite Forall_forall in F. destruct (F _ Y) as [Fd Fk]. unfold us_sep in X. cbn [fst snd] in *.
      assert (c = dot_us d) by congruence. assert (j = k) by congruence. subst c j.
      split; [|exact Fk]. unfold dot_us. cbn in Fd. destruct (d =? 46) eqn:Ed; lia. }
    pose proof (toString_chain r [46; 95; 47; 58] false 95 Ns Nr ltac:(lia) i (map us_sep l) h (map dot_us t)
                  O2 (us_atoms l i h A) (us_text r _ l P4 ltac:(cbn; auto) i t O F T)) as Q.
    unfold python_of_key. rewrite Q. cbn [bind]. rewrite strlower_eq. f_equal.
    assert (C : forall v, lower_str (map dot_us v) = map dot_us (lower_str v)).
    { intros v. unfold lower_str. rewrite !map_map. apply map_ext. intros c. unfold dot_us, lower.
      destruct (c =? 46) eqn:E1; [apply Z.eqb_eq in E1; subst c; reflexivity|].
      destruct ((65 <=? c) && (c <=? 90)) eqn:E2; [|rewrite E1; reflexivity].
      replace (c + 32 =? 46) with false by lia. reflexivity. }
    rewrite !C. unfold same_but_case in E. rewrite E. reflexivity.
Qed.
Print Assumptions python_keys_partial.
Example ex_python :   (* "A.Zz.7" comes back as "a_zz_7" *)
  key_of_python reg_ex [65; 46; 90; 122; 46; 55] = Ok [-1001; 2147418114; -34182; 7] /\
  python_of_key reg_ex [-1001; 2147418114; -34182; 7] = Ok [97; 95; 122; 122; 95; 55].
Proof. split; reflexivity. Qed.

(** not for every key: an empty field grows by one each time *)
Theorem python_keys_refuted :
  ~ (forall r u h, u <> [] -> lower_str u = u -> map dot_us u = u ->
       key_of_python r u = Ok h -> python_of_key r h = Ok u).
Proof.
  intros C. (* "a_" *)
  specialize (C reg_ex [97; 95] [-1001; AidEmpty]
                ltac:(discriminate) eq_refl eq_refl eq_refl). vm_compute in C. discriminate.
Qed.
Print Assumptions python_keys_refuted.

(** and two keys may be one field: leading zeros are dropped, "$a" is "a" *)
Theorem python_keys_collide_refuted :
  ~ (forall r u v h, u <> v -> lower_str u = u -> lower_str v = v ->
       key_of_python r u = Ok h -> key_of_python r v <> Ok h).
Proof.
  intros C. (* "07" and "7" *)
  apply (C reg_ex [48; 55] [55] [7]); [discriminate|reflexivity..].
Qed.
Print Assumptions python_keys_collide_refuted.

(** ** Literals *)
Theorem literals_apart_partial : forall s t h h',
  Forall ascii s -> Forall ascii t ->
  Z.of_nat (length s) < 65536 -> Z.of_nat (length t) < 65536 ->
  h = makeLiteral s [] -> h' = makeLiteral t [] ->
  (h = h' <-> s = t) /\
  (hiid_matches h h' = true <-> s = t) /\
  splitAtSlash h = (h, []).
Proof.
  intros s t h h' As At Ls Lt -> ->.
  assert (Bs : Forall byte s) by (eapply Forall_impl; [apply ascii_byte|exact As]).
  assert (Bt : Forall byte t) by (eapply Forall_impl; [apply ascii_byte|exact At]).
  destruct (literal_make s [] Bs Ls) as [l [-> L]]. destruct (literal_make t [] Bt Lt) as [l' [-> L']].
  cbn [app].
  pose proof (literal_ordinary _ _ L As) as O. pose proof (literal_ordinary _ _ L' At) as O'.
  assert (Q : l = l' <-> s = t).
  { split; [intros ->; eapply literal_inj; eauto|intros ->; eapply literal_unique; eauto]. }
  split; [exact Q|]. split; [rewrite (ordinary_matches _ _ O O'); exact Q|].
  unfold splitAtSlash. rewrite (ordinary_no_slash _ O). reflexivity.
Qed.
Print Assumptions literals_apart_partial.
Example ex_literals_apart : makeLiteral [97; 98; 99; 100; 101] [] = [2147418117; 1684234849; -155].
Proof. reflexivity. Qed.

(** outside ASCII a literal can hold a wildcard or a slash *)
Theorem literals_apart_refuted :
  ~ (forall s t, Forall byte s -> Forall byte t ->
       hiid_matches (makeLiteral s []) (makeLiteral t []) = true -> s = t).
Proof.
  intros C. specialize (C [254] [97]).
  assert (B : forall c, 0 <= c < 256 -> Forall byte [c]) by (intros c Hc; repeat constructor; unfold byte; lia).
  specialize (C (B 254 ltac:(lia)) (B 97 ltac:(lia)) eq_refl). discriminate.
Qed.
Print Assumptions literals_apart_refuted.

(** a literal of 65536 bytes or more is printed as one of a length 65536 less *)
Theorem long_literal_refuted :
  ~ (forall r s, Forall byte s -> toString r 95 true (makeLiteral s []) = Ok (36 :: s)).
Proof.
  intros C. specialize (C reg_ex (repeat 97 (Z.to_nat 65536))).
  assert (F : Forall byte (repeat 97 (Z.to_nat 65536))).
  { apply Forall_forall. intros c Hc. apply repeat_spec in Hc. subst c. unfold byte. lia. }
  specialize (C F).
  assert (E : (match toString reg_ex 95 true (makeLiteral (repeat 97 (Z.to_nat 65536)) []) with
               | Ok t => firstn 3 t | _ => [] end) = [36; 95; 49]) by (vm_compute; reflexivity).
  rewrite C in E. vm_compute in E. discriminate.
Qed.
Print Assumptions long_literal_refuted.

(** the atoms of a literal are taken for indices *)
Theorem literal_index_refuted :
  ~ (forall s, Forall ascii s -> popTrailIndex (makeLiteral s []) = (0, makeLiteral s [])).
Proof.
  intros C. specialize (C [97; 98; 99; 100]).
  assert (F : Forall ascii [97; 98; 99; 100]).
  { repeat constructor; unfold ascii; lia. }
  specialize (C F). vm_compute in C. discriminate.
Qed.
Print Assumptions literal_index_refuted.

(** ** The registry *)
Theorem registry_after_history : forall H,
  exists A, takes_effect H A /\
    let r := run reg_empty H in
    (forall k, reg_find r k = match latest A k with Some s => s | None => [] end) /\
    (forall s, reg_rfind r s = match first_with A s with Some k => k | None => 0 end).
Proof.
  intros H. destruct (takes_effect_total H) as [A T]. exists A. split; [exact T|].
  destruct (history_knows H A T) as [K1 K2]. cbv zeta. split.
  - intros k. unfold reg_find. rewrite K1. reflexivity.
  - intros s. unfold reg_rfind. rewrite K2. reflexivity.
Qed.
Print Assumptions registry_after_history.
Example ex_registry :
  let H := [MkEv (-1001) [65] false; MkEv (-1001) [66] false; MkEv (-1001) [67] true; MkEv (-1002) [97] false] in
  let r := run reg_empty H in
  reg_find r (-1001) = [67] /\ reg_find r (-1002) = [97] /\
  reg_rfind r [97] = -1001 /\ reg_rfind r [98] = 0 /\ reg_rfind r [99] = -1001.
Proof. split; [|split; [|split; [|split]]]; reflexivity. Qed.

(** an id is found again by the name it goes by, unless another id took that name *)
Theorem names_lead_back_partial : forall H A k s,
  takes_effect H A ->
  (forall e e', In e A -> In e' A ->
     lower_str (ev_name e) = lower_str (ev_name e') -> ev_key e = ev_key e') ->
  latest A k = Some s -> k < 0 -> s <> [] -> ~ Forall digit s ->
  let r := run reg_empty H in
  aid_toString r k = s /\
  (forall u, same_but_case u s -> findName r u = Ok (Some k)).
Proof.
  intros H A k s T U L N Ne D. destruct (history_knows H A T) as [K1 K2]. cbv zeta.
  assert (Fk : reg_find (run reg_empty H) k = s).
  { unfold reg_find. rewrite K1, L. reflexivity. }
  split.
  - unfold aid_toString, aid_index. replace (0 <=? k) with false by lia.
    change (0 <=? -1) with false. cbv iota. rewrite Fk. destruct s; [contradiction|reflexivity].
  - intros u E.
    assert (Du : ~ Forall digit u).
    { intros X. apply D. apply lower_digits. unfold same_but_case in E. rewrite <- E.
      apply lower_digits. exact X. }
    rewrite findName_name by exact Du. unfold same_but_case in E. rewrite E.
    destruct (latest_in _ _ _ L) as [e [I [Ek En]]].
    assert (R : reg_rfind (run reg_empty H) (lower_str s) = k).
    { unfold reg_rfind. rewrite K2, <- En, (first_with_unique A e I); [exact Ek|].
      intros e' I' X. apply U; auto. }
    rewrite R. replace (k =? 0) with false by lia. reflexivity.
Qed.
Print Assumptions names_lead_back_partial.

(** names that differ only in case are one name *)
Theorem names_lead_back_refuted :
  ~ (forall H k s, let r := run reg_empty H in
       reg_find r k = s -> k < 0 -> s <> [] -> ~ Forall digit s -> findName r s = Ok (Some k)).
Proof.
  intros C. specialize (C [MkEv (-1001) [65] false; MkEv (-1002) [97] false] (-1002) [97] eq_refl).
  assert (D : ~ Forall digit [97]) by (intros X; apply Forall_cons_iff in X as [X _]; unfold digit in X; lia).
  specialize (C ltac:(lia) ltac:(discriminate) D). vm_compute in C. discriminate.
Qed.
Print Assumptions names_lead_back_refuted.

(** the names of the separators, given at start-up and kept by whatever follows *)
Theorem separators_named : forall H A, takes_effect H A ->
  (forall e, In e A -> ev_key e <> -3 /\ ev_key e <> -4) ->
  let r := run reg_basic H in reg_find r (-3) = [47] /\ reg_find r (-4) = [58].
Proof.
  intros H A T N.
  assert (Q : forall k, (forall e, In e A -> ev_key e <> k) ->
            map_find k (r_map (run reg_basic H)) = map_find k (r_map reg_basic) /\ latest A k = None).
  { intros k Nk.
    assert (W : forall H A, takes_effect H A -> (forall e, In e A -> ev_key e <> k) -> latest A k = None).
    { clear. intros H A _. induction A as [|a A IH]; intros N; [reflexivity|]. cbn [latest].
      rewrite IH by (intros e I; apply N; right; exact I).
      specialize (N a (or_introl eq_refl)). replace (ev_key a =? k) with false by lia. reflexivity. }
    split; [|exact (W H A T Nk)]. clear W N.
    assert (St : forall r j v o, j <> k -> map_find k (r_map (reg_step r j v o)) = map_find k (r_map r)).
    { intros r j v o Nj. rewrite step_eq. unfold bi_add, uni_add.
      destruct (map_find j (r_map r)) as [v0|] eqn:E.
      - destruct (str_eqb_spec v0 v); [reflexivity|]. destruct o; [|reflexivity]. cbn [bind r_map].
        rewrite (map_find_set k _ _ _ _ E). replace (k =? j) with false by lia. reflexivity.
      - cbn [bind r_map]. rewrite map_find_app. replace (k =? j) with false by lia.
        destruct (map_find k (r_map r)); reflexivity. }
    revert Nk. induction T as [|H A e T IH C|H A e s T IH O L D]; intros Nk; [reflexivity| |].
    - rewrite run_app, St by (apply Nk, in_app_iff; right; left; reflexivity).
      apply IH. intros e' I. apply Nk, in_app_iff. left. exact I.
    - rewrite run_app, St; [apply IH; exact Nk|].
      destruct (latest_in _ _ _ L) as [e' [I [Ek _]]]. rewrite <- Ek. apply Nk. exact I. }
  destruct (Q (-3) (fun e I => proj1 (N e I))) as [Q3 _].
  destruct (Q (-4) (fun e I => proj2 (N e I))) as [Q4 _].
  cbv zeta. unfold reg_find. rewrite Q3, Q4. split; reflexivity.
Qed.
Print Assumptions separators_named.
Example ex_separators : reg_find reg_ex (-3) = [47] /\ reg_find reg_ex (-4) = [58].
Proof. split; reflexivity. Qed.
