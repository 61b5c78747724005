(** Literals as seen by the rest of the identifier code, and record keys. *)
From Verif Require Import Base Bytes_Model Bytes_Proofs Hiid_Model Nam_Model Nam_Spec Nam_Proofs
  Nam_Parse Nam_Print Nam_Reg.
Local Open Scope Z_scope.

(** an atom that is neither a wildcard nor a separator nor any special atom *)
Definition ordinary (a : Z) : Prop := 0 <= a \/ a <= -129.

Lemma word_value a b0 b1 b2 b3 : word a b0 b1 b2 b3 ->
  byte b0 -> byte b1 -> byte b2 -> byte b3 ->
  a = b0 + 256 * b1 + 65536 * b2 + 16777216 * b3 - (if b3 <? 128 then 0 else 4294967296).
Proof.
  intros W B0 B1 B2 B3. unfold byte in *.
  assert (W' : word (b0 + 256 * b1 + 65536 * b2 + 16777216 * b3 - (if b3 <? 128 then 0 else 4294967296))
                 b0 b1 b2 b3).
  { unfold word. change (2^31) with 2147483648. change (2^32) with 4294967296.
    destruct (b3 <? 128) eqn:E.
    - split; [lia|]. rewrite Z.sub_0_r, Z.mod_small; lia.
    - split; [lia|].
      replace (b0 + 256 * b1 + 65536 * b2 + 16777216 * b3 - 4294967296)
        with ((b0 + 256 * b1 + 65536 * b2 + 16777216 * b3) + (-1) * 4294967296) by ring.
      rewrite Z.mod_add, Z.mod_small; lia. }
  exact (word_inj _ _ _ _ _ _ W W').
Qed.

Lemma ascii_byte c : ascii c -> byte c.
Proof. unfold ascii, byte. lia. Qed.

Lemma packed_ordinary s h : packed s h -> Forall ascii s -> Forall ordinary h.
Proof.
  assert (B255 : byte 255) by (unfold byte; lia).
  assert (Q : forall a b0 b1 b2 b3, word a b0 b1 b2 b3 -> ascii b0 ->
              (b1 = 255 \/ ascii b1) -> (b2 = 255 \/ ascii b2) -> (b3 = 255 \/ ascii b3) -> ordinary a).
  { intros a b0 b1 b2 b3 W A0 A1 A2 A3.
    assert (byte b0 /\ byte b1 /\ byte b2 /\ byte b3) as (B0 & B1 & B2 & B3).
    { unfold ascii, byte in *. lia. }
    pose proof (word_value _ _ _ _ _ W B0 B1 B2 B3) as V. unfold ordinary, ascii, byte in *.
    destruct (b3 <? 128) eqn:E; lia. }
  induction 1 as [|a b0 W|a b0 b1 W|a b0 b1 b2 W|a b0 b1 b2 b3 s h W P IH]; intros F.
  - constructor.
  - apply Forall_cons_iff in F as [F0 _]. constructor; [eapply Q; eauto|constructor].
  - apply Forall_cons_iff in F as [F0 F]. apply Forall_cons_iff in F as [F1 _].
    constructor; [eapply Q; eauto|constructor].
  - apply Forall_cons_iff in F as [F0 F]. apply Forall_cons_iff in F as [F1 F].
    apply Forall_cons_iff in F as [F2 _]. constructor; [eapply Q; eauto|constructor].
  - apply Forall_cons_iff in F as [F0 F]. apply Forall_cons_iff in F as [F1 F].
    apply Forall_cons_iff in F as [F2 F]. apply Forall_cons_iff in F as [F3 F].
    constructor; [eapply Q; eauto|auto].
Qed.

Lemma literal_ordinary s h : literal s h -> Forall ascii s -> Forall ordinary h.
Proof.
  intros [h' [-> P]] F. constructor; [left; lia|]. eapply packed_ordinary; eauto.
Qed.

Lemma ordinary_matches x : forall y, Forall ordinary x -> Forall ordinary y ->
  hiid_matches x y = true <-> x = y.
Proof.
  assert (W : forall a, ordinary a -> isWildcard a = false)
    by (unfold ordinary, isWildcard, AidWildcard; intros; lia).
  assert (An : forall a, ordinary a -> isAny a = false)
    by (unfold ordinary, isAny, AidAny; intros; lia).
  induction x as [|a x IH]; intros [|b y] F G.
  - split; reflexivity.
  - apply Forall_cons_iff in G as [G0 G]. cbn. rewrite (W _ G0). split; discriminate.
  - apply Forall_cons_iff in F as [F0 F]. cbn. rewrite (W _ F0). split; discriminate.
  - apply Forall_cons_iff in F as [F0 F]. apply Forall_cons_iff in G as [G0 G].
    cbn [hiid_matches]. rewrite (W _ F0), (W _ G0). cbn [orb].
    unfold aid_matches. rewrite (W _ F0), (W _ G0), (An _ F0), (An _ G0). cbn [orb].
    destruct (a =? b) eqn:E; cbn [negb].
    + apply Z.eqb_eq in E. subst b. rewrite (IH y F G). split; intros H; [congruence|congruence].
    + split; [discriminate|]. intros H. apply Z.eqb_neq in E. congruence.
Qed.

Lemma ordinary_no_slash x : Forall ordinary x -> findFirstSlash x = None.
Proof.
  induction 1 as [|a x O F IH]; [reflexivity|]. cbn [findFirstSlash].
  replace (a =? AidSlash) with false by (unfold AidSlash, ordinary in *; lia).
  rewrite IH. reflexivity.
Qed.

(** ** Keys with '.' written as '_' *)
Definition us_sep (cj : Z * item) : Z * item := (dot_us (fst cj), snd cj).

Lemma us_atoms l : forall i h, chain_atoms i l h -> chain_atoms i (map us_sep l) h.
Proof.
  induction l as [|[c j] l IH]; intros i h A; inversion A; subst; cbn [map]; [constructor; assumption|].
  unfold us_sep at 1. cbn [fst snd].
  replace (sep_atoms c) with (sep_atoms (dot_us c)); [constructor; auto|].
  unfold dot_us, sep_atoms. destruct (c =? 46) eqn:E; [|reflexivity].
  apply Z.eqb_eq in E. subst c. reflexivity.
Qed.

Lemma us_free seps t : In 46 seps -> free_of seps t -> map dot_us t = t.
Proof.
  intros I F. rewrite <- (map_id t) at 2. apply map_ext_in. intros c Hc. unfold dot_us.
  destruct (c =? 46) eqn:E; [|reflexivity]. apply Z.eqb_eq in E. subst c.
  exfalso. exact (F 46 Hc I).
Qed.

Lemma us_text r seps l : plain_seps seps -> In 46 seps -> forall i t,
  item_ok (named r) (reg_find r) seps false i ->
  Forall (fun cj => In (fst cj) seps /\ item_ok (named r) (reg_find r) seps false (snd cj)) l ->
  chain_text false i l t -> chain_text false i (map us_sep l) (map dot_us t).
Proof.
  intros P I.
  assert (Q : forall i t, item_ok (named r) (reg_find r) seps false i -> item_text false i t -> map dot_us t = t).
  { intros i t O T. apply (us_free seps); [exact I|].
    inversion T as [n s Nn| |]; subst; inversion O; subst; try assumption.
    intros c Hc J. apply P in J. destruct Nn as (_ & D & _). rewrite Forall_forall in D.
    apply (proj1 J), D, Hc. }
  induction l as [|[c j] l IH]; intros i t O F T; inversion T; subst; cbn [map].
  - match goal with H : item_text false i t |- _ => rewrite (Q i t O H); constructor; exact H end.
  - apply Forall_cons_iff in F as [[Fc Oj] F]. cbn [fst snd] in *.
    rewrite map_app. cbn [map].
    match goal with H : item_text false i ?s |- _ => rewrite (Q i s O H) end.
    unfold us_sep at 1. cbn [fst snd]. constructor; [assumption|]. apply IH; assumption.
Qed.
