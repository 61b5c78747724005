(** Order laws of the two arithmetics. *)
From Coq Require Import SpecFloat QArith Qcanon.
From Verif Require Import Base Flt_Model Dom_Spec.
Local Close Scope Qc_scope. Local Close Scope Q_scope.

Definition not_nan (x : spec_float) : Prop := x <> S754_nan.

(** SFcompare compares sign, then exponent, then mantissa: a key with the same order. *)
Definition sf_le (a b : spec_float) : Prop := SFleb a b = true.

Lemma cmp_swap a b : SFcompare b a = match SFcompare a b with Some c => Some (CompOpp c) | None => None end.
Proof.
  destruct a as [s|s| |s m e], b as [t|t| |t n f]; cbn; try reflexivity;
    try (destruct s; reflexivity); try (destruct t; reflexivity); try (destruct s, t; reflexivity).
  change (Pos.compare_cont Eq m n) with (m ?= n)%positive.
  change (Pos.compare_cont Eq n m) with (n ?= m)%positive.
  rewrite (Z.compare_antisym e f), (Pos.compare_antisym m n).
  destruct s, t, (e ?= f)%Z, (m ?= n)%positive; reflexivity.
Qed.

Lemma cmp_nan a b : SFcompare a b = None <-> a = S754_nan \/ b = S754_nan.
Proof.
  split.
  - destruct a as [s|s| |s m e], b as [t|t| |t n f]; cbn; intros H; auto; discriminate.
  - intros [-> | ->]; [reflexivity | destruct a; reflexivity].
Qed.

Lemma pcmp m n : Pos.compare_cont Eq m n = (m ?= n)%positive.
Proof. reflexivity. Qed.

Definition fin_le (s : bool) (m : positive) (e : Z) (n : positive) (f : Z) : Prop :=
  if s then (f < e)%Z \/ (e = f /\ (n <= m)%positive) else (e < f)%Z \/ (e = f /\ (m <= n)%positive).
Lemma fin_leb s m e n f : SFleb (S754_finite s m e) (S754_finite s n f) = true <-> fin_le s m e n f.
Proof.
  unfold SFleb, fin_le. cbn. change (Pos.compare_cont Eq m n) with (m ?= n)%positive.
  destruct s; destruct (Z.compare_spec e f); cbn; try (split; intros; [|congruence]; lia);
    destruct (Pos.compare_spec m n); cbn; split; intros; try discriminate; try reflexivity; try lia.
Qed.

Lemma cmp_le_trans a b c : SFleb a b = true -> SFleb b c = true -> SFleb a c = true.
Proof.
  destruct a as [s|s| |s m e], b as [t|t| |t n f], c as [u|u| |u p g]; intros H1 H2;
  try (repeat match goal with b : bool |- _ => destruct b end; cbv in H1; cbv in H2; discriminate);
  try (repeat match goal with b : bool |- _ => destruct b end; try reflexivity;
       (unfold SFleb in *; cbn in *; congruence)).
  destruct s, t, u; try (unfold SFleb in *; cbn in *; congruence).
  all: apply fin_leb in H1; apply fin_leb in H2; apply fin_leb; unfold fin_le in *; lia.
Qed.

Lemma cmp_refl a : not_nan a -> SFcompare a a = Some Eq.
Proof.
  destruct a as [s|s| |s m e]; cbn; intros H.
  - reflexivity.
  - destruct s; reflexivity.
  - destruct H; reflexivity.
  - rewrite Z.compare_refl, pcmp, Pos.compare_refl. destruct s; reflexivity.
Qed.

Lemma b64_ordered : ordered b64 not_nan.
Proof.
  constructor; cbn.
  - intros a H. unfold SFleb. now rewrite cmp_refl.
  - apply cmp_le_trans.
  - intros a b Ha Hb. unfold SFltb, SFleb. rewrite (cmp_swap a b).
    destruct (SFcompare a b) as [[]|] eqn:E; cbn; try reflexivity.
    apply cmp_nan in E. destruct E; contradiction.
  - intros a b Ha Hb. unfold SFeqb, SFleb. rewrite (cmp_swap a b).
    destruct (SFcompare a b) as [[]|] eqn:E; reflexivity.
  - intros a b Ha Hb. unfold SFleb. rewrite (cmp_swap a b).
    destruct (SFcompare a b) as [[]|] eqn:E; cbn; auto.
    apply cmp_nan in E. destruct E; contradiction.
  - intros a b H. unfold SFltb in H. split; intros E; subst; cbn in H; try discriminate.
    destruct a; discriminate.
  - intros a b H. unfold SFleb in H. split; intros E; subst; cbn in H; try discriminate.
    destruct a; discriminate.
Qed.

Lemma qccmp_spec a b : CompareSpec (a = b) (Qclt a b) (Qclt b a) (Qccompare a b).
Proof.
  destruct (Qccompare a b) eqn:E; constructor.
  - now apply Qceq_alt.
  - now apply Qclt_alt.
  - now apply Qcgt_alt.
Qed.

Lemma qc_leb_le a b : qc_leb a b = true <-> Qcle a b.
Proof.
  unfold qc_leb. destruct (qccmp_spec a b) as [->|H|H]; split; intros; auto; try discriminate.
  - apply Qcle_refl.
  - now apply Qclt_le_weak.
  - exfalso. eapply Qclt_not_le; eauto.
Qed.
Lemma qc_ltb_lt a b : qc_ltb a b = true <-> Qclt a b.
Proof.
  unfold qc_ltb. destruct (qccmp_spec a b) as [->|H|H]; split; intros X; auto; try discriminate.
  - exfalso. exact (Qclt_not_le _ _ X (Qcle_refl b)).
  - exfalso. eapply Qclt_not_le; [exact H|]. now apply Qclt_le_weak.
Qed.
Lemma qc_eqb_eq a b : qc_eqb a b = true <-> a = b.
Proof.
  unfold qc_eqb. destruct (qccmp_spec a b) as [->|H|H]; split; intros X; auto; try discriminate; subst;
  exfalso; exact (Qclt_not_le _ _ H (Qcle_refl _)).
Qed.

Lemma qc_ordered : ordered qc (fun _ => True).
Proof.
  constructor; cbn; auto.
  - intros a _. apply qc_leb_le, Qcle_refl.
  - intros a b c H1 H2. apply qc_leb_le in H1, H2. apply qc_leb_le. eapply Qcle_trans; eauto.
  - intros a b _ _. destruct (qc_ltb b a) eqn:E.
    + apply qc_ltb_lt in E. destruct (qc_leb a b) eqn:F; auto.
      apply qc_leb_le in F. exfalso. eapply Qclt_not_le; eauto.
    + destruct (qc_leb a b) eqn:F; auto. exfalso.
      destruct (Qclt_le_dec b a) as [L|L].
      * apply qc_ltb_lt in L. congruence.
      * apply qc_leb_le in L. congruence.
  - intros a b _ _. destruct (qc_eqb a b) eqn:E.
    + apply qc_eqb_eq in E. subst. assert (X : qc_leb b b = true) by apply qc_leb_le, Qcle_refl.
      now rewrite X.
    + destruct (qc_leb a b) eqn:F, (qc_leb b a) eqn:G; auto. exfalso.
      apply qc_leb_le in F, G. assert (a = b) by now apply Qcle_antisym.
      apply qc_eqb_eq in H. congruence.
  - intros a b _ _. destruct (Qclt_le_dec a b) as [L|L].
    + left. apply qc_leb_le. now apply Qclt_le_weak.
    + right. now apply qc_leb_le.
Qed.
