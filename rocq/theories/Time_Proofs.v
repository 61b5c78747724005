From Coq Require Import QArith Qround Qabs Lqa.
From Verif Require Import Base Time_Model Time_Spec.
Local Open Scope Z_scope.

Lemma norm_down_ok : forall n t, usec t < 1000000 * (Z.of_nat n + 1) ->
  exists t', norm_down n t = Some t' /\ micros t' = micros t /\ usec t' < 1000000 /\ (0 <= usec t -> 0 <= usec t') /\ (usec t < 0 -> t' = t).
Proof.
  induction n as [|n IH]; intros t H; cbn [norm_down]; destruct (Z.leb_spec 1000000 (usec t)) as [L|L].
  - lia.
  - exists t. repeat split; auto.
  - destruct (IH {| sec := sec t + 1; usec := usec t - 1000000 |}) as (t' & E & M & U & P & _); [cbn [usec]; lia|].
    exists t'. split; [exact E|]. split; [rewrite M; unfold micros; cbn [sec usec]; lia|]. split; [exact U|]. split; [intros _; apply P; cbn [usec]; lia|lia].
  - exists t. repeat split; auto.
Qed.
Lemma norm_up_ok : forall n t, usec t < 1000000 -> - 1000000 * (Z.of_nat n) <= usec t ->
  exists t', norm_up n t = Some t' /\ micros t' = micros t /\ normal t'.
Proof.
  induction n as [|n IH]; intros t H H2; cbn [norm_up]; destruct (Z.ltb_spec (usec t) 0) as [L|L].
  - lia.
  - exists t. unfold normal. repeat split; auto.
  - destruct (IH {| sec := sec t - 1; usec := usec t + 1000000 |}) as (t' & E & M & U); [cbn [usec]; lia|cbn [usec]; lia|].
    exists t'. split; [exact E|]. split; [rewrite M; unfold micros; cbn [sec usec]; lia|exact U].
  - exists t. unfold normal. repeat split; auto.
Qed.
Lemma normalize_ok t : exists t', normalize t = Some t' /\ micros t' = micros t /\ normal t'.
Proof.
  unfold normalize. set (n := Z.to_nat (Z.abs (usec t) / 1000000 + 1)).
  assert (N : Z.of_nat n = Z.abs (usec t) / 1000000 + 1).
  { unfold n. rewrite Z2Nat.id; [reflexivity|]. pose proof (Z.div_pos (Z.abs (usec t)) 1000000). lia. }
  pose proof (Z.mod_pos_bound (Z.abs (usec t)) 1000000). pose proof (Z.div_mod (Z.abs (usec t)) 1000000).
  destruct (norm_down_ok n t) as (t1 & E1 & M1 & U1 & P1 & Q1); [lia|]. rewrite E1.
  destruct (norm_up_ok n t1) as (t2 & E2 & M2 & U2); [exact U1| |].
  - destruct (Z.ltb_spec (usec t) 0); [rewrite Q1 by lia; lia|]. specialize (P1 ltac:(lia)). lia.
  - exists t2. split; [exact E2|]. split; [congruence|exact U2].
Qed.
Lemma normal_unique a b : normal a -> normal b -> micros a = micros b -> a = b.
Proof. destruct a as [s u], b as [s' u']; unfold normal, micros; cbn. intros. assert (s = s') by lia. subst. f_equal. lia. Qed.

Lemma cround_close x : (Qabs.Qabs (inject_Z (cround x) - x) <= 1#2)%Q.
Proof.
  unfold cround. destruct (Qle_bool 0 x) eqn:E.
  - pose proof (Qfloor_le (x + (1#2))). pose proof (Qlt_floor (x + (1#2))) as L. rewrite inject_Z_plus in L. change (inject_Z 1) with 1%Q in L.
    apply Qabs.Qabs_Qle_condition. split; lra.
  - pose proof (Qfloor_le (- x + (1#2))). pose proof (Qlt_floor (- x + (1#2))) as L. rewrite inject_Z_plus in L. change (inject_Z 1) with 1%Q in L.
    rewrite inject_Z_opp. apply Qabs.Qabs_Qle_condition. split; lra.
Qed.
