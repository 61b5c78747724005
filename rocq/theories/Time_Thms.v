(** Theorems about timestamps (C21). *)
From Coq Require Import QArith Qround Qabs Lqa.
From Verif Require Import Base Time_Model Time_Spec Time_Proofs.
Local Open Scope Z_scope.

(** the loops of normalize end, and the result is the one normalised timestamp for that time *)
Theorem timestamp_normalize : forall t, exists t', normalize t = Some t' /\ micros t' = micros t /\ normal t' /\
  forall t2, normal t2 -> micros t2 = micros t -> t2 = t'.
Proof.
  intros t. destruct (normalize_ok t) as (t' & E & M & N). exists t'. repeat (split; auto; try apply N).
  intros t2 N2 M2. apply normal_unique; auto. congruence.
Qed.
Print Assumptions timestamp_normalize.

Theorem timestamp_add_exact : forall a b, exists t, ts_add a b = Some t /\ micros t = micros a + micros b /\ normal t.
Proof. intros a b. destruct (normalize_ok {| sec := sec a + sec b; usec := usec a + usec b |}) as (t & E & M & N). exists t. split; [exact E|]. split; [rewrite M; unfold micros; cbn; lia|exact N]. Qed.
Print Assumptions timestamp_add_exact.
Theorem timestamp_sub_exact : forall a b, exists t, ts_sub a b = Some t /\ micros t = micros a - micros b /\ normal t.
Proof. intros a b. destruct (normalize_ok {| sec := sec a - sec b; usec := usec a - usec b |}) as (t & E & M & N). exists t. split; [exact E|]. split; [rewrite M; unfold micros; cbn; lia|exact N]. Qed.
Print Assumptions timestamp_sub_exact.

Theorem timestamp_compare_exact : forall a b, normal a -> normal b ->
  (ts_lt a b = true <-> micros a < micros b) /\ (ts_le a b = true <-> micros a <= micros b) /\
  (ts_gt a b = true <-> micros a > micros b) /\ (ts_ge a b = true <-> micros a >= micros b) /\
  (ts_eq a b = true <-> micros a = micros b) /\ (ts_ne a b = true <-> micros a <> micros b) /\
  (ts_bool a = true <-> micros a <> 0).
Proof.
  intros [s u] [s' u'] Na Nb. unfold normal, micros, ts_lt, ts_le, ts_gt, ts_ge, ts_ne, ts_eq, ts_bool in *. cbn [sec usec] in *.
  repeat split; intros H; destruct (Z.eqb_spec s s'); destruct (Z.eqb_spec u u'); destruct (Z.eqb_spec s 0); destruct (Z.eqb_spec u 0); cbn in *; lia.
Qed.
Print Assumptions timestamp_compare_exact.
(** without normalisation the comparison is of the fields, not of the times *)
Theorem timestamp_compare_unnormalised_refuted : exists a b, micros a < micros b /\ ts_lt a b = false /\ ts_gt a b = true.
Proof. exists {| sec := 1; usec := 0 |}, {| sec := 0; usec := 2000000 |}. repeat split. Qed.
Print Assumptions timestamp_compare_unnormalised_refuted.

(** multiplying by a number: the nearest microsecond *)
Theorem timestamp_scale_nearest : forall t x, exists t', ts_scale t x = Some t' /\ normal t' /\
  (Qabs (inject_Z (micros t') - inject_Z (micros t) * x) <= 1#2)%Q.
Proof.
  intros t x. unfold ts_scale. destruct (normalize_ok {| sec := Qfloor (inject_Z (sec t) * x);
     usec := cround (inject_Z (usec t) * x + (inject_Z (sec t) * x - inject_Z (Qfloor (inject_Z (sec t) * x))) * inject_Z 1000000) |}) as (t' & E & M & N).
  exists t'. split; [exact E|]. split; [exact N|]. rewrite M. unfold micros. cbn [sec usec].
  set (f := Qfloor (inject_Z (sec t) * x)). set (y := (inject_Z (usec t) * x + (inject_Z (sec t) * x - inject_Z f) * inject_Z 1000000)%Q).
  pose proof (cround_close y) as C. rewrite !inject_Z_plus, !inject_Z_mult. 
  apply Qabs_Qle_condition in C. apply Qabs_Qle_condition. unfold y in *. set (u := inject_Z (cround _)) in *. 
  set (F := inject_Z f) in *. set (K := inject_Z 1000000) in *. set (S := inject_Z (sec t)) in *. set (U := inject_Z (usec t)) in *.
  split.
  - setoid_replace (K * F + u - (K * S + U) * x)%Q with (u - (U * x + (S * x - F) * K))%Q by ring. apply C.
  - setoid_replace (K * F + u - (K * S + U) * x)%Q with (u - (U * x + (S * x - F) * K))%Q by ring. apply C.
Qed.
Print Assumptions timestamp_scale_nearest.

(** conversion from seconds: normalised, and never later than, nor a microsecond before, the given time *)
Theorem timestamp_of_seconds : forall x, normal (ts_of_seconds x) /\
  (inject_Z (micros (ts_of_seconds x)) <= x * inject_Z 1000000 < inject_Z (micros (ts_of_seconds x)) + 1)%Q.
Proof.
  intros x. unfold ts_of_seconds, normal, micros. cbn [sec usec]. set (s := Qfloor x). set (y := ((x - inject_Z s) * inject_Z 1000000)%Q).
  pose proof (Qfloor_le x) as A. pose proof (Qlt_floor x) as B. fold s in A, B. rewrite inject_Z_plus in B. change (inject_Z 1) with 1%Q in B.
  pose proof (Qfloor_le y) as C. pose proof (Qlt_floor y) as D. rewrite inject_Z_plus in D. change (inject_Z 1) with 1%Q in D.
  assert (Y0 : (0 <= y)%Q). { unfold y. change (inject_Z 1000000) with 1000000%Q. lra. }
  assert (Y1 : (y < 1000000)%Q). { unfold y. change (inject_Z 1000000) with 1000000%Q. lra. }
  split; [split|split].
  - change 0 with (Qfloor 0). now apply Qfloor_resp_le.
  - apply Z.lt_nge. intros H. rewrite Zle_Qle in H. change (inject_Z 1000000) with 1000000%Q in H. lra.
  - rewrite inject_Z_plus, inject_Z_mult. unfold y in C |- *. change (inject_Z 1000000) with 1000000%Q in *. lra.
  - rewrite inject_Z_plus, inject_Z_mult. unfold y in D |- *. change (inject_Z 1000000) with 1000000%Q in *. lra.
Qed.
Print Assumptions timestamp_of_seconds.

(** printing in units *)
Theorem timestamp_print_units : forall t u, (printed_units t u * 1000000 == inject_Z (micros t) * per_second u)%Q.
Proof.
  intros t []; unfold printed_units, per_second, micros; rewrite ?inject_Z_plus, ?inject_Z_mult;
  change (inject_Z 1000000) with 1000000%Q; change (inject_Z 1000) with 1000%Q; change (inject_Z 1000000000) with 1000000000%Q; field.
Qed.
Print Assumptions timestamp_print_units.
(** the textual format "s" prints milliseconds *)
Theorem timestamp_format_s_refuted : exists t, ~ (printed_format t USec * 1000000 == inject_Z (micros t) * per_second USec)%Q.
Proof. exists {| sec := 1; usec := 0 |}. vm_compute. discriminate. Qed.
Print Assumptions timestamp_format_s_refuted.

Example ex_add : ts_add {| sec := 1; usec := 700000 |} {| sec := -3; usec := 2500000 |} = Some {| sec := 1; usec := 200000 |}.
Proof. reflexivity. Qed.
Example ex_sub : ts_sub {| sec := 1; usec := 100 |} {| sec := 3; usec := 500 |} = Some {| sec := -3; usec := 999600 |}.
Proof. reflexivity. Qed.
Example ex_scale : ts_scale {| sec := 10; usec := 3 |} (1#4) = Some {| sec := 2; usec := 500001 |}.
Proof. reflexivity. Qed.
Example ex_of_seconds : ts_of_seconds (-5#4) = {| sec := -2; usec := 750000 |}.
Proof. reflexivity. Qed.
