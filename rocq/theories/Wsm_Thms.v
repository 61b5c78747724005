(** What WSum and WMean give. *)
From Coq Require Import QArith Qcanon.
From Verif Require Import Base Wsm_Model Wsm_Spec Wsm_Proofs.
Close Scope Q_scope. Close Scope Qc_scope. Local Open Scope nat_scope.

(** any state records before, then one with these weights *)
Definition with_weights (n : nat) (earlier : list (option (list Qc))) (given : list Qc) : wnode := set_weights (fold_left set_weights earlier (create n)) (Some given).
Lemma set_n s v : w_n (set_weights s v) = w_n s.
Proof. destruct v as [[|w [|w' ws]]|]; reflexivity. Qed.
Lemma earlier_n es : forall s, w_n (fold_left set_weights es s) = w_n s.
Proof. induction es as [|e es IH]; intros s; [reflexivity|]. cbn [fold_left]. now rewrite IH, set_n. Qed.
Lemma with_state n es given : with_weights n es given = {| w_n := n;
  w_weights := match given with [] => [1%Qc] | [w] => [w] | _ => weight_of n given end;
  w_enabled := match given with [] | [_] => repeat true n | _ => map (fun w => negb (iszero w)) (weight_of n given) end |}.
Proof.
  unfold with_weights. pose proof (earlier_n es (create n)) as E. cbn [create w_n] in E. unfold set_weights at 1. rewrite E. destruct given as [|w [|w' ws]]; try reflexivity. cbn zeta. rewrite resize_nth. reflexivity.
Qed.
(** the weights are good: one for all, or none of them zero *)
Definition usable (n : nat) (given : list Qc) : Prop := length given <= 1 \/ Forall (fun w => w <> 0%Qc) (weight_of n given).
Lemma weight_len n given : length (weight_of n given) = n.
Proof. destruct given as [|w [|w' ws]]; cbn [weight_of]; rewrite ?repeat_length, ?map_length, ?seq_length; reflexivity. Qed.
Lemma usable_polls n es given vs : usable n given -> length vs = n -> all_there (poll (with_weights n es given) vs) = Ok vs.
Proof.
  intros U L. unfold poll. rewrite with_state. cbn [w_enabled]. destruct given as [|w [|w' ws]]; try (now apply poll_all). destruct U as [U|U]; [cbn in U; lia|].
  rewrite enabled_all by exact U. rewrite weight_len. now apply poll_all.
Qed.
(** The sum of the values, each times its weight. *)
Theorem wsum_value : forall n earlier given vs, usable n given -> length vs = n -> wsum_request (with_weights n earlier given) vs = Ok (weighted (weight_of n given) vs).
Proof.
  intros n es given vs U L. unfold wsum_request. rewrite usable_polls by assumption. cbn [bind]. rewrite with_state. cbn [w_weights].
  destruct given as [|w [|w' ws]]; cbn [weight_of]; [now rewrite eval_one, L|now rewrite eval_one, L|]. apply eval_each. rewrite map_length, seq_length. now symmetry.
Qed.
Print Assumptions wsum_value.
(** A child with no weight, or weight zero, among others with weights makes every request fail. *)
Theorem wsum_zero : forall n earlier given vs, 2 <= length given -> In 0%Qc (weight_of n given) -> length vs = n ->
  wsum_request (with_weights n earlier given) vs = Err /\ wmean_request (with_weights n earlier given) vs = (with_weights n earlier given, Err).
Proof.
  intros n es given vs G I L. assert (E : all_there (poll (with_weights n es given) vs) = Err).
  { unfold poll. rewrite with_state. cbn [w_enabled]. destruct given as [|w [|w' ws]]; cbn [length] in G; try lia. apply poll_gone; [now rewrite map_length, weight_len|].
    apply in_map_iff. exists 0%Qc. split; [reflexivity|exact I]. }
  unfold wsum_request, wmean_request. rewrite E. now split.
Qed.
Print Assumptions wsum_zero.
Theorem wsum_skips_refuted : ~ (forall n given vs, length vs = n -> wsum_request (with_weights n [] given) vs = Ok (weighted (weight_of n given) vs)).
Proof. intros H. specialize (H 2 [1%Qc; 0%Qc] [1%Qc; 1%Qc] eq_refl). rewrite (proj1 (wsum_zero 2 [] [1%Qc; 0%Qc] [1%Qc; 1%Qc] (le_n 2) (or_intror (or_introl eq_refl)) eq_refl)) in H. discriminate H. Qed.
Print Assumptions wsum_skips_refuted.

(** the answers to one request after another *)
Fixpoint means (s : wnode) (vss : list (list Qc)) : list (res Qc) :=
  match vss with [] => [] | vs :: vss => let (s, a) := wmean_request s vs in a :: means s vss end.
Lemma single_means n : forall vss w, 1 <= n -> Forall (fun vs => length vs = n) vss ->
  means {| w_n := n; w_weights := [w]; w_enabled := repeat true n |} vss = map (fun vs => Ok (total vs / count n)%Qc) vss.
Proof.
  induction vss as [|vs vss IH]; intros w Hn F; [reflexivity|]. inversion F as [|? ? L F']; subst. cbn [means map]. unfold wmean_request, poll. cbn [w_enabled w_n w_weights norm].
  rewrite poll_all by reflexivity. rewrite IH by assumption. f_equal. rewrite eval_one, weighted_repeat by reflexivity. f_equal. unfold Qcdiv. ring.
Qed.
Lemma many_means n ws : 2 <= length ws -> total ws <> 0%Qc -> forall vss c, c <> 0%Qc -> length ws = n -> Forall (fun vs => length vs = n) vss ->
  means {| w_n := n; w_weights := map (fun w => w / c)%Qc ws; w_enabled := repeat true n |} vss = map (fun vs => Ok (weighted ws vs / total ws)%Qc) vss.
Proof.
  intros H2 T. induction vss as [|vs vss IH]; intros c C L F; [reflexivity|]. inversion F as [|? ? Lv F']; subst. cbn [means map]. unfold wmean_request, poll. cbn [w_enabled w_n w_weights].
  rewrite poll_all by exact Lv.
  assert (N : norm (length ws) (map (fun w => w / c)%Qc ws) = map (fun w => w / total ws)%Qc ws).
  { destruct ws as [|a [|b ws]]; cbn [length] in H2; try lia. set (l := a :: b :: ws) in *. assert (X : norm (length l) (map (fun w => w / c)%Qc l) = if iszero (qsum (map (fun w => w / c)%Qc l)) then map (fun w => w / c)%Qc l else map (fun w => w / qsum (map (fun w => w / c)%Qc l))%Qc (map (fun w => w / c)%Qc l)) by reflexivity.
    rewrite X, qsum_total, total_scaled. pose proof (iszero_spec (total l / c)%Qc) as Z. destruct (iszero (total l / c)%Qc).
    - exfalso. apply T. transitivity (total l / c * c)%Qc; [field; exact C|]. rewrite Z. ring.
    - rewrite map_map. apply map_ext. intros w. field. split; assumption. }
  rewrite N. rewrite IH by (assumption || reflexivity). f_equal. rewrite eval_each by (rewrite map_length; now symmetry). now rewrite scaled.
Qed.
(** The weighted mean, for this request and all that follow. *)
Theorem wmean_value : forall n earlier given vss, 1 <= n -> usable n given -> total (weight_of n given) <> 0%Qc -> Forall (fun vs => length vs = n) vss ->
  means (with_weights n earlier given) vss = map (fun vs => Ok (weighted (weight_of n given) vs / total (weight_of n given))%Qc) vss.
Proof.
  intros n es given vss Hn U T F. rewrite with_state.
  assert (S : forall w, (w * count n)%Qc <> 0%Qc -> map (fun vs => Ok (total vs / count n)%Qc) vss = map (fun vs => Ok (weighted (repeat w n) vs / (w * count n))%Qc) vss).
  { intros w W. apply map_ext_in. intros vs I. rewrite Forall_forall in F. rewrite weighted_repeat by (apply F; exact I). f_equal. field. split; intros Z; apply W; rewrite Z; ring. }
  destruct given as [|w [|w' ws]].
  - cbn [weight_of] in *. rewrite total_repeat in *. rewrite single_means by assumption. now apply S.
  - cbn [weight_of] in *. rewrite total_repeat in *. rewrite single_means by assumption. now apply S.
  - destruct U as [U|U]; [cbn in U; lia|]. pose proof (weight_len n (w :: w' :: ws)) as L. set (l := weight_of n (w :: w' :: ws)) in *. rewrite enabled_all by exact U. rewrite L.
    clearbody l. destruct l as [|a [|b l]].
    + cbn in L. lia.
    + cbn [length] in L. subst n. rewrite single_means by (lia || assumption). cbn [total] in *. replace (a + 0)%Qc with (a * count 1)%Qc in * by (replace (count 1) with 1%Qc by (apply Qc_is_canon; reflexivity); ring). exact (S a T).
    + replace (a :: b :: l) with (map (fun w => w / 1)%Qc (a :: b :: l)) at 1; [apply many_means; try assumption; [cbn; lia|discriminate]|].
      rewrite <- (map_id (a :: b :: l)) at 2. apply map_ext. intros x. field. discriminate.
Qed.
Print Assumptions wmean_value.
(** One weight for all does not matter, not even zero; weights that add up to nothing give the weighted sum. *)
Theorem wmean_plain : forall n earlier given vss, 1 <= n -> length given <= 1 -> Forall (fun vs => length vs = n) vss ->
  means (with_weights n earlier given) vss = map (fun vs => Ok (total vs / count n)%Qc) vss.
Proof. intros n es given vss Hn G F. rewrite with_state. destruct given as [|w [|w' ws]]; cbn [length] in G; try lia; now apply single_means. Qed.
Print Assumptions wmean_plain.
Theorem wmean_zero_total : forall n earlier given vss, 2 <= length given -> 2 <= n -> usable n given -> total (weight_of n given) = 0%Qc -> Forall (fun vs => length vs = n) vss ->
  means (with_weights n earlier given) vss = map (fun vs => Ok (weighted (weight_of n given) vs)) vss.
Proof.
  intros n es given vss G Hn U T F. rewrite with_state. destruct given as [|w [|w' ws]]; cbn [length] in G; try lia. destruct U as [U|U]; [cbn in U; lia|]. pose proof (weight_len n (w :: w' :: ws)) as L. set (l := weight_of n (w :: w' :: ws)) in *. rewrite enabled_all by exact U. rewrite L.
  clearbody l. induction F as [|vs vss Lv F IH]; [reflexivity|]. cbn [means map]. unfold wmean_request, poll. cbn [w_enabled w_n w_weights]. rewrite poll_all by exact Lv.
  assert (N : norm n l = l) by (destruct l as [|a [|b l]]; cbn [length] in L; try lia; unfold norm; rewrite qsum_total, T; reflexivity). rewrite N, IH. f_equal. apply eval_each. now rewrite L.
Qed.
Print Assumptions wmean_zero_total.

(** *** Examples *)
Definition q (z : Z) : Qc := Q2Qc (inject_Z z).
Example wsum_ex : wsum_request (with_weights 3 [Some [q 9; q 0]] [q 1; q 2; q 3; q 4]) [q 10; q 20; q 30] = Ok (q 140).
Proof. rewrite wsum_value; [f_equal; apply Qc_is_canon; reflexivity| |reflexivity]. right. repeat (constructor; [discriminate|]). constructor. Qed.
Example wsum_one_ex : wsum_request (with_weights 2 [] [q 3]) [q 1; q 5] = Ok (q 18).
Proof. rewrite wsum_value; [f_equal; apply Qc_is_canon; reflexivity|left; cbn; lia|reflexivity]. Qed.
Example wsum_zero_ex : wsum_request (with_weights 3 [] [q 1; q 2]) [q 1; q 1; q 1] = Err.
Proof. apply wsum_zero; [cbn; lia|right; right; left; reflexivity|reflexivity]. Qed.
Example wmean_ex : means (with_weights 2 [] [q 1; q 3]) [[q 4; q 8]; [q 4; q 8]] = [Ok (q 7); Ok (q 7)].
Proof. rewrite wmean_value; [cbn [map]; repeat f_equal; apply Qc_is_canon; reflexivity|lia| |discriminate|repeat constructor]. right. repeat (constructor; [discriminate|]). constructor. Qed.
Example wmean_zero_total_ex : means (with_weights 2 [] [q 1; q (-1)]) [[q 4; q 8]] = [Ok (q (-4))].
Proof. rewrite wmean_zero_total; [cbn [map]; repeat f_equal; apply Qc_is_canon; reflexivity|cbn; lia|lia| |apply Qc_is_canon; reflexivity|repeat constructor]. right. repeat (constructor; [discriminate|]). constructor. Qed.
Example wmean_plain_ex : means (with_weights 2 [] [q 0]) [[q 4; q 8]] = [Ok (q 6)].
Proof. rewrite wmean_plain; [cbn [map]; repeat f_equal; apply Qc_is_canon; reflexivity|lia|cbn; lia|repeat constructor]. Qed.
