(** Proofs about Domain. *)
From Coq Require Import SpecFloat QArith Qcanon.
From Verif Require Import Base Flt_Model Flt_Proofs Dom_Model Dom_Spec.
Local Close Scope Qc_scope. Local Close Scope Q_scope.

Section Gen.
Variable A : arith.
Notation domain := (Dom_Model.domain A).
Notation isDefined := (Dom_Model.isDefined A).
Notation start := (Dom_Model.start A).
Notation stop := (Dom_Model.stop A).
Notation ax := (Dom_Model.ax A).

Lemma set_ax_length (d : domain) i x : length (set_ax A d i x) = length d.
Proof. revert i. induction d as [|y d IH]; intros [|i]; cbn; auto. Qed.

Lemma ax_set (d : domain) i x j : i < length d ->
  ax (set_ax A d i x) j = if i =? j then x else ax d j.
Proof.
  unfold Dom_Model.ax. revert i j.
  induction d as [|y d IH]; intros [|i] [|j] H; cbn in *; try lia; auto.
  rewrite IH by lia. reflexivity.
Qed.

Lemma set_ax_same (d : domain) i : set_ax A d i (ax d i) = d.
Proof.
  unfold Dom_Model.ax. revert i.
  induction d as [|y d IH]; intros [|i]; cbn; auto. now rewrite IH.
Qed.

Lemma fold_axes (f : nat -> axis_rng A -> axis_rng A) (step : domain -> nat -> domain)
      (Hs : forall d i, step d i = set_ax A d i (f i (ax d i))) n : forall s d j,
  s + n <= length d ->
  length (fold_left step (seq s n) d) = length d /\
  ax (fold_left step (seq s n) d) j = if (s <=? j) && (j <? s + n) then f j (ax d j) else ax d j.
Proof.
  induction n as [|n IH]; intros s d j H; cbn [seq fold_left].
  - split; auto. destruct ((s <=? j) && (j <? s + 0)) eqn:E; auto. lia.
  - rewrite Hs. destruct (IH (S s) (set_ax A d s (f s (ax d s))) j) as [IL IA].
    { rewrite set_ax_length. lia. }
    rewrite IL, set_ax_length. split; auto. rewrite IA.
    rewrite ax_set by lia.
    destruct (Nat.eqb_spec s j) as [->|Hj].
    + replace ((S j <=? j) && (j <? S j + n)) with false by lia.
      replace ((j <=? j) && (j <? j + S n)) with true by lia. reflexivity.
    + replace ((S s <=? j) && (j <? S s + n)) with ((s <=? j) && (j <? s + S n)) by lia. reflexivity.
Qed.

(** the axis written by [define] *)
Definition mk (a1 a2 : num A) : axis_rng A :=
  let (lo, hi) := norm_range A a1 a2 in
  {| a_def := true; a_lo := lo; a_hi := hi; a_fld := Some [lo; hi] |}.
Lemma define_mk d i a1 a2 : define A d i a1 a2 = set_ax A d i (mk a1 a2).
Proof. unfold define, mk. destruct (norm_range A a1 a2). reflexivity. Qed.

Definition env_ax (a b : axis_rng A) (x : axis_rng A) : axis_rng A :=
  if a_def A a then
    if a_def A b then mk (nmin A (a_lo A a) (a_lo A b)) (nmax A (a_hi A a) (a_hi A b))
    else mk (a_lo A a) (a_hi A a)
  else if a_def A b then mk (a_lo A b) (a_hi A b) else x.

Lemma env_step_ax a b d i : env_step A a b d i = set_ax A d i (env_ax (ax a i) (ax b i) (ax d i)).
Proof.
  unfold env_step, env_ax, Dom_Model.isDefined, Dom_Model.start, Dom_Model.stop.
  destruct (a_def A (ax a i)), (a_def A (ax b i)); rewrite ?define_mk; auto. now rewrite set_ax_same.
Qed.

Definition exp_ax (o x : axis_rng A) : axis_rng A :=
  if a_def A o then
    if a_def A x then
      let x1 := nmin A (a_lo A x) (a_lo A o) in
      let x2 := nmax A (a_hi A x) (a_hi A o) in
      if negb (neqb A x1 (a_lo A x)) || negb (neqb A x2 (a_hi A x)) then mk x1 x2 else x
    else mk (a_lo A o) (a_hi A o)
  else x.
Lemma exp_step_ax o d i : expand_step A o d i = set_ax A d i (exp_ax (ax o i) (ax d i)).
Proof.
  unfold expand_step, exp_ax, Dom_Model.isDefined, Dom_Model.start, Dom_Model.stop.
  destruct (a_def A (ax o i)), (a_def A (ax d i)); rewrite ?define_mk, ?set_ax_same; auto.
  cbn zeta. destruct (negb _ || negb _); rewrite ?define_mk, ?set_ax_same; auto.
Qed.

Lemma ax_new i : ax (dom_new A) i = ax_undef A.
Proof. unfold Dom_Model.ax, dom_new. do 8 (destruct i as [|i]; [reflexivity|]). cbn. destruct i; reflexivity. Qed.

Lemma env_at a b i : ax (envelope A a b) i = if i <? MaxAxis then env_ax (ax a i) (ax b i) (ax_undef A) else ax_undef A.
Proof.
  unfold envelope.
  destruct (fold_axes (fun i => env_ax (ax a i) (ax b i)) (env_step A a b) (env_step_ax a b) MaxAxis 0 (dom_new A) i) as [_ H].
  { exact (Nat.le_refl 8). }
  rewrite H, !ax_new. reflexivity.
Qed.
Lemma env_len a b : length (envelope A a b) = MaxAxis.
Proof.
  unfold envelope.
  destruct (fold_axes (fun i => env_ax (ax a i) (ax b i)) (env_step A a b) (env_step_ax a b) MaxAxis 0 (dom_new A) 0) as [H _].
  { exact (Nat.le_refl 8). }
  rewrite H. reflexivity.
Qed.

Lemma exp_at a b i : length a = MaxAxis ->
  ax (expandToEnvelope A a b) i = if i <? MaxAxis then exp_ax (ax b i) (ax a i) else ax a i.
Proof.
  intros L. unfold expandToEnvelope.
  destruct (fold_axes (fun i => exp_ax (ax b i)) (expand_step A b) (exp_step_ax b) MaxAxis 0 a i) as [_ H].
  { rewrite L. exact (Nat.le_refl 8). }
  rewrite H. reflexivity.
Qed.
Lemma exp_len a b : length a = MaxAxis -> length (expandToEnvelope A a b) = MaxAxis.
Proof.
  intros L. unfold expandToEnvelope.
  destruct (fold_axes (fun i => exp_ax (ax b i)) (expand_step A b) (exp_step_ax b) MaxAxis 0 a 0) as [H _].
  { rewrite L. exact (Nat.le_refl 8). }
  rewrite H. exact L.
Qed.

(** Structural invariant of every domain that can be built. *)
Definition ax_wf (x : axis_rng A) : Prop :=
  if a_def A x then a_fld A x = Some [a_lo A x; a_hi A x] else x = ax_undef A.
Definition wf (d : domain) : Prop := length d = MaxAxis /\ forall i, ax_wf (ax d i).

Lemma mk_wf a b : ax_wf (mk a b).
Proof. unfold mk, ax_wf. destruct (norm_range A a b). cbn. reflexivity. Qed.
Lemma undef_wf : ax_wf (ax_undef A).
Proof. reflexivity. Qed.
Lemma new_wf : wf (dom_new A).
Proof. split; [reflexivity|]. intros i. rewrite ax_new. apply undef_wf. Qed.

Lemma set_wf d i x : wf d -> ax_wf x -> i < MaxAxis -> wf (set_ax A d i x).
Proof.
  intros [L W] X Hi. split; [now rewrite set_ax_length|].
  intros j. rewrite ax_set by (rewrite L; exact Hi). destruct (i =? j); auto.
Qed.

Lemma validate_from_wf fs : forall d d', wf d -> validate_from A d fs = Ok d' -> wf d'.
Proof.
  induction fs as [|f fs IH]; intros d d' W E; cbn [validate_from] in E.
  - injection E as <-. exact W.
  - destruct (validate_field A d f) as [d1| |] eqn:V; cbn [bind] in E; try discriminate.
    eapply IH; [|exact E]. unfold validate_field in V.
    destruct (snd f) as [|a [|b [|]]]; try discriminate.
    destruct (nleb A b a); try discriminate.
    destruct ((fst f <? 0)%Z || (Z.of_nat MaxAxis <=? fst f)%Z) eqn:G; try discriminate.
    injection V as <-. apply set_wf; auto; [reflexivity | lia].
Qed.

Lemma exp_ax_wf o x : ax_wf o -> ax_wf x -> ax_wf (exp_ax o x).
Proof.
  unfold exp_ax. intros Ho Hx. destruct (a_def A o), (a_def A x); auto using mk_wf.
  cbn zeta. destruct (negb _ || negb _); auto using mk_wf.
Qed.
Lemma env_ax_wf a b : ax_wf (env_ax a b (ax_undef A)).
Proof. unfold env_ax. destruct (a_def A a), (a_def A b); auto using mk_wf. apply undef_wf. Qed.

Lemma env_wf a b : wf (envelope A a b).
Proof.
  split; [apply env_len|]. intros i. rewrite env_at. destruct (i <? MaxAxis); auto using env_ax_wf, undef_wf.
Qed.
Lemma exp_wf a b : wf a -> wf b -> wf (expandToEnvelope A a b).
Proof.
  intros [L W] [_ W']. split; [now apply exp_len|]. intros i. rewrite exp_at by auto.
  destruct (i <? MaxAxis); auto using exp_ax_wf.
Qed.

Lemma reach_wf d : reach A d -> wf d.
Proof.
  induction 1 as [|d i a1 a2 d' _ IH E|d d' _ IH E|fs d' E|a b _ IHa _ IHb|a b _ IHa _ IHb].
  - apply new_wf.
  - unfold defineAxis in E. destruct ((i <? 0)%Z || (Z.of_nat MaxAxis <=? i)%Z) eqn:G; [discriminate|].
    destruct (norm_range A a1 a2) as [lo hi]. injection E as <-. apply set_wf; auto; [reflexivity|lia].
  - eapply validate_from_wf; [apply new_wf|exact E].
  - eapply validate_from_wf; [apply new_wf|exact E].
  - apply env_wf.
  - now apply exp_wf.
Qed.

(** ** Cloning *)
Lemma clone_at (d : domain) : wf d -> proper A d -> (forall a b, nltb A a b = true -> nleb A b a = false) ->
  forall n s d0, length d0 = MaxAxis -> s + n <= MaxAxis -> exists d1,
  validate_from A d0 (flat_map (fun i => match a_fld A (ax d i) with Some v => [(Z.of_nat i, v)] | None => [] end) (seq s n)) = Ok d1 /\
  length d1 = MaxAxis /\
  forall i, ax d1 i = if (s <=? i) && (i <? s + n) && a_def A (ax d i) then ax d i else ax d0 i.
Proof.
  intros [L W] P Hn. induction n as [|n IH]; intros s d0 L0 H; cbn [seq flat_map].
  - exists d0. split; [reflexivity|]. split; auto. intros i.
    replace ((s <=? i) && (i <? s + 0)) with false by lia. reflexivity.
  - specialize (W s) as Ws. unfold ax_wf in Ws. destruct (a_def A (ax d s)) eqn:D.
    + rewrite Ws. cbn [app validate_from].
      assert (HP : nltb A (a_lo A (ax d s)) (a_hi A (ax d s)) = true) by (apply P; exact D).
      unfold validate_field at 1. cbn [snd fst]. rewrite (Hn _ _ HP).
      replace ((Z.of_nat s <? 0)%Z || (Z.of_nat MaxAxis <=? Z.of_nat s)%Z) with false by (unfold MaxAxis in *; lia).
      cbn [bind]. rewrite Nat2Z.id.
      destruct (IH (S s) (set_ax A d0 s {| a_def := true; a_lo := a_lo A (ax d s); a_hi := a_hi A (ax d s);
                a_fld := Some [a_lo A (ax d s); a_hi A (ax d s)] |})) as (d1 & E & L1 & G).
      { now rewrite set_ax_length. } { lia. }
      exists d1. split; [exact E|]. split; [exact L1|].
      intros i. rewrite G, ax_set by (rewrite L0; lia).
      destruct (Nat.eqb_spec s i) as [<-|Hi].
      * replace (S s <=? s) with false by lia. replace ((s <=? s) && (s <? s + S n)) with true by lia.
        cbn [andb]. rewrite D. destruct (ax d s) as [df lo hi fl] eqn:X. cbn in D, Ws |- *. subst. reflexivity.
      * replace ((S s <=? i) && (i <? S s + n)) with ((s <=? i) && (i <? s + S n)) by lia. reflexivity.
    + rewrite Ws. cbn [app ax_undef a_fld].
      destruct (IH (S s) d0 L0) as (d1 & E & L1 & G); [lia|].
      exists d1. split; [exact E|]. split; [exact L1|].
      intros i. rewrite G. destruct (Nat.eqb_spec s i) as [<-|Hi].
      * rewrite D, !andb_false_r. reflexivity.
      * replace ((S s <=? i) && (i <? S s + n)) with ((s <=? i) && (i <? s + S n)) by lia. reflexivity.
Qed.

Lemma ax_ext (a b : domain) : length a = length b -> (forall i, ax a i = ax b i) -> a = b.
Proof.
  intros L H. apply (nth_ext a b (ax_undef A) (ax_undef A) L). intros n _. apply H.
Qed.

Lemma clone_proper d : wf d -> proper A d -> (forall a b, nltb A a b = true -> nleb A b a = false) ->
  clone A d = Ok d.
Proof.
  intros W P Hn. pose proof W as [L Wx].
  destruct (clone_at d W P Hn MaxAxis 0 (dom_new A)) as (d1 & E & L1 & G); [reflexivity|lia|].
  unfold clone, validate, fields. rewrite E. f_equal. apply ax_ext; [congruence|].
  intros i. rewrite G, ax_new. specialize (Wx i). unfold ax_wf in Wx.
  destruct (a_def A (ax d i)) eqn:D; [|rewrite Wx; now rewrite andb_false_r].
  destruct (Nat.ltb_spec i MaxAxis) as [Hi|Hi].
  - replace ((0 <=? i) && (i <? 0 + MaxAxis)) with true by lia. reflexivity.
  - exfalso. unfold Dom_Model.ax in D. rewrite nth_overflow in D by lia. discriminate.
Qed.

(** ** Order *)
Variable ok : num A -> Prop.
Hypothesis O : ordered A ok.

Lemma lt_le a b : nltb A a b = true -> nleb A a b = true.
Proof.
  intros H. destruct (o_ltok A ok O _ _ H) as [Ha Hb].
  rewrite (o_lt A ok O b a) in H by auto. apply negb_true_iff in H.
  destruct (o_total A ok O a b); congruence.
Qed.
Lemma lt_nle a b : nltb A a b = true -> nleb A b a = false.
Proof.
  intros H. destruct (o_ltok A ok O _ _ H) as [Ha Hb].
  rewrite (o_lt A ok O b a) in H by auto. now apply negb_true_iff in H.
Qed.
Lemma nle_lt a b : ok a -> ok b -> nleb A a b = false -> nltb A b a = true.
Proof. intros Ha Hb H. rewrite (o_lt A ok O) by auto. now rewrite H. Qed.
Lemma le_lt_trans a b c : nleb A a b = true -> nltb A b c = true -> nltb A a c = true.
Proof.
  intros H1 H2. destruct (o_ltok A ok O _ _ H2) as [Hb Hc]. destruct (o_leok A ok O _ _ H1) as [Ha _].
  apply nle_lt; auto. destruct (nleb A c a) eqn:E; auto.
  pose proof (o_trans A ok O _ _ _ E H1) as X. apply lt_nle in H2. congruence.
Qed.
Lemma lt_le_trans a b c : nltb A a b = true -> nleb A b c = true -> nltb A a c = true.
Proof.
  intros H1 H2. destruct (o_ltok A ok O _ _ H1) as [Ha Hb]. destruct (o_leok A ok O _ _ H2) as [_ Hc].
  apply nle_lt; auto. destruct (nleb A c a) eqn:E; auto.
  pose proof (o_trans A ok O _ _ _ H2 E) as X. apply lt_nle in H1. congruence.
Qed.

Lemma min_l a b : ok a -> ok b -> nleb A (nmin A a b) a = true.
Proof.
  intros Ha Hb. unfold nmin. destruct (nltb A b a) eqn:E; [now apply lt_le | now apply (o_refl A ok O)].
Qed.
Lemma min_r a b : ok a -> ok b -> nleb A (nmin A a b) b = true.
Proof.
  intros Ha Hb. unfold nmin. destruct (nltb A b a) eqn:E; [now apply (o_refl A ok O)|].
  rewrite (o_lt A ok O) in E by auto. now apply negb_false_iff in E.
Qed.
Lemma max_l a b : ok a -> ok b -> nleb A a (nmax A a b) = true.
Proof.
  intros Ha Hb. unfold nmax. destruct (nltb A a b) eqn:E; [now apply lt_le | now apply (o_refl A ok O)].
Qed.
Lemma max_r a b : ok a -> ok b -> nleb A b (nmax A a b) = true.
Proof.
  intros Ha Hb. unfold nmax. destruct (nltb A a b) eqn:E; [now apply (o_refl A ok O)|].
  rewrite (o_lt A ok O) in E by auto. now apply negb_false_iff in E.
Qed.
Lemma min_cases a b : nmin A a b = a \/ nmin A a b = b.
Proof. unfold nmin. destruct (nltb A b a); auto. Qed.
Lemma max_cases a b : nmax A a b = a \/ nmax A a b = b.
Proof. unfold nmax. destruct (nltb A a b); auto. Qed.

Lemma norm_lt a b : nltb A a b = true -> norm_range A a b = (a, b).
Proof.
  intros H. unfold norm_range. destruct (o_ltok A ok O _ _ H) as [Ha Hb].
  rewrite (o_eq A ok O) by auto. pose proof (lt_nle _ _ H) as X. rewrite X, andb_false_r.
  destruct (nltb A b a) eqn:E; auto. apply lt_le in E. congruence.
Qed.
Lemma mk_lt a b : nltb A a b = true -> mk a b = {| a_def := true; a_lo := a; a_hi := b; a_fld := Some [a; b] |}.
Proof. intros H. unfold mk. now rewrite norm_lt. Qed.

(** shape of an axis of the envelope *)
Lemma env_cases (a b : domain) i : wf a -> wf b -> proper A a -> proper A b ->
  (isDefined (envelope A a b) i = isDefined a i || isDefined b i) /\
  (isDefined a i = true -> isDefined b i = true ->
     start (envelope A a b) i = nmin A (start a i) (start b i) /\ stop (envelope A a b) i = nmax A (stop a i) (stop b i)) /\
  (isDefined a i = true -> isDefined b i = false ->
     start (envelope A a b) i = start a i /\ stop (envelope A a b) i = stop a i) /\
  (isDefined a i = false -> isDefined b i = true ->
     start (envelope A a b) i = start b i /\ stop (envelope A a b) i = stop b i) /\
  (isDefined a i = true -> isDefined b i = true -> nltb A (nmin A (start a i) (start b i)) (nmax A (stop a i) (stop b i)) = true).
Proof.
  intros [La Wa] [Lb Wb] Pa Pb. specialize (Pa i). specialize (Pb i).
  unfold Dom_Model.isDefined, Dom_Model.start, Dom_Model.stop in *.
  rewrite env_at.
  assert (HM : isDefined a i = true -> isDefined b i = true ->
     nltb A (nmin A (start a i) (start b i)) (nmax A (stop a i) (stop b i)) = true).
  { unfold Dom_Model.isDefined, Dom_Model.start, Dom_Model.stop. intros Da Db.
    pose proof (Pa Da) as La'. pose proof (Pb Db) as Lb'.
    destruct (o_ltok A ok O _ _ La') as [? ?]. destruct (o_ltok A ok O _ _ Lb') as [? ?].
    eapply le_lt_trans; [apply min_l; auto|]. eapply lt_le_trans; [exact La'|apply max_l; auto]. }
  unfold Dom_Model.isDefined, Dom_Model.start, Dom_Model.stop in HM.
  destruct (Nat.ltb_spec i MaxAxis) as [Hi|Hi].
  2:{ unfold Dom_Model.ax in *. rewrite !(nth_overflow a), !(nth_overflow b) in * by lia.
      cbn. repeat split; auto; discriminate. }
  unfold env_ax.
  destruct (a_def A (ax a i)) eqn:Da, (a_def A (ax b i)) eqn:Db.
  - rewrite mk_lt by auto. cbn. repeat split; auto; discriminate.
  - rewrite mk_lt by auto. cbn. repeat split; auto; discriminate.
  - rewrite mk_lt by auto. cbn. repeat split; auto; discriminate.
  - cbn. repeat split; auto; discriminate.
Qed.

Lemma env_proper a b : wf a -> wf b -> proper A a -> proper A b -> proper A (envelope A a b).
Proof.
  intros Wa Wb Pa Pb i D. destruct (env_cases a b i Wa Wb Pa Pb) as (E & E1 & E2 & E3 & E4).
  rewrite E in D. destruct (isDefined a i) eqn:Da, (isDefined b i) eqn:Db; try discriminate.
  - destruct (E1 eq_refl eq_refl) as [-> ->]. apply E4; auto.
  - destruct (E2 eq_refl eq_refl) as [-> ->]. now apply Pa.
  - destruct (E3 eq_refl eq_refl) as [-> ->]. now apply Pb.
Qed.

Lemma prop_ok d i : proper A d -> isDefined d i = true -> ok (start d i) /\ ok (stop d i).
Proof. intros P D. apply (o_ltok A ok O). now apply P. Qed.

Lemma env_contains a b : wf a -> wf b -> proper A a -> proper A b ->
  contains A (envelope A a b) a /\ contains A (envelope A a b) b.
Proof.
  intros Wa Wb Pa Pb. split; intros i D; destruct (env_cases a b i Wa Wb Pa Pb) as (E & E1 & E2 & E3 & E4);
  rewrite E, D, ?orb_true_r; split; auto.
  - destruct (prop_ok a i Pa D). destruct (isDefined b i) eqn:Db.
    + destruct (prop_ok b i Pb Db). destruct (E1 D eq_refl) as [-> ->].
      split; [apply min_l|apply max_l]; auto.
    + destruct (E2 D eq_refl) as [-> ->]. split; apply (o_refl A ok O); auto.
  - destruct (prop_ok b i Pb D). destruct (isDefined a i) eqn:Da.
    + destruct (prop_ok a i Pa Da). destruct (E1 eq_refl D) as [-> ->].
      split; [apply min_r|apply max_r]; auto.
    + destruct (E3 eq_refl D) as [-> ->]. split; apply (o_refl A ok O); auto.
Qed.

Lemma env_least a b c : wf a -> wf b -> proper A a -> proper A b ->
  contains A c a -> contains A c b -> contains A c (envelope A a b).
Proof.
  intros Wa Wb Pa Pb Ca Cb i D. destruct (env_cases a b i Wa Wb Pa Pb) as (E & E1 & E2 & E3 & E4).
  rewrite E in D. destruct (isDefined a i) eqn:Da, (isDefined b i) eqn:Db; try discriminate.
  - destruct (E1 eq_refl eq_refl) as [-> ->]. destruct (Ca i Da) as (X & Y & Z). destruct (Cb i Db) as (X' & Y' & Z').
    split; [exact X|].
    destruct (min_cases (start a i) (start b i)) as [-> | ->];
    destruct (max_cases (stop a i) (stop b i)) as [-> | ->]; auto.
  - destruct (E2 eq_refl eq_refl) as [-> ->]. now apply Ca.
  - destruct (E3 eq_refl eq_refl) as [-> ->]. now apply Cb.
Qed.

Lemma contains_refl a : proper A a -> contains A a a.
Proof. intros P i D. destruct (prop_ok a i P D). repeat split; auto; apply (o_refl A ok O); auto. Qed.
Lemma contains_trans a b c : contains A a b -> contains A b c -> contains A a c.
Proof.
  intros H1 H2 i D. destruct (H2 i D) as (D1 & X & Y). destruct (H1 i D1) as (D2 & X' & Y').
  split; [auto|]. split; eapply (o_trans A ok O); eauto.
Qed.
Lemma contains_antisym a b : contains A a b -> contains A b a -> same_domain A a b.
Proof.
  intros H1 H2 i.
  assert (E : isDefined a i = isDefined b i).
  { destruct (isDefined a i) eqn:Da, (isDefined b i) eqn:Db; auto.
    - destruct (H2 i Da). congruence. - destruct (H1 i Db). congruence. }
  split; [exact E|]. intros Da. pose proof Da as Db. rewrite E in Db.
  destruct (H1 i Db) as (_ & X & Y). destruct (H2 i Da) as (_ & X' & Y').
  destruct (o_leok A ok O _ _ X). destruct (o_leok A ok O _ _ Y).
  rewrite !(o_eq A ok O) by auto. rewrite X, X', Y, Y'. auto.
Qed.

Lemma env_comm a b : wf a -> wf b -> proper A a -> proper A b ->
  same_domain A (envelope A a b) (envelope A b a).
Proof.
  intros Wa Wb Pa Pb. destruct (env_contains a b Wa Wb Pa Pb), (env_contains b a Wb Wa Pb Pa).
  apply contains_antisym; apply env_least; auto.
Qed.
Lemma env_assoc a b c : wf a -> wf b -> wf c -> proper A a -> proper A b -> proper A c ->
  same_domain A (envelope A (envelope A a b) c) (envelope A a (envelope A b c)).
Proof.
  intros Wa Wb Wc Pa Pb Pc.
  pose proof (env_wf a b) as Wab. pose proof (env_wf b c) as Wbc.
  assert (Pab : proper A (envelope A a b)) by (now apply env_proper).
  assert (Pbc : proper A (envelope A b c)) by (now apply env_proper).
  destruct (env_contains a b Wa Wb Pa Pb) as [H1 H2]. destruct (env_contains b c Wb Wc Pb Pc) as [H3 H4].
  destruct (env_contains _ c Wab Wc Pab Pc) as [H5 H6]. destruct (env_contains a _ Wa Wbc Pa Pbc) as [H7 H8].
  apply contains_antisym.
  - apply env_least; auto; [exact (contains_trans _ _ _ H5 H1)|].
    apply env_least; auto. exact (contains_trans _ _ _ H5 H2).
  - apply env_least; auto; [|exact (contains_trans _ _ _ H8 H4)].
    apply env_least; auto. exact (contains_trans _ _ _ H8 H3).
Qed.
Lemma env_idem a : wf a -> proper A a -> same_domain A (envelope A a a) a.
Proof.
  intros Wa Pa. apply contains_antisym.
  - now destruct (env_contains a a Wa Wa Pa Pa).
  - apply env_least; auto; now apply contains_refl.
Qed.

(** ** expandToEnvelope *)
Lemma exp_is_env a b : wf a -> wf b -> proper A a -> proper A b -> expandToEnvelope A a b = envelope A a b.
Proof.
  intros [La Wa] [Lb Wb] Pa Pb. apply ax_ext; [rewrite exp_len, env_len; auto|].
  intros i. rewrite exp_at, env_at by auto.
  destruct (Nat.ltb_spec i MaxAxis) as [Hi|Hi].
  2:{ unfold Dom_Model.ax. now rewrite nth_overflow by lia. }
  specialize (Wa i). specialize (Wb i). specialize (Pa i). specialize (Pb i).
  unfold Dom_Model.isDefined, Dom_Model.start, Dom_Model.stop in *.
  unfold exp_ax, env_ax, ax_wf in *.
  destruct (a_def A (ax b i)) eqn:Db, (a_def A (ax a i)) eqn:Da.
  - cbn zeta. specialize (Pa eq_refl). specialize (Pb eq_refl).
    destruct (o_ltok A ok O _ _ Pa). destruct (o_ltok A ok O _ _ Pb).
    set (x1 := nmin A (a_lo A (ax a i)) (a_lo A (ax b i))).
    set (x2 := nmax A (a_hi A (ax a i)) (a_hi A (ax b i))).
    destruct (negb _ || negb _) eqn:C; [reflexivity|].
    apply orb_false_iff in C. destruct C as [C1 C2]. apply negb_false_iff in C1, C2.
    assert (E1 : x1 = a_lo A (ax a i)).
    { unfold x1, nmin in *. destruct (nltb A (a_lo A (ax b i)) (a_lo A (ax a i))) eqn:T; auto.
      rewrite (o_eq A ok O) in C1 by auto. apply lt_nle in T. rewrite T, andb_false_r in C1. discriminate. }
    assert (E2 : x2 = a_hi A (ax a i)).
    { unfold x2, nmax in *. destruct (nltb A (a_hi A (ax a i)) (a_hi A (ax b i))) eqn:T; auto.
      rewrite (o_eq A ok O) in C2 by auto. apply lt_nle in T. rewrite T in C2. discriminate. }
    rewrite E1, E2, mk_lt by auto. clear E1 E2 C1 C2. clear x1 x2.
    destruct (ax a i) as [df lo hi fl]. cbn in *. subst. reflexivity.
  - reflexivity.
  - specialize (Pa eq_refl). rewrite mk_lt by auto.
    destruct (ax a i) as [df lo hi fl]. cbn in *. subst. reflexivity.
  - exact Wa.
Qed.

(** ** supersetOfProj *)
Lemma superset_iff a b : wf a -> proper A a -> proper A b ->
  (supersetOfProj A a b = true <-> covers_projection A a b).
Proof.
  intros [La Wa] Pa Pb. unfold supersetOfProj, covers_projection. rewrite forallb_forall. split.
  - intros H i D.
    assert (Hi : i < MaxAxis).
    { destruct (Nat.ltb_spec i MaxAxis); auto. unfold Dom_Model.isDefined, Dom_Model.ax in D.
      rewrite nth_overflow in D by lia. discriminate. }
    specialize (H i). rewrite in_seq in H. specialize (H ltac:(lia)). rewrite D in H. cbn [andb] in H.
    apply negb_true_iff in H. apply orb_false_iff in H. destruct H as [H H3].
    apply orb_false_iff in H. destruct H as [H1 H2]. apply negb_false_iff in H1.
    destruct (prop_ok a i Pa D). destruct (prop_ok b i Pb H1).
    rewrite (o_lt A ok O) in H2, H3 by auto. apply negb_false_iff in H2, H3. auto.
  - intros H i _. destruct (isDefined a i) eqn:D; auto. cbn [andb].
    destruct (H i D) as (H1 & H2 & H3). rewrite H1. cbn [negb orb].
    destruct (o_leok A ok O _ _ H2). destruct (o_leok A ok O _ _ H3).
    rewrite !(o_lt A ok O) by auto. now rewrite H2, H3.
Qed.
Lemma covp_refl a : proper A a -> covers_projection A a a.
Proof. intros P i D. destruct (prop_ok a i P D). repeat split; auto; apply (o_refl A ok O); auto. Qed.
Lemma covp_trans a b c : covers_projection A a b -> covers_projection A b c -> covers_projection A a c.
Proof.
  intros H1 H2 i D. destruct (H1 i D) as (D1 & X & Y). destruct (H2 i D1) as (D2 & X' & Y').
  split; [auto|]. split; eapply (o_trans A ok O); eauto.
Qed.

End Gen.

(** ** Equality (binary64) *)
Notation Dom64 := (Dom_Model.domain b64).

Lemma sf_bit_eq a b : sf_bit a b = true <-> a = b.
Proof.
  split.
  - destruct a as [s|s| |s m e], b as [t|t| |t n f]; cbn; intros H; try discriminate; auto.
    + apply eqb_prop in H. congruence. + apply eqb_prop in H. congruence.
    + apply andb_true_iff in H. destruct H as [H H3]. apply andb_true_iff in H. destruct H as [H1 H2].
      apply eqb_prop in H1. apply Pos.eqb_eq in H2. apply Z.eqb_eq in H3. congruence.
  - intros <-. destruct a as [s|s| |s m e]; cbn; rewrite ?eqb_reflx, ?Pos.eqb_refl, ?Z.eqb_refl; auto.
Qed.

(** a defined axis never has the all-zero range of an undefined one *)
Definition nonzero (d : Dom64) : Prop :=
  forall i, Dom_Model.isDefined b64 d i = true ->
    ~ (Dom_Model.start b64 d i = S754_zero false /\ Dom_Model.stop b64 d i = S754_zero false).

Lemma norm_nonzero a1 a2 : norm_range b64 a1 a2 <> (S754_zero false, S754_zero false).
Proof.
  unfold norm_range. cbn [neqb b64 nltb nsub n1em6].
  destruct (SFeqb a1 a2) eqn:E.
  - intros X. injection X as X1 X2. subst a2.
    destruct a1 as [s|s| |s m e]; cbn in E, X1; try discriminate; destruct s; discriminate.
  - destruct (SFltb a2 a1) eqn:F; intros X; injection X as -> ->; discriminate.
Qed.

Lemma mk_nonzero a1 a2 : ~ (a_lo b64 (mk b64 a1 a2) = S754_zero false /\ a_hi b64 (mk b64 a1 a2) = S754_zero false).
Proof.
  unfold mk. pose proof (norm_nonzero a1 a2) as N. destruct (norm_range b64 a1 a2) as [lo hi]. cbn.
  intros [-> ->]. now apply N.
Qed.

Lemma set_nonzero d i x : wf b64 d -> nonzero d -> i < MaxAxis ->
  ~ (a_lo b64 x = S754_zero false /\ a_hi b64 x = S754_zero false) -> nonzero (set_ax b64 d i x).
Proof.
  intros [L W] N Hi X j. unfold Dom_Model.isDefined, Dom_Model.start, Dom_Model.stop.
  rewrite ax_set by (rewrite L; exact Hi). destruct (i =? j); auto. intros D. exact (N j D).
Qed.

Lemma validate_nonzero fs : forall d d', wf b64 d -> nonzero d -> validate_from b64 d fs = Ok d' -> nonzero d'.
Proof.
  induction fs as [|f fs IH]; intros d d' W N E; cbn [validate_from] in E.
  - injection E as <-. exact N.
  - destruct (validate_field b64 d f) as [d1| |] eqn:V; cbn [bind] in E; try discriminate.
    assert (X : wf b64 d1) by (eapply (validate_from_wf b64 [f]); [exact W|]; cbn [validate_from]; rewrite V; reflexivity).
    eapply IH; [exact X| |exact E]. unfold validate_field in V.
    destruct (snd f) as [|a [|b [|]]]; try discriminate.
    destruct (nleb b64 b a) eqn:Q; try discriminate.
    destruct ((fst f <? 0)%Z || (Z.of_nat MaxAxis <=? fst f)%Z) eqn:G; try discriminate.
    injection V as <-. apply set_nonzero; [exact W|exact N|clear -G; destruct f as [z v]; cbn [fst] in *; unfold MaxAxis in *; lia|]. cbn. intros [-> ->]. discriminate.
Qed.

Lemma new_nonzero : nonzero (dom_new b64).
Proof. intros i D. unfold Dom_Model.isDefined in D. rewrite ax_new in D. discriminate. Qed.

Lemma reach_nonzero d : reach b64 d -> nonzero d.
Proof.
  induction 1 as [|d i a1 a2 d' R IH E|d d' R IH E|fs d' E|a b Ra IHa Rb IHb|a b Ra IHa Rb IHb].
  - apply new_nonzero.
  - unfold defineAxis in E. destruct ((i <? 0)%Z || (Z.of_nat MaxAxis <=? i)%Z) eqn:G; [discriminate|].
    pose proof (norm_nonzero a1 a2) as N.
    destruct (norm_range b64 a1 a2) as [lo hi]. injection E as <-.
    apply set_nonzero; [now apply reach_wf|exact IH|clear -G; unfold MaxAxis in *; lia|]. cbn. intros [-> ->]. now apply N.
  - eapply validate_nonzero; [apply new_wf|apply new_nonzero|exact E].
  - eapply validate_nonzero; [apply new_wf|apply new_nonzero|exact E].
  - intros i. unfold Dom_Model.isDefined, Dom_Model.start, Dom_Model.stop. rewrite env_at.
    destruct (i <? MaxAxis); [|discriminate]. unfold env_ax.
    destruct (a_def b64 (ax b64 a i)), (a_def b64 (ax b64 b i)); intros D; try apply mk_nonzero. discriminate.
  - intros i. unfold Dom_Model.isDefined, Dom_Model.start, Dom_Model.stop.
    rewrite exp_at by (apply reach_wf in Ra; apply Ra).
    destruct (i <? MaxAxis); [|apply IHa]. unfold exp_ax.
    destruct (a_def b64 (ax b64 b i)), (a_def b64 (ax b64 a i)) eqn:Da; intros D; try apply mk_nonzero.
    + cbn zeta. destruct (negb _ || negb _); [apply mk_nonzero|]. now apply IHa.
    + now apply IHa.
    + congruence.
Qed.

Lemma eqb_identical a b : reach b64 a -> reach b64 b ->
  (dom_eqb b64 a b = true <-> identical b64 a b).
Proof.
  intros Ra Rb. pose proof (reach_wf _ _ Ra) as [La Wa]. pose proof (reach_wf _ _ Rb) as [Lb Wb].
  pose proof (reach_nonzero _ Ra) as Na. pose proof (reach_nonzero _ Rb) as Nb.
  unfold dom_eqb, identical. rewrite forallb_forall. split.
  - intros H i.
    assert (X : Dom_Model.start b64 a i = Dom_Model.start b64 b i /\ Dom_Model.stop b64 a i = Dom_Model.stop b64 b i).
    { destruct (Nat.ltb_spec i MaxAxis) as [Hi|Hi].
      - specialize (H i). rewrite in_seq in H. specialize (H ltac:(lia)). apply andb_true_iff in H.
        destruct H as [H1 H2]. cbn in H1, H2. apply sf_bit_eq in H1, H2. auto.
      - unfold Dom_Model.start, Dom_Model.stop, Dom_Model.ax. now rewrite !nth_overflow by lia. }
    destruct X as [X Y]. split; [|auto].
    specialize (Wa i). specialize (Wb i). specialize (Na i). specialize (Nb i).
    unfold Dom_Model.isDefined, Dom_Model.start, Dom_Model.stop, ax_wf in *.
    destruct (a_def b64 (ax b64 a i)) eqn:Da, (a_def b64 (ax b64 b i)) eqn:Db; auto; exfalso.
    + apply Na; auto. rewrite X, Y, Wb. cbn. auto.
    + apply Nb; auto. rewrite <- X, <- Y, Wa. cbn. auto.
  - intros H i _. destruct (H i) as (_ & -> & ->). cbn [nbit b64].
    assert (R : forall x, sf_bit x x = true) by (intros; now apply sf_bit_eq). now rewrite !R.
Qed.
