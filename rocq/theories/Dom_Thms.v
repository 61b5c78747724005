(** Theorems about Domain (C25, C49-C51), for IEEE binary64 ranges. *)
From Coq Require Import SpecFloat.
From Verif Require Import Base Flt_Model Flt_Proofs Dom_Model Dom_Spec Dom_Proofs.

Notation D := (Dom_Model.domain b64).
Notation built := (reach b64).

Lemma built_define d i a1 a2 : built d -> i < MaxAxis -> built (define b64 d i a1 a2).
Proof.
  intros R Hi. apply (r_def b64 d (Z.of_nat i) a1 a2 _ R). unfold defineAxis, define.
  replace ((Z.of_nat i <? 0)%Z || (Z.of_nat MaxAxis <=? Z.of_nat i)%Z) with false by (unfold MaxAxis in *; lia).
  rewrite Nat2Z.id. destruct (norm_range b64 a1 a2). reflexivity.
Qed.

Definition properb (d : D) : bool :=
  forallb (fun x => negb (a_def b64 x) || nltb b64 (a_lo b64 x) (a_hi b64 x)) d.
Lemma properb_ok d : properb d = true -> proper b64 d.
Proof.
  unfold properb. rewrite forallb_forall. intros H i Di. unfold Dom_Model.isDefined, Dom_Model.start, Dom_Model.stop in *.
  destruct (Nat.ltb_spec i (length d)) as [Hi|Hi].
  - specialize (H (Dom_Model.ax b64 d i) (nth_In d _ Hi)). rewrite Di in H. exact H.
  - unfold Dom_Model.ax in Di. rewrite nth_overflow in Di by lia. discriminate.
Qed.

(** C25.  The envelope contains both domains and is the smallest domain that does. *)
Theorem envelope_least_upper_bound : forall a b : D, built a -> built b -> proper b64 a -> proper b64 b ->
  contains b64 (envelope b64 a b) a /\ contains b64 (envelope b64 a b) b /\
  proper b64 (envelope b64 a b) /\
  forall c, contains b64 c a -> contains b64 c b -> contains b64 c (envelope b64 a b).
Proof.
  intros a b Ra Rb Pa Pb. apply reach_wf in Ra, Rb.
  destruct (env_contains b64 _ b64_ordered a b Ra Rb Pa Pb) as [H1 H2].
  split; [exact H1|]. split; [exact H2|]. split; [exact (env_proper b64 _ b64_ordered a b Ra Rb Pa Pb)|].
  intros c. exact (env_least b64 _ b64_ordered a b c Ra Rb Pa Pb).
Qed.
Print Assumptions envelope_least_upper_bound.

Theorem envelope_algebra : forall a b c : D, built a -> built b -> built c ->
  proper b64 a -> proper b64 b -> proper b64 c ->
  same_domain b64 (envelope b64 a b) (envelope b64 b a) /\
  same_domain b64 (envelope b64 (envelope b64 a b) c) (envelope b64 a (envelope b64 b c)) /\
  same_domain b64 (envelope b64 a a) a.
Proof.
  intros a b c Ra Rb Rc Pa Pb Pc. apply reach_wf in Ra, Rb, Rc.
  split; [exact (env_comm b64 _ b64_ordered a b Ra Rb Pa Pb)|].
  split; [exact (env_assoc b64 _ b64_ordered a b c Ra Rb Rc Pa Pb Pc)|].
  exact (env_idem b64 _ b64_ordered a Ra Pa).
Qed.
Print Assumptions envelope_algebra.

Theorem superset_of_projection : forall a b c : D, built a -> built b -> built c ->
  proper b64 a -> proper b64 b -> proper b64 c ->
  (supersetOfProj b64 a b = true <-> covers_projection b64 a b) /\
  supersetOfProj b64 a a = true /\
  (supersetOfProj b64 a b = true -> supersetOfProj b64 b c = true -> supersetOfProj b64 a c = true).
Proof.
  intros a b c Ra Rb Rc Pa Pb Pc. apply reach_wf in Ra, Rb, Rc.
  split; [exact (superset_iff b64 _ b64_ordered a b Ra Pa Pb)|].
  split; [apply (superset_iff b64 _ b64_ordered a a Ra Pa Pa); exact (covp_refl b64 _ b64_ordered a Pa)|].
  intros H1 H2. apply (superset_iff b64 _ b64_ordered a b Ra Pa Pb) in H1.
  apply (superset_iff b64 _ b64_ordered b c Rb Pb Pc) in H2.
  apply (superset_iff b64 _ b64_ordered a c Ra Pa Pc). exact (covp_trans b64 _ b64_ordered a b c H1 H2).
Qed.
Print Assumptions superset_of_projection.

(** expandToEnvelope computes the very same domain, down to the representation. *)
Theorem expand_is_envelope : forall a b : D, built a -> built b -> proper b64 a -> proper b64 b ->
  expandToEnvelope b64 a b = envelope b64 a b.
Proof.
  intros a b Ra Rb Pa Pb. apply reach_wf in Ra, Rb. exact (exp_is_env b64 _ b64_ordered a b Ra Rb Pa Pb).
Qed.
Print Assumptions expand_is_envelope.

Definition fz (s : bool) : spec_float := S754_zero s.
Definition fi (z : Z) : spec_float := nofZ b64 z.

(** Seen through operator==, the envelope is not commutative: std::min keeps
    its first argument when 0.0 and -0.0 compare equal. *)
Theorem envelope_commutes_under_eqb_refuted : exists a b : D,
  built a /\ built b /\ proper b64 a /\ proper b64 b /\
  dom_eqb b64 (envelope b64 a b) (envelope b64 b a) = false.
Proof.
  exists (define b64 (dom_new b64) 0 (fz false) (fi 1)), (define b64 (dom_new b64) 0 (fz true) (fi 1)).
  split; [|split; [|split; [|split]]].
  - apply built_define; [apply r_new|unfold MaxAxis; lia].
  - apply built_define; [apply r_new|unfold MaxAxis; lia].
  - apply properb_ok. vm_compute. reflexivity.
  - apply properb_ok. vm_compute. reflexivity.
  - vm_compute. reflexivity.
Qed.
Print Assumptions envelope_commutes_under_eqb_refuted.

(** A time/frequency domain and a frequency-only domain. *)
Definition exd1 : D := define b64 (define b64 (dom_new b64) 0 (fi 0) (fi 10)) 1 (fi 150) (fi 140).
Definition exd2 : D := define b64 (dom_new b64) 1 (fi 145) (fi 160).
Example ex_domains : built exd1 /\ built exd2 /\ proper b64 exd1 /\ proper b64 exd2 /\
  Dom_Model.start b64 (envelope b64 exd1 exd2) 1 = fi 140 /\
  Dom_Model.stop b64 (envelope b64 exd1 exd2) 1 = fi 160 /\
  Dom_Model.isDefined b64 (envelope b64 exd1 exd2) 0 = true /\
  supersetOfProj b64 exd2 exd1 = false /\
  supersetOfProj b64 (define b64 (dom_new b64) 1 (fi 100) (fi 200)) exd1 = true.
Proof.
  split; [|split; [|split; [|split]]].
  - repeat apply built_define; try apply r_new; unfold MaxAxis; lia.
  - apply built_define; [apply r_new|unfold MaxAxis; lia].
  - apply properb_ok. vm_compute. reflexivity.
  - apply properb_ok. vm_compute. reflexivity.
  - vm_compute. auto.
Qed.

(** C49.  operator== compares only the ranges, yet it decides whether two
    domains define the same axes with the same ranges. *)
Theorem domain_equality_exact : forall a b : D, built a -> built b ->
  (dom_eqb b64 a b = true <-> identical b64 a b).
Proof. exact eqb_identical. Qed.
Print Assumptions domain_equality_exact.

Example ex_equality : dom_eqb b64 exd1 exd1 = true /\ dom_eqb b64 exd1 exd2 = false.
Proof. vm_compute. auto. Qed.

(** C50.  A domain all of whose axes have start < end is copied exactly. *)
Theorem domain_clone_partial : forall d : D, built d -> proper b64 d -> clone b64 d = Ok d.
Proof.
  intros d R P. apply reach_wf in R. apply clone_proper; auto. exact (lt_nle b64 _ b64_ordered).
Qed.
Print Assumptions domain_clone_partial.

(** But a domain can be built that cannot be copied (nor sent to another
    process): a single frequency of 2^35 Hz (34 GHz).  defineAxis means to make
    the interval non-empty, but subtracting 1e-6 does not change the number. *)
Theorem domain_clone_refuted : exists d : D,
  defineAxis b64 (dom_new b64) 1 (fi (2^35)) (fi (2^35)) = Ok d /\ clone b64 d = Err.
Proof.
  assert (H : match defineAxis b64 (dom_new b64) 1 (fi (2^35)) (fi (2^35)) with
              | Ok d => match clone b64 d with Err => true | _ => false end
              | _ => false end = true) by (vm_compute; reflexivity).
  destruct (defineAxis b64 (dom_new b64) 1 (fi (2^35)) (fi (2^35))) as [d| |]; try discriminate.
  exists d. split; [reflexivity|]. destruct (clone b64 d); try discriminate. reflexivity.
Qed.
Print Assumptions domain_clone_refuted.

Definition copies (d : D) : bool := match clone b64 d with Ok d' => dom_eqb b64 d d' | _ => false end.
Example ex_clone : copies exd1 = true /\
  copies (define b64 (dom_new b64) 1 (fi 1400000000) (fi 1400000000)) = true.
Proof. split; vm_compute; reflexivity. Qed.

(** C51.  A received record whose axis numbers are legal is accepted or
    rejected without leaving the arrays. *)
Lemma validate_safe fs : forall d : D, (forall f, In f fs -> (0 <= fst f < 8)%Z) -> validate_from b64 d fs <> UB.
Proof.
  induction fs as [|f fs IH]; intros d H; cbn [validate_from]; [discriminate|].
  unfold validate_field. destruct (snd f) as [|a [|b [|]]]; cbn [bind]; try discriminate.
  destruct (nleb b64 b a); cbn [bind]; try discriminate.
  specialize (H f (or_introl eq_refl)) as Hf. destruct f as [z v]. cbn [fst] in *.
  replace ((z <? 0)%Z || (Z.of_nat MaxAxis <=? z)%Z) with false by (unfold MaxAxis; lia).
  cbn [bind]. apply IH. intros g Hg. apply H. now right.
Qed.
Theorem domain_record_safe_partial : forall fs : record b64,
  (forall f, In f fs -> (0 <= fst f < 8)%Z) -> validate b64 fs <> UB.
Proof. intros fs H. exact (validate_safe fs _ H). Qed.
Print Assumptions domain_record_safe_partial.

Definition is_ub {A} (r : res A) : bool := match r with UB => true | _ => false end.
Definition is_err {A} (r : res A) : bool := match r with Err => true | _ => false end.
(** A field named "9" writes past the end of range_ and defined_. *)
Theorem domain_record_safe_refuted : exists fs : record b64, validate b64 fs = UB.
Proof.
  exists [(9%Z, [fi 0; fi 1])].
  assert (H : is_ub (validate b64 [(9%Z, [fi 0; fi 1])]) = true) by (vm_compute; reflexivity).
  destruct (validate b64 [(9%Z, [fi 0; fi 1])]); try discriminate. reflexivity.
Qed.
Print Assumptions domain_record_safe_refuted.

Example ex_record : is_ok (validate b64 [(0%Z, [fi 0; fi 1]); (1%Z, [fi 5; fi 6])]) = true /\
  is_err (validate b64 [(0%Z, [fi 1; fi 1])]) = true /\ is_err (validate b64 [(0%Z, [fi 1])]) = true.
Proof. split; [|split]; vm_compute; reflexivity. Qed.
