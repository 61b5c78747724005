(** The flags of a Function node's result. *)
From Verif Require Import Base Vel_Model Vel_Spec Vel_Proofs Vel_Arith Vel_Sums Vel_Thms Fun_Model.
Local Open Scope Z_scope.

Lemma restrict : forall out full idx, proper out -> subshape out full -> inside full idx ->
  exists idx', inside out idx' /\ forall s acc, (length s <= length out)%nat -> (forall k, ext out k = 1 -> ext s k = 1) ->
    position_from acc s idx = position_from acc s idx'.
Proof.
  induction out as [|o out IH]; intros full idx P [L X] I.
  - exists []. split; [constructor|]. intros [|n s] acc Ls _; cbn in *; [reflexivity|lia].
  - inversion P as [|? ? Po P']; subst. inversion I as [|f full' x idx1 Hx I']; subst; cbn [length] in L; [lia|].
    destruct (IH full' idx1 P') as (idx' & I1 & I2); [|exact I'|].
    { split; [lia|]. intro k. exact (X (S k)). }
    exists ((if o =? 1 then 0 else x) :: idx'). split.
    + constructor; [|exact I1]. specialize (X 0%nat). cbn in X. destruct (Z.eqb_spec o 1); lia.
    + intros [|n s] acc Ls H; [reflexivity|]. cbn [position_from length] in *. rewrite I2 by (try lia; intros k Hk; exact (H (S k) Hk)).
      f_equal. f_equal. destruct (Z.eqb_spec n 1); [reflexivity|]. destruct (Z.eqb_spec o 1) as [->|]; [|reflexivity]. specialize (H 0%nat eq_refl). contradiction.
Qed.
Lemma subshape_trans : forall a b c, proper b -> subshape a b -> subshape b c -> subshape a c.
Proof.
  intros a b c Pb [L1 H1] [L2 H2]. split; [lia|]. intro k. destruct (H1 k) as [|E]; [now left|]. destruct (H2 k) as [F|F]; [left; congruence|right; congruence].
Qed.
Lemma flagOr_spread : forall a b full, usable (v_shape a) (v_data a) -> usable (v_shape b) (v_data b) ->
  subshape (v_shape a) full -> subshape (v_shape b) full ->
  exists r, flagOr a b = Ok r /\ usable (v_shape r) (v_data r) /\ subshape (v_shape r) full /\
    forall idx, inside full idx -> flag_at (v_shape r) (v_data r) idx = Z.lor (flag_at (v_shape a) (v_data a) idx) (flag_at (v_shape b) (v_data b) idx).
Proof.
  intros a b full Wa Wb Sa Sb. pose proof (subshape_broadcast _ _ _ Sa Sb) as B.
  destruct (elementwise_broadcasts Z 0 Z.lor a b Wa Wb B) as (r & E & J & U & At).
  pose proof (inplace_same_values Z 0 (fun _ _ => false) Z.lor a b Wa Wb) as I. rewrite E in I. destruct I as (r' & I & I1 & I2).
  exists r'. split; [exact I|]. rewrite I1, I2. split; [exact U|].
  assert (Pa : proper (v_shape a)) by apply Wa. assert (Pb : proper (v_shape b)) by apply Wb. assert (Pr : proper (v_shape r)) by apply U.
  assert (Sr : subshape (v_shape r) full) by (eapply joint_subshape; [exact Pa|exact Pb|exact J|exact Sa|exact Sb]).
  split; [exact Sr|]. intros idx Hi.
  destruct (restrict _ _ _ Pr Sr Hi) as (idx' & H1 & H2). destruct (At idx' H1) as (x & y & Ax & Ay & Ar).
  unfold flag_at, at_index in *. unfold position in *.
  assert (Lr : (length (v_shape a) <= length (v_shape r))%nat /\ (length (v_shape b) <= length (v_shape r))%nat) by (destruct J as [J _]; lia).
  rewrite (H2 (v_shape r)), Ar by auto.
  rewrite (H2 (v_shape a)), Ax by (try apply Lr; intros k Hk; now apply (joint_ones _ _ _ k Pa Pb J) in Hk).
  rewrite (H2 (v_shape b)), Ay by (try apply Lr; intros k Hk; now apply (joint_ones _ _ _ k Pa Pb J) in Hk). reflexivity.
Qed.
Definition flags_at (o : option (vells Z)) (idx : list Z) : Z := match o with Some f => flag_at (v_shape f) (v_data f) idx | None => 0 end.
Definition good (full : list Z) (f : vells Z) : Prop := usable (v_shape f) (v_data f) /\ subshape (v_shape f) full.
Lemma masked_at : forall f m idx, flag_at (v_shape f) (map (fun b => Z.land b m) (v_data f)) idx = Z.land (flag_at (v_shape f) (v_data f) idx) m.
Proof. intros f m idx. unfold flag_at, at_index. rewrite nth_error_map. destruct (nth_error (v_data f) _); reflexivity. Qed.
Lemma mergeFlags_spread : forall o f m full, good full f -> match o with Some g => good full g | None => True end ->
  exists r, mergeFlags o f m = Ok r /\ match r with Some g => good full g | None => True end /\
    (r = None <-> o = None /\ m = 0) /\
    forall idx, inside full idx -> flags_at r idx = Z.lor (flags_at o idx) (Z.land (flag_at (v_shape f) (v_data f) idx) m).
Proof.
  intros o f m full Gf Go. unfold mergeFlags. destruct (Z.eqb_spec m 0) as [->|Nm].
  - exists o. split; [reflexivity|]. split; [exact Go|]. split; [tauto|]. intros idx _. rewrite Z.land_0_r, Z.lor_0_r. reflexivity.
  - set (g := if m =? VellsFullFlagMask then f else unary (fun b => Z.land b m) f).
    assert (Gg : good full g).
    { unfold g. destruct (m =? VellsFullFlagMask); [exact Gf|]. destruct Gf as [[[P L] R] S1]. split; [|exact S1]. cbn. split; [split; [exact P|now rewrite map_length]|exact R]. }
    assert (Ag : forall idx, flag_at (v_shape g) (v_data g) idx = Z.land (flag_at (v_shape f) (v_data f) idx) m).
    { intro idx. unfold g. destruct (Z.eqb_spec m VellsFullFlagMask) as [->|]; [unfold VellsFullFlagMask; now rewrite Z.land_m1_r|]. cbn [unary plain v_shape v_data]. apply masked_at. }
    destruct o as [f0|].
    + destruct Go as [W0 S0], Gg as [Wg Sg]. destruct (flagOr_spread f0 g full W0 Wg S0 Sg) as (r & E & U & Sr & At). fold g. rewrite E. cbn [bind].
      exists (Some r). split; [reflexivity|]. split; [split; assumption|]. split; [split; [discriminate|intros [X _]; discriminate]|].
      intros idx Hi. cbn [flags_at]. rewrite At by exact Hi. now rewrite Ag.
    + exists (Some g). split; [reflexivity|]. split; [exact Gg|]. split; [split; [discriminate|intros [_ X]; contradiction]|].
      intros idx Hi. cbn [flags_at]. rewrite Ag. now rewrite Z.lor_0_l.
Qed.

Section Flags.
Context {V P : Type}.
Variable isNull : V -> bool.
(** a child's flags count unless it has no value, or a null value and no spids *)
Definition counts (d : vdata V P) : Prop := exists v, d_value d = Some v /\ (isNull v = false \/ d_spids d <> []).
Lemma counts_null : forall d, counts d <-> vs_isNull isNull d = false.
Proof.
  intro d. unfold counts, vs_isNull. destruct (d_value d) as [v|]; [|split; [intros (v & X & _); discriminate|discriminate]].
  destruct (d_spids d) as [|s l].
  - split; [intros (w & X & [Y|Y]); [injection X as ->; exact Y|contradiction]|intro H; exists v; auto].
  - split; [reflexivity|intros _; exists v; split; [reflexivity|right; discriminate]].
Qed.
Lemma evaluateFlags_spread : forall full ds masks o, (length ds <= length masks)%nat ->
  (forall d f, In (Some d) ds -> d_flags d = Some f -> counts d -> good full f) ->
  match o with Some g => good full g | None => True end ->
  exists r, evaluateFlags isNull ds masks o = Ok r /\ match r with Some g => good full g | None => True end /\
    (r = None <-> o = None /\ forall i d f m, nth_error ds i = Some (Some d) -> d_flags d = Some f -> counts d -> nth_error masks i = Some m -> m = 0) /\
    forall idx b, inside full idx -> 0 <= b ->
      (Z.testbit (flags_at r idx) b = true <-> Z.testbit (flags_at o idx) b = true \/
       exists i d f m, nth_error ds i = Some (Some d) /\ d_flags d = Some f /\ counts d /\ nth_error masks i = Some m /\
         Z.testbit m b = true /\ Z.testbit (flag_at (v_shape f) (v_data f) idx) b = true).
Proof.
  intro full. induction ds as [|c ds IH]; intros masks o L G Go.
  - exists o. split; [reflexivity|]. split; [exact Go|]. split.
    + split; [intros ->; split; [reflexivity|intros [|i]; discriminate]|tauto].
    + intros idx b _ _. split; [tauto|]. intros [H|(i & d & f & m & X & _)]; [exact H|destruct i; discriminate].
  - destruct masks as [|m masks]; cbn [length] in L; [lia|].
    assert (Skip : (forall d f, c = Some d -> d_flags d = Some f -> counts d -> False) ->
      exists r, evaluateFlags isNull ds masks o = Ok r /\ match r with Some g => good full g | None => True end /\
        (r = None <-> o = None /\ forall i d f m0, nth_error (c :: ds) i = Some (Some d) -> d_flags d = Some f -> counts d -> nth_error (m :: masks) i = Some m0 -> m0 = 0) /\
        forall idx b, inside full idx -> 0 <= b ->
          (Z.testbit (flags_at r idx) b = true <-> Z.testbit (flags_at o idx) b = true \/
           exists i d f m0, nth_error (c :: ds) i = Some (Some d) /\ d_flags d = Some f /\ counts d /\ nth_error (m :: masks) i = Some m0 /\
             Z.testbit m0 b = true /\ Z.testbit (flag_at (v_shape f) (v_data f) idx) b = true)).
    { intro N. destruct (IH masks o ltac:(lia)) as (r & E & Gr & Nr & At); [intros d f Hd; apply G; now right|exact Go|].
      exists r. split; [exact E|]. split; [exact Gr|]. split.
      - rewrite Nr. split; intros [H1 H2]; (split; [exact H1|]).
        + intros [|i] d f m0 Hi Hf Hc Hm; [cbn in Hi; injection Hi as Hi; destruct (N d f Hi Hf Hc)|exact (H2 i d f m0 Hi Hf Hc Hm)].
        + intros i d f m0 Hi. exact (H2 (S i) d f m0 Hi).
      - intros idx b Hi Hb. rewrite (At idx b Hi Hb). split; (intros [H|(i & d & f & m0 & H1 & H2 & H3 & H4 & H5)]; [now left|right]).
        + exists (S i), d, f, m0. auto.
        + destruct i as [|i]; [cbn in H1; injection H1 as H1; destruct (N d f H1 H2 H3)|]. exists i, d, f, m0. auto. }
    cbn [evaluateFlags]. destruct c as [d|]; [|apply Skip; discriminate]. destruct (d_flags d) as [f|] eqn:Ef; [|apply Skip; intros d' f' X; injection X as <-; congruence].
    destruct (vs_isNull isNull d) eqn:En; [apply Skip; intros d' f' X _ Hc; injection X as <-; apply counts_null in Hc; congruence|]. clear Skip.
    apply counts_null in En. pose proof (G d f (or_introl eq_refl) Ef En) as Gf.
    destruct (mergeFlags_spread o f m full Gf Go) as (r1 & E1 & G1 & N1 & A1). rewrite E1. cbn [bind].
    destruct (IH masks r1 ltac:(lia)) as (r & E & Gr & Nr & At); [intros d' f' Hd; apply G; now right|exact G1|].
    exists r. split; [exact E|]. split; [exact Gr|]. split.
    + rewrite Nr, N1. split.
      * intros [[H1 H2] H3]. split; [exact H1|]. intros [|i] d' f' m0 Hi Hf Hc Hm; [cbn in Hm; congruence|exact (H3 i d' f' m0 Hi Hf Hc Hm)].
      * intros [H1 H2]. split; [split; [exact H1|exact (H2 0%nat d f m eq_refl Ef En eq_refl)]|]. intros i d' f' m0 Hi. exact (H2 (S i) d' f' m0 Hi).
    + intros idx b Hi Hb. rewrite (At idx b Hi Hb), (A1 idx Hi), Z.lor_spec, Z.land_spec, orb_true_iff, andb_true_iff. split.
      * intros [[H|[H1 H2]]|(i & d' & f' & m0 & H1 & H2 & H3 & H4 & H5)]; [now left| |]; right.
        -- exists 0%nat, d, f, m. auto 10.
        -- exists (S i), d', f', m0. auto 10.
      * intros [H|(i & d' & f' & m0 & H1 & H2 & H3 & H4 & H5 & H6)]; [tauto|]. destruct i as [|i]; cbn in H1, H4.
        -- injection H1 as <-. injection H4 as <-. left. right. replace f with f' by congruence. auto 10.
        -- right. exists i, d', f', m0. auto 10.
Qed.
End Flags.
