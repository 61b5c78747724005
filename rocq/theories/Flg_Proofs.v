(** Proofs about MergeFlags. *)
From Verif Require Import Base Vel_Model Vel_Spec Vel_Proofs Fun_Model Fun_Flags Flg_Model Flg_Spec.
Local Open Scope Z_scope.

Lemma fit_ok : forall vs shp full, proper shp -> (forall k, ext shp k = 1 \/ ext shp k = ext full k) -> proper vs ->
  (forall k, ext vs k = 1 \/ ext vs k = ext full k) ->
  exists r, fit shp vs = Ok r /\ proper r /\ length r = Nat.max (length shp) (length vs) /\ forall k, ext r k = 1 \/ ext r k = ext full k.
Proof.
  induction vs as [|v vs IH]; intros shp full Ps Hs Pv Hv.
  - exists shp. cbn. split; [reflexivity|]. split; [exact Ps|]. split; [lia|exact Hs].
  - inversion Pv as [|? ? P1 P2]; subst.
    destruct (IH (tl shp) (tl full)) as (r & E & Pr & Lr & Hr).
    + destruct Ps; [constructor|assumption].
    + intro k. specialize (Hs (S k)). destruct shp, full; cbn in *; try (destruct k; cbn in *); auto.
    + exact P2.
    + intro k. specialize (Hv (S k)). destruct full; cbn in *; [destruct k; cbn in *; auto|auto].
    + cbn [fit]. rewrite E. cbn [bind]. specialize (Hs 0%nat). specialize (Hv 0%nat).
      assert (Tail : forall x, 1 <= x -> (x = 1 \/ x = ext full 0) -> proper (x :: r) /\ length (x :: r) = Nat.max (length shp) (length (v :: vs)) /\
        (forall k, ext (x :: r) k = 1 \/ ext (x :: r) k = ext full k)).
      { intros x H1 H2. split; [constructor; assumption|]. split.
        - cbn. rewrite Lr. destruct shp; cbn; lia.
        - intros [|k]; [exact H2|]. cbn. specialize (Hr k). unfold ext in *. destruct full; cbn in *; [destruct k; auto|exact Hr]. }
      assert (S0 : hd 0 shp = 0 \/ (1 <= hd 0 shp /\ hd 0 shp = ext shp 0)) by (destruct Ps; [now left|right; cbn; lia]).
      cbn in Hv. destruct (Z.ltb_spec 1 v) as [B|B].
      * destruct (Z.leb_spec (hd 0 shp) 1).
        -- exists (v :: r). split; [reflexivity|]. apply Tail; [lia|destruct Hv; lia].
        -- destruct (Z.eqb_spec (hd 0 shp) v) as [->|N]; [exists (v :: r); split; [reflexivity|]; apply Tail; [lia|destruct Hv; lia]|]. exfalso.
           destruct S0 as [S0|[_ S0]]; [lia|]. destruct Hs, Hv; lia.
      * exists ((if hd 0 shp =? 0 then 1 else hd 0 shp) :: r). split; [reflexivity|]. apply Tail; (destruct (Z.eqb_spec (hd 0 shp) 0); [auto; lia|]); destruct S0 as [S0|[S1 S0]]; lia.
Qed.

Section Merge.
Context {D C R : Type}.
Notation val := (val D C). Notation vellset := (vellset D C R). Notation fres := (fres D C R).

Definition covered (full : list Z) (x : vellset) : Prop := proper (x_shape x) /\ subshape (x_shape x) full.
(** flags, if any, are arrays that can be spread over [full] *)
Definition flagged_ok (full : list Z) (x : vellset) : Prop := match x_flags x with Some g => good full g | None => True end.

Lemma carry_carry : forall f g (v : val), carry f (carry g v) = carry f v.
Proof. intros f g [v|v]; reflexivity. Qed.
(** what setDataFlags makes of a VellSet *)
Definition upd (x x' : vellset) : Prop := x' = x \/
  exists g s, x' = {| x_shape := s; x_flags := Some g; x_main := option_map (carry g) (x_main x); x_pert := map (carry g) (x_pert x); x_rest := x_rest x |}.
Lemma upd_trans : forall x y z, upd x y -> upd y z -> upd x z.
Proof.
  intros x y z [->|(g & s & ->)]; [auto|]. intros [->|(h & t & ->)]; [right; eauto|]. right. exists h, t. cbn. f_equal.
  - destruct (x_main x) as [v|]; cbn; [|reflexivity]. now rewrite carry_carry.
  - rewrite map_map. apply map_ext. intro v. apply carry_carry.
Qed.
Lemma adjust_ok : forall full shp g, proper shp -> subshape shp full -> good full g ->
  exists s, adjustShape shp g = Ok s /\ proper s /\ subshape s full.
Proof.
  intros full shp g Ps [Ls Hs] [[[Pg _] _] [Lg Hg]]. unfold adjustShape. destruct (isScalar g); [exists shp; repeat split; auto|].
  destruct shp as [|a shp]; [exists (v_shape g); repeat split; auto|].
  destruct (fit_ok (v_shape g) (a :: shp) full Ps Hs Pg Hg) as (r & E & Pr & Lr & Hr). exists r. split; [exact E|]. split; [exact Pr|]. split; [lia|exact Hr].
Qed.
Lemma set_ok : forall full g x, covered full x -> good full g -> exists x', setDataFlags g x = Ok x' /\ covered full x' /\ x_flags x' = Some g /\ upd x x'.
Proof.
  intros full g x [Px Sx] G. destruct (adjust_ok full (x_shape x) g Px Sx G) as (s & E & Ps & Ss). unfold setDataFlags. rewrite E. cbn [bind].
  eexists. split; [reflexivity|]. cbn. split; [split; assumption|]. split; [reflexivity|]. right. eauto.
Qed.

Lemma put_len : forall {A} (l : list A) i x, length (put l i x) = length l.
Proof. intros A l. induction l as [|a l IH]; intros [|i] x; cbn; auto. Qed.
Lemma put_same : forall {A} (l : list A) i x y, nth_error l i = Some y -> nth_error (put l i x) i = Some x.
Proof. intros A l. induction l as [|a l IH]; intros [|i] x y H; cbn in *; try discriminate; eauto. Qed.
Lemma put_other : forall {A} (l : list A) i k x, k <> i -> nth_error (put l i x) k = nth_error l k.
Proof. intros A l. induction l as [|a l IH]; intros [|i] [|k] x H; cbn in *; try congruence; auto. Qed.

Notation source := (Z * vells Z)%type.
Definition gather (idx : list Z) (l : list source) (z : Z) : Z := fold_left (fun a mf => Z.lor a (Z.land (flag_at (v_shape (snd mf)) (v_data (snd mf)) idx) (fst mf))) l z.
Lemma gather_bit : forall idx b l z, 0 <= b -> Z.testbit (gather idx l z) b = true <->
  Z.testbit z b = true \/ exists m f, In (m, f) l /\ Z.testbit m b = true /\ Z.testbit (flag_at (v_shape f) (v_data f) idx) b = true.
Proof.
  intros idx b. induction l as [|[m f] l IH]; intros z Hb.
  - cbn. split; [auto|]. intros [H|(? & ? & [] & _)]. exact H.
  - unfold gather in *. cbn [fold_left]. rewrite IH by exact Hb. cbn [fst snd]. rewrite Z.lor_spec, Z.land_spec, orb_true_iff, andb_true_iff. split.
    + intros [[H|[H1 H2]]|(m' & f' & H1 & H2)]; [now left|right; exists m, f; cbn; auto|right; exists m', f'; cbn; auto].
    + intros [H|(m' & f' & [H1|H1] & H2 & H3)]; [auto|injection H1 as -> ->; auto|right; eauto 10].
Qed.
(** [vs'] is [vs] with the flags of the sources of each element merged in *)
Definition merged (full : list Z) (srcs : nat -> list source) (vs vs' : list vellset) : Prop :=
  length vs' = length vs /\
  forall i x, nth_error vs i = Some x -> exists x', nth_error vs' i = Some x' /\ upd x x' /\ covered full x' /\ flagged_ok full x' /\
    (x_flags x' = None <-> x_flags x = None /\ srcs i = []) /\
    forall idx, inside full idx -> flags_at (x_flags x') idx = gather idx (srcs i) (flags_at (x_flags x) idx).
Definition state_ok (full : list Z) (vs : list vellset) : Prop := Forall (fun x => covered full x /\ flagged_ok full x) vs.
Lemma merged_ok : forall full s vs vs', merged full s vs vs' -> state_ok full vs'.
Proof.
  intros full s vs vs' [L H]. apply Forall_forall. intros x' Hx. apply In_nth_error in Hx as (i & Hi).
  destruct (nth_error vs i) as [x|] eqn:E; [|apply nth_error_None in E; rewrite <- L in E; apply nth_error_None in E; congruence].
  destruct (H i x E) as (x2 & H1 & _ & H2 & H3 & _). split; congruence.
Qed.
Lemma merged_refl : forall full vs, state_ok full vs -> merged full (fun _ => []) vs vs.
Proof.
  intros full vs H. split; [reflexivity|]. intros i x Hi. exists x. pose proof (proj1 (Forall_forall _ _) H x (nth_error_In _ _ Hi)) as [H1 H2].
  split; [exact Hi|]. split; [now left|]. split; [exact H1|]. split; [exact H2|]. split; [tauto|]. intros idx _. reflexivity.
Qed.
Lemma merged_trans : forall full s t a b c, merged full s a b -> merged full t b c -> merged full (fun i => s i ++ t i) a c.
Proof.
  intros full s t a b c [L1 H1] [L2 H2]. split; [lia|]. intros i x Hi. destruct (H1 i x Hi) as (y & Y1 & Y2 & Y3 & Y4 & Y5 & Y7).
  destruct (H2 i y Y1) as (z & Z1 & Z2 & Z3 & Z4 & Z5 & Z7). exists z. split; [exact Z1|]. split; [eapply upd_trans; eassumption|]. split; [exact Z3|]. split; [exact Z4|]. split.
  - rewrite Z5, Y5. split; [intros [[A ->] ->]; auto|]. intros [A E]. apply app_eq_nil in E as [-> ->]. auto.
  - intros idx I. rewrite Z7, Y7 by exact I. unfold gather. now rewrite fold_left_app.
Qed.
Lemma merged_ext : forall full s t a b, (forall i, s i = t i) -> merged full s a b -> merged full t a b.
Proof. intros full s t a b E [L H]. split; [exact L|]. intros i x Hi. rewrite <- E. now apply H. Qed.

Definition src (fm : Z) (y : vellset) : list source := match x_flags y with Some f => [(fm, f)] | None => [] end.
Lemma src_in : forall fm y m f, In (m, f) (src fm y) <-> m = fm /\ x_flags y = Some f.
Proof. intros fm y m f. unfold src. destruct (x_flags y) as [g|]; cbn; [|split; [tauto|intros [_ X]; discriminate]]. split; [intros [X|[]]; injection X as -> ->; auto|intros [-> X]; injection X as ->; auto]. Qed.

(** merging given flags into one element *)
Lemma put_merged : forall full vs i x x' l, state_ok full vs -> nth_error vs i = Some x -> upd x x' -> covered full x' -> flagged_ok full x' ->
  (x_flags x' = None <-> x_flags x = None /\ l = []) ->
  (forall idx, inside full idx -> flags_at (x_flags x') idx = gather idx l (flags_at (x_flags x) idx)) ->
  merged full (fun k => if Nat.eqb i k then l else []) vs (put vs i x').
Proof.
  intros full vs i x x' l S E U Cv Fl N At. split; [apply put_len|]. intros k y Hk. destruct (Nat.eqb_spec i k) as [<-|Nk].
  - exists x'. assert (y = x) as -> by congruence. split; [eapply put_same; exact E|]. auto 10.
  - exists y. rewrite put_other by auto. pose proof (proj1 (Forall_forall _ _) S y (nth_error_In _ _ Hk)) as [H1 H2].
    split; [exact Hk|]. split; [now left|]. split; [exact H1|]. split; [exact H2|]. split; [tauto|]. intros idx _. reflexivity.
Qed.
Lemma mergeChild_ok : forall full fm i y vs, fm <> 0 -> state_ok full vs -> flagged_ok full y -> (i < length vs)%nat ->
  exists vs', mergeChildFlags fm i y vs = Ok vs' /\ merged full (fun k => if Nat.eqb i k then src fm y else []) vs vs'.
Proof.
  intros full fm i y vs Nm S Gy Li. unfold mergeChildFlags, src, flagged_ok in *. destruct (x_flags y) as [f|].
  - destruct (nth_error vs i) as [x|] eqn:E; [|apply nth_error_None in E; lia]. pose proof (proj1 (Forall_forall _ _) S x (nth_error_In _ _ E)) as [Cx Fx].
    destruct (mergeFlags_spread (x_flags x) f fm full Gy Fx) as (r & Er & Gr & Nr & At). rewrite Er. cbn [bind].
    destruct r as [g|]; [|exfalso; destruct (proj1 Nr eq_refl); contradiction].
    destruct (set_ok full g x Cx Gr) as (x' & E' & C' & F' & U). rewrite E'. cbn [bind]. eexists. split; [reflexivity|].
    eapply put_merged; [exact S|exact E|exact U|exact C'|unfold flagged_ok; rewrite F'; exact Gr| |].
    + rewrite F'. split; [discriminate|intros [_ X]; discriminate].
    + intros idx I. rewrite F'. cbn [flags_at gather fold_left fst snd]. exact (At idx I).
  - exists vs. split; [reflexivity|]. eapply merged_ext; [|apply merged_refl; exact S]. intro k. cbn. now destruct (Nat.eqb i k).
Qed.
(** a sequence of such merges *)
Lemma ops_ok : forall full fm (ops : list (nat * vellset)) vs, fm <> 0 -> state_ok full vs ->
  Forall (fun o => (fst o < length vs)%nat /\ flagged_ok full (snd o)) ops ->
  exists vs', floop (fun o => mergeChildFlags fm (fst o) (snd o)) ops vs = Ok vs' /\
    merged full (fun k => flat_map (fun o => if Nat.eqb (fst o) k then src fm (snd o) else []) ops) vs vs'.
Proof.
  intros full fm ops. induction ops as [|[i y] ops IH]; intros vs Nm S H.
  - exists vs. split; [reflexivity|]. now apply merged_refl.
  - apply Forall_cons_iff in H as [[Li Gy] H]. destruct (mergeChild_ok full fm i y vs Nm S Gy Li) as (v1 & E1 & M1). cbn [floop fst snd]. rewrite E1. cbn [bind].
    destruct (IH v1 Nm (merged_ok _ _ _ _ M1)) as (v2 & E2 & M2).
    { eapply Forall_impl; [|exact H]. intros o Ho. destruct M1 as [-> _]. exact Ho. }
    exists v2. split; [exact E2|]. exact (merged_trans _ _ _ _ _ _ M1 M2).
Qed.
Lemma floop_app : forall {A S} (f : A -> S -> res S) a b s, floop f (a ++ b) s = bind (floop f a s) (floop f b).
Proof. intros A S f a. induction a as [|x a IH]; intros b s; [reflexivity|]. cbn. destruct (f x s); cbn; auto. Qed.
Lemma floop_map : forall {A B S} (f : B -> S -> res S) (g : A -> B) l s, floop f (map g l) s = floop (fun a => f (g a)) l s.
Proof. intros A B S f g l. induction l as [|x l IH]; intro s; [reflexivity|]. cbn. destruct (f (g x) s); cbn; auto. Qed.
Lemma floop_flat : forall {A B S} (f : B -> S -> res S) (g : A -> list B) l s, floop f (flat_map g l) s = floop (fun a => floop f (g a)) l s.
Proof. intros A B S f g l. induction l as [|x l IH]; intro s; [reflexivity|]. cbn [flat_map floop]. rewrite floop_app. destruct (floop f (g x) s); cbn; auto. Qed.
Lemma floop_ext : forall {A S} (f g : A -> S -> res S) l s, (forall a s, In a l -> f a s = g a s) -> floop f l s = floop g l s.
Proof. intros A S f g l. induction l as [|x l IH]; intros s H; [reflexivity|]. cbn. rewrite H by now left. destruct (g x s); cbn; [|reflexivity|reflexivity]. apply IH. intros; apply H; now right. Qed.

(** merging flags of many VellSets without a VellSet to put them in *)
Lemma fold_ok : forall full fm ys o, fm <> 0 -> Forall (flagged_ok full) ys -> match o with Some g => good full g | None => True end ->
  exists r, floop (fun y r => match x_flags y with Some f => mergeFlags r f fm | None => Ok r end) ys o = Ok r /\
    match r with Some g => good full g | None => True end /\ (r = None <-> o = None /\ flat_map (src fm) ys = []) /\
    forall idx, inside full idx -> flags_at r idx = gather idx (flat_map (src fm) ys) (flags_at o idx).
Proof.
  intros full fm ys. induction ys as [|y ys IH]; intros o Nm H G.
  - exists o. split; [reflexivity|]. split; [exact G|]. split; [tauto|]. intros idx _. reflexivity.
  - apply Forall_cons_iff in H as [Hy H]. cbn [floop flat_map]. unfold src. unfold flagged_ok in Hy. destruct (x_flags y) as [f|].
    + destruct (mergeFlags_spread o f fm full Hy G) as (r & Er & Gr & Nr & At). rewrite Er. cbn [bind].
      destruct (IH r Nm H Gr) as (q & Eq & Gq & Nq & Aq). exists q. split; [exact Eq|]. split; [exact Gq|]. split.
      * rewrite Nq, Nr. cbn. split; [intros [[_ X] _]; contradiction|intros [_ X]; discriminate].
      * intros idx I. rewrite Aq, At by exact I. reflexivity.
    + cbn [bind]. exact (IH o Nm H G).
Qed.

Lemma dims_eqb_iff : forall a b, dims_eqb a b = true <-> a = b.
Proof. intros a b. unfold dims_eqb. destruct (list_eq_dec Nat.eq_dec a b); split; congruence. Qed.
(** as many VellSets as the dimensions say, if any *)
Definition sized (r : fres) : Prop := f_vs r = [] \/ length (f_vs r) = fold_right Nat.mul 1%nat (f_dims r).

Lemma child_ok : forall full all dims fm ch vs, state_ok full vs -> vs <> [] -> length vs = fold_right Nat.mul 1%nat dims -> sized ch ->
  Forall (flagged_ok full) (f_vs ch) -> (fm <> 0 -> f_vs ch <> [] -> ~ clash all dims (f_dims ch)) ->
  exists vs' srcs, merge_child all dims (fm, ch) vs = Ok vs' /\ merged full srcs vs vs' /\
    forall i, (i < length vs)%nat -> forall m f, In (m, f) (srcs i) <->
      m = fm /\ fm <> 0 /\ exists j y, nth_error (f_vs ch) j = Some y /\ x_flags y = Some f /\ faces all dims (f_dims ch) i j.
Proof.
  intros full all dims fm ch vs St Ne Lv Sz Gc Nc. unfold merge_child. destruct (Z.eqb_spec fm 0) as [->|Nm].
  { exists vs, (fun _ => []). split; [reflexivity|]. split; [now apply merged_refl|]. intros i _ m f. cbn. tauto. }
  specialize (Nc Nm). destruct (f_vs ch) as [|y0 ys] eqn:Ec.
  { exists vs, (fun _ => []). split; [reflexivity|]. split; [now apply merged_refl|]. intros i _ m f. cbn. split; [tauto|]. intros (_ & _ & j & y & X & _). destruct j; discriminate. }
  specialize (Nc ltac:(discriminate)). rewrite <- Ec in *. destruct Sz as [X|Sz]; [rewrite X in Ec; discriminate|].
  destruct all.
  - (* everything *)
    set (ops := flat_map (fun i => map (pair i) (f_vs ch)) (seq 0 (length vs))).
    destruct (ops_ok full fm ops vs Nm St) as (vs' & E & M).
    { apply Forall_forall. intros [i y] Hi. apply in_flat_map in Hi as (k & Hk & Hi). apply in_map_iff in Hi as (z & X & Hz). injection X as <- <-. apply in_seq in Hk. split; [cbn; lia|]. rewrite Forall_forall in Gc. now apply Gc. }
    exists vs'. eexists. split; [|split; [exact M|]].
    + rewrite <- E. unfold ops. rewrite floop_flat. apply floop_ext. intros i s _. now rewrite floop_map.
    + intros i Hi m f. rewrite in_flat_map. split.
      * intros ([k y] & Ho & Hin). unfold ops in Ho. apply in_flat_map in Ho as (k' & _ & Ho). apply in_map_iff in Ho as (z & X & Hz). injection X as <- <-.
        cbn [fst snd] in Hin. destruct (Nat.eqb_spec k' i) as [->|]; [|contradiction]. apply src_in in Hin as [-> Hf]. apply In_nth_error in Hz as (j & Hj). split; [reflexivity|]. split; [exact Nm|]. exists j, z. unfold faces. auto.
      * intros (-> & _ & j & y & Hj & Hf & _). exists (i, y). split; [|cbn [fst snd]; rewrite Nat.eqb_refl; apply src_in; auto].
        unfold ops. apply in_flat_map. exists i. split; [apply in_seq; lia|]. apply in_map. eapply nth_error_In, Hj.
  - destruct (dims_eqb dims (f_dims ch)) eqn:Ed.
    + (* element by element *)
      apply dims_eqb_iff in Ed. rewrite <- Ed, <- Lv in Sz.
      set (ops := combine (seq 0 (length vs)) (f_vs ch)).
      assert (Nop : forall k i y, nth_error ops k = Some (i, y) <-> i = k /\ nth_error (f_vs ch) k = Some y).
      { unfold ops. rewrite <- Sz. generalize (f_vs ch) as l. assert (forall (l : list vellset) st k i y, nth_error (combine (seq st (length l)) l) k = Some (i, y) <-> i = (st + k)%nat /\ nth_error l k = Some y) as Hq; [|intros l k i y; exact (Hq l 0%nat k i y)].
        induction l as [|a l IH]; intros st k i y; [cbn; destruct k; split; [discriminate|intros [_ X]; discriminate|discriminate|intros [_ X]; discriminate]|].
        destruct k as [|k]; cbn [length seq combine nth_error].
        - rewrite Nat.add_0_r. split; [intro X; injection X as <- <-; auto|intros [-> X]; injection X as ->; reflexivity].
        - rewrite IH. replace (S st + k)%nat with (st + S k)%nat by lia. tauto. }
      destruct (ops_ok full fm ops vs Nm St) as (vs' & E & M).
      { apply Forall_forall. intros [i y] Hi. apply In_nth_error in Hi as (k & Hk). apply Nop in Hk as [-> Hk]. split; [cbn; rewrite <- Sz; apply nth_error_Some; congruence|].
        rewrite Forall_forall in Gc. eapply Gc, nth_error_In, Hk. }
      exists vs'. eexists. split; [|split; [exact M|]].
      * rewrite <- E. unfold ops. rewrite <- Sz. clear. generalize (f_vs ch) as l.
        assert (forall (l pre : list vellset) vs, floop (fun i vs => match nth_error (pre ++ l) i with Some y => mergeChildFlags fm i y vs | None => UB end) (seq (length pre) (length l)) vs =
          floop (fun o => mergeChildFlags fm (fst o) (snd o)) (combine (seq (length pre) (length l)) l) vs) as Hq; [|intro l; exact (Hq l [] vs)].
        induction l as [|a l IH]; intros pre ws; [reflexivity|]. cbn [length seq combine floop fst snd].
        rewrite nth_error_app2, Nat.sub_diag by lia. cbn [nth_error]. destruct (mergeChildFlags fm (length pre) a ws) as [w| |]; cbn [bind]; [|reflexivity|reflexivity].
        specialize (IH (pre ++ [a]) w). rewrite app_length, <- app_assoc in IH. cbn [length app] in IH. rewrite Nat.add_1_r in IH. exact IH.
      * intros i Hi m f. rewrite in_flat_map. split.
        -- intros ([k y] & Ho & Hin). apply In_nth_error in Ho as (k' & Ho). apply Nop in Ho as [-> Ho]. cbn [fst snd] in Hin. destruct (Nat.eqb_spec k' i) as [->|]; [|contradiction].
           apply src_in in Hin as [-> Hf]. split; [reflexivity|]. split; [exact Nm|]. exists i, y. unfold faces. auto 10.
        -- intros (-> & _ & j & y & Hj & Hf & [X|[[_ <-]|[X _]]]); [discriminate| |contradiction]. exists (i, y). split; [eapply nth_error_In, Nop; split; [reflexivity|exact Hj]|]. cbn [fst snd]. rewrite Nat.eqb_refl. apply src_in. auto.
    + assert (Ned : dims <> f_dims ch) by (intro X; apply dims_eqb_iff in X; congruence). destruct (f_dims ch) as [|d ds] eqn:Edc.
      * (* a scalar source *)
        cbn in Sz. set (ops := map (fun i => (i, y0)) (seq 0 (length vs))).
        assert (Hone : f_vs ch = [y0]) by (rewrite Ec in Sz |- *; destruct ys; [reflexivity|cbn in Sz; lia]).
        destruct (ops_ok full fm ops vs Nm St) as (vs' & E & M).
        { apply Forall_forall. intros [i y] Hi. apply in_map_iff in Hi as (z & X & Hz). injection X as <- <-. apply in_seq in Hz. split; [cbn; lia|]. rewrite Hone in Gc. inversion Gc; auto. }
        exists vs'. eexists. split; [|split; [exact M|]]; [now rewrite <- E; unfold ops; rewrite floop_map|].
        intros i Hi m f. rewrite in_flat_map. split.
        -- intros ([k y] & Ho & Hin). apply in_map_iff in Ho as (z & X & _). injection X as <- <-. cbn [fst snd] in Hin. destruct (Nat.eqb z i); [|contradiction].
           apply src_in in Hin as [-> Hf]. split; [reflexivity|]. split; [exact Nm|]. exists 0%nat, y0. rewrite Hone. split; [reflexivity|]. split; [exact Hf|]. unfold faces. auto.
        -- intros (-> & _ & j & y & Hj & Hf & _). rewrite Hone in Hj. destruct j as [|[|j]]; try discriminate. injection Hj as <-. exists (i, y0). split; [unfold ops; apply in_map_iff; exists i; split; [reflexivity|apply in_seq; lia]|].
           cbn [fst snd]. rewrite Nat.eqb_refl. apply src_in. auto.
      * destruct dims as [|d0 ds0]; [|exfalso; apply Nc; unfold clash; repeat split; try discriminate; exact Ned].
        (* a scalar destination *)
        cbn in Lv. destruct vs as [|x [|? ?]]; try discriminate. unfold mergeScalar. cbn [nth_error].
        pose proof St as S'. apply Forall_cons_iff in S' as [[Cx Fx] _].
        destruct (fold_ok full fm (f_vs ch) (x_flags x) Nm Gc Fx) as (r & Er & Gr & Nr & At). rewrite Er. cbn [bind].
        assert (In_src : forall m f, In (m, f) (flat_map (src fm) (f_vs ch)) <-> m = fm /\ exists j y, nth_error (f_vs ch) j = Some y /\ x_flags y = Some f).
        { intros m f. rewrite in_flat_map. split.
          - intros (y & Hy & Hin). apply src_in in Hin as [-> Hf]. apply In_nth_error in Hy as (j & Hj). eauto.
          - intros (-> & j & y & Hj & Hf). exists y. split; [eapply nth_error_In, Hj|]. apply src_in. auto. }
        destruct r as [g|].
        -- destruct (set_ok full g x Cx Gr) as (x' & E' & C' & F' & U). rewrite E'. cbn [bind].
           eexists. exists (fun i => if Nat.eqb 0 i then flat_map (src fm) (f_vs ch) else []). split; [reflexivity|]. split.
           ++ eapply put_merged; [exact St|reflexivity|exact U|exact C'|unfold flagged_ok; rewrite F'; exact Gr| |].
              ** rewrite F'. split; [discriminate|]. intro X. apply Nr in X. discriminate.
              ** intros idx I. rewrite F'. exact (At idx I).
           ++ intros i Hi m f. cbn [length] in Hi. replace i with 0%nat by lia. cbn [Nat.eqb]. rewrite In_src. unfold faces.
              split; [intros (-> & j & y & Hj & Hf); split; [reflexivity|]; split; [exact Nm|]; exists j, y; auto 10|intros (-> & _ & j & y & Hj & Hf & _); eauto].
        -- destruct (proj1 Nr eq_refl) as [Nx Ns]. exists [x], (fun _ => []). split; [reflexivity|]. split; [now apply merged_refl|].
           intros i Hi m f. cbn [In]. split; [tauto|]. intros (-> & _ & j & y & Hj & Hf & _). assert (In (fm, f) []) by (rewrite <- Ns; apply In_src; eauto). assumption.
Qed.

Lemma children_ok : forall full all dims (cs : list fres) masks vs, (length masks = length cs)%nat -> state_ok full vs -> vs <> [] -> length vs = fold_right Nat.mul 1%nat dims ->
  (forall c, In c cs -> sized c /\ Forall (flagged_ok full) (f_vs c)) ->
  (forall k m c, nth_error masks k = Some m -> nth_error cs k = Some c -> m <> 0 -> f_vs c <> [] -> ~ clash all dims (f_dims c)) ->
  exists vs' srcs, floop (merge_child all dims) (combine masks cs) vs = Ok vs' /\ merged full srcs vs vs' /\
    forall i, (i < length vs)%nat -> forall m f, In (m, f) (srcs i) <->
      m <> 0 /\ exists k c j y, nth_error masks k = Some m /\ nth_error cs k = Some c /\ nth_error (f_vs c) j = Some y /\ x_flags y = Some f /\ faces all dims (f_dims c) i j.
Proof.
  intros full all dims cs. induction cs as [|c cs IH]; intros masks vs L St Ne Lv Hc Nc.
  - destruct masks; [|discriminate]. exists vs, (fun _ => []). split; [reflexivity|]. split; [now apply merged_refl|]. intros i _ m f. cbn. split; [tauto|]. intros (_ & k & c & j & y & X & _). destruct k; discriminate.
  - destruct masks as [|m0 masks]; [discriminate|]. cbn [combine floop].
    destruct (Hc c (or_introl eq_refl)) as [Sz Gc].
    destruct (child_ok full all dims m0 c vs St Ne Lv Sz Gc (Nc 0%nat m0 c eq_refl eq_refl)) as (v1 & s1 & E1 & M1 & I1). rewrite E1. cbn [bind].
    pose proof M1 as [L1 _].
    destruct (IH masks v1) as (v2 & s2 & E2 & M2 & I2).
    + injection L as L. exact L.
    + eapply merged_ok, M1.
    + intros ->. destruct vs; [contradiction|discriminate].
    + congruence.
    + intros c' Hc'. apply Hc. now right.
    + intros k m c' H1 H2. exact (Nc (S k) m c' H1 H2).
    + exists v2. eexists. split; [exact E2|]. split; [exact (merged_trans _ _ _ _ _ _ M1 M2)|]. intros i Hi m f. cbv beta. rewrite in_app_iff, I1, I2 by lia. split.
      * intros [(-> & Nm & j & y & H)|(Nm & k & c' & j & y & H1 & H2 & H)]; (split; [exact Nm|]); [exists 0%nat, c, j, y; cbn; tauto|exists (S k), c', j, y; cbn; tauto].
      * intros (Nm & [|k] & c' & j & y & H1 & H2 & H); cbn in H1, H2; [left; injection H1 as ->; injection H2 as ->; split; [reflexivity|]; split; [exact Nm|]; eauto|right; split; [exact Nm|]; exists k, c', j, y; tauto].
Qed.
(** a child whose dimensions do not match stops it *)
Lemma children_clash : forall full all dims (cs : list fres) masks vs, (length masks = length cs)%nat -> state_ok full vs -> vs <> [] -> length vs = fold_right Nat.mul 1%nat dims ->
  (forall c, In c cs -> sized c /\ Forall (flagged_ok full) (f_vs c)) ->
  (exists k m c, nth_error masks k = Some m /\ nth_error cs k = Some c /\ m <> 0 /\ f_vs c <> [] /\ clash all dims (f_dims c)) ->
  floop (merge_child all dims) (combine masks cs) vs = Err.
Proof.
  intros full all dims cs. induction cs as [|c cs IH]; intros masks vs L St Ne Lv Hc (k & m & c1 & K1 & K2 & K3 & K4 & K5).
  - destruct k; discriminate.
  - destruct masks as [|m0 masks]; [discriminate|]. cbn [combine floop]. destruct (Hc c (or_introl eq_refl)) as [Sz Gc].
    assert (Dec : (m0 <> 0 /\ f_vs c <> [] /\ clash all dims (f_dims c)) \/ (m0 <> 0 -> f_vs c <> [] -> ~ clash all dims (f_dims c))).
    { unfold clash. destruct (Z.eq_dec m0 0); [right; tauto|]. destruct (f_vs c) eqn:Ev; [right; tauto|]. destruct all; [right; intros _ _ [X _]; discriminate|].
      destruct (list_eq_dec Nat.eq_dec dims (f_dims c)); [right; tauto|]. destruct dims; [right; tauto|]. destruct (f_dims c); [right; tauto|left; repeat split; auto; discriminate]. }
    destruct Dec as [(N1 & N2 & N3 & N4 & N5 & N6)|Ok1].
    + assert (merge_child all dims (m0, c) vs = Err) as ->; [|reflexivity]. unfold merge_child. destruct (Z.eqb_spec m0 0); [contradiction|]. destruct (f_vs c) as [|? ?]; [contradiction|]. subst all.
      destruct (dims_eqb dims (f_dims c)) eqn:X; [apply dims_eqb_iff in X; contradiction|]. destruct (f_dims c); [contradiction|]. destruct dims; [contradiction|reflexivity].
    + destruct (child_ok full all dims m0 c vs St Ne Lv Sz Gc Ok1) as (v1 & s1 & E1 & M1 & I1). rewrite E1. cbn [bind]. pose proof M1 as [L1 _].
      destruct k as [|k]; [cbn in K1, K2; injection K1 as ->; injection K2 as ->; destruct (Ok1 K3 K4 K5)|].
      apply IH; [injection L as L; exact L|eapply merged_ok, M1|intros ->; destruct vs; [contradiction|discriminate]|congruence|intros c' H'; apply Hc; now right|]. exists k, m, c1. auto 10.
Qed.
End Merge.
