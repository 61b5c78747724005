From Coq Require Import Permutation.
From Verif Require Import Base Ref_Model Ref_Spec Ref_Proofs Ref_Proofs2.
Local Open Scope Z_scope.

(** ** Copy-on-write isolation *)
(** [chain s r0 p l]: following [p] from the program's own reference [r0] one meets the
    references [l] (last first), each object on the way having one reference only *)
Inductive chain (s : st) (r0 : nat) : list nat -> list nat -> Prop :=
| ch1 rf : getref s r0 = Some rf -> ~ In r0 (owned (objs s)) -> chain s r0 [] [r0]
| ch2 p i m w l wf o b : chain s r0 p (w :: l) -> getref s w = Some wf -> r_t wf = Some o -> getobj s o = Some b ->
    tc o (refs s) = 1%nat -> nth_error (o_mem b) i = Some m -> chain s r0 (p ++ [i]) (m :: w :: l).

Lemma tc1_unique s o z w zf wf : tc o (refs s) = 1%nat -> getref s z = Some zf -> r_t zf = Some o ->
  getref s w = Some wf -> r_t wf = Some o -> z = w.
Proof.
  intros T Hz Tz Hw Tw. destruct (Nat.eq_dec z w) as [E|N]; [exact E|].
  pose proof (tc_ge2 o (refs s) z w zf wf N Hz Tz Hw Tw). lia.
Qed.
Lemma chain_up s r0 p l : inv s [] -> chain s r0 p l -> forall z zf y b m, getref s z = Some zf -> r_t zf = Some y ->
  getobj s y = Some b -> In m (o_mem b) -> In m l -> exists pre l', l = pre ++ m :: z :: l'.
Proof.
  intros I C. induction C as [rf H N|p i m0 w l wf o b0 C IH Hw Tw Hb0 T1 Em]; intros z zf y b m Hz Tz Hb Hm Hin.
  - destruct Hin as [<-|[]]. exfalso. apply N. apply owned_in. exists y, b. auto.
  - destruct Hin as [<-|Hin].
    + assert (y = o) by (apply (owner_unique s [] y b o b0 m0 I); auto; eapply nth_error_In; exact Em). subst y.
      assert (z = w) by (apply (tc1_unique s o z w zf wf); auto). subst z. exists [], l. reflexivity.
    + destruct (IH z zf y b m Hz Tz Hb Hm Hin) as (pre & l' & E). exists (m0 :: pre), l'. now rewrite E.
Qed.
Lemma chain_nodup s r0 p l : inv s [] -> chain s r0 p l -> NoDup l.
Proof.
  intros I C. induction C as [rf H N|p i m0 w l wf o b0 C IH Hw Tw Hb0 T1 Em]; [constructor; [auto|constructor]|].
  constructor; [|exact IH]. intros Hin.
  destruct (chain_up s r0 p (w :: l) I C w wf o b0 m0 Hw Tw Hb0 (nth_error_In _ _ Em) Hin) as (pre & l' & E).
  destruct pre as [|a pre]; cbn in E; injection E as E1 E2; subst.
  - inversion IH as [|? ? Hn _]. apply Hn. now left.
  - inversion IH as [|? ? Hn _]. apply Hn. apply in_or_app. right. right. now left.
Qed.
Lemma chain_live s r0 p l : inv s [] -> chain s r0 p l -> forall x, In x l -> exists xf, getref s x = Some xf.
Proof.
  intros I C. induction C as [rf H N|p i m0 w l wf o b0 C IH Hw Tw Hb0 T1 Em]; intros x Hx.
  - destruct Hx as [<-|[]]. eauto.
  - destruct Hx as [<-|Hx]; [|auto]. apply (i_live _ _ I). apply owned_in. exists o, b0. split; [exact Hb0|eapply nth_error_In; exact Em].
Qed.
Lemma chain_down s r0 p r l z zf y b m : inv s [] -> chain s r0 p (r :: l) -> getref s z = Some zf -> r_t zf = Some y ->
  getobj s y = Some b -> In m (o_mem b) -> ~ In z l -> ~ In m (r :: l).
Proof.
  intros I C Hz Tz Hb Hm Nz Hin. destruct (chain_up s r0 p (r :: l) I C z zf y b m Hz Tz Hb Hm Hin) as (pre & l' & E).
  apply Nz. destruct pre as [|a pre]; cbn in E; injection E as E1 E2; subst; [now left|]. apply in_or_app. right. right. now left.
Qed.

(** cloning the object at the end of the chain keeps the chain *)
Lemma chain_cowed sh s s' r0 r o b rf : inv s [] -> getref s r = Some rf -> r_t rf = Some o -> getobj s o = Some b -> cowed sh s s' r o b ->
  forall p l, chain s r0 p (r :: l) -> chain s' r0 p (r :: l).
Proof.
  intros I H Et Hb C p l Ch. pose proof (chain_nodup _ _ _ _ I Ch) as ND. inversion_clear ND as [|? ? Nr _].
  pose proof (c_grow _ _ _ _ _ _ C) as G.
  assert (GEN : forall p' l', chain s r0 p' l' -> (forall x, In x (tl l') -> In x l) -> chain s' r0 p' l').
  { intros p' l' Ch'. induction Ch' as [rf0 H0 N0|p' i m0 w l' wf o' b0 C' IH Hw Tw Hb0 T1 Em]; intros Hl.
    - destruct (g_refx _ _ _ G r0 rf0 H0) as (rf1 & H1 & _). apply (ch1 s' r0 rf1 H1). intros Hin. apply N0.
      apply (grow_owned _ _ _ r0 G); [eapply getref_lt; exact H0|exact Hin].
    - cbn [tl] in Hl. assert (Nw : r <> w) by (intros <-; apply Nr, Hl; now left).
      assert (Hw' : getref s' w = Some wf) by (rewrite (g_ref _ _ _ G w (getref_lt _ _ _ Hw) Nw); exact Hw).
      destruct (g_obj _ _ _ G o' b0 Hb0) as (e & Hb0').
      apply (ch2 s' r0 p' i m0 w l' wf o' (with_cnt b0 e)); auto.
      + apply IH. intros x Hx. apply Hl. cbn in Hx. right. exact Hx.
      + destruct (c_refs _ _ _ _ _ _ C) as (rf3 & T3 & _ & _ & R3). rewrite R3.
        set (news := map _ (o_mem b)).
        pose proof (tc_setn o' r (Some rf3) (refs s ++ news)) as T. rewrite app_length in T.
        assert (Lr := getref_lt _ _ _ H). specialize (T ltac:(lia)). rewrite app_nth1 in T by exact Lr. fold (getref s r) in T. rewrite H in T.
        assert (No : o <> o') by (intros <-; apply Nw; exact (tc1_unique s o r w rf wf T1 H Et Hw Tw)).
        rewrite (hit_other o' o rf Et No) in T.
        assert (No2 : length (objs s) <> o') by (intros <-; apply getobj_lt in Hb0; lia).
        rewrite (hit_other o' _ rf3 T3 No2) in T. rewrite tc_app in T.
        assert (Z0 : tc o' news = 0%nat); [|lia].
        apply tc_zero. intros j nf Hj Tj.
        assert (Lj : (j < length (o_mem b))%nat) by (apply nth_some_lt in Hj; unfold news in Hj; now rewrite map_length in Hj).
        unfold news in Hj. set (fn := fun m => Some (shal (o_lockm b) (getref s m))) in *.
        rewrite (nth_indep _ None (fn 0%nat)) in Hj by (rewrite map_length; exact Lj).
        rewrite map_nth in Hj. unfold fn in Hj. injection Hj as <-. set (m := nth j (o_mem b) 0%nat) in *.
        assert (Hm : In m (o_mem b)) by (apply nth_In; exact Lj).
        destruct (i_live _ _ I m) as (mf & Hmf); [apply owned_in; exists o, b; auto|]. rewrite Hmf, shal_t in Tj.
        assert (m = w) by exact (tc1_unique s o' m w mf wf T1 Hmf Tj Hw Tw). subst w.
        (* then r is above m in the chain *)
        apply (chain_down s r0 p r l r rf o b m I Ch H Et Hb Hm Nr). right. apply Hl. now left. }
  apply GEN; [exact Ch|]. cbn. auto.
Qed.

(** following a copy-on-write path in the clone *)
Lemma cow_path_cowed sh s s' r0 p r l o b rf : inv s [] -> chain s r0 p (r :: l) -> getref s r = Some rf -> r_t rf = Some o ->
  getobj s o = Some b -> cowed sh s s' r o b ->
  forall q m, (exists mf, getref s m = Some mf) -> ~ In m (r :: l) -> cow_path s m q -> cow_path s' m q.
Proof.
  intros I Ch H Et Hb C. pose proof (c_grow _ _ _ _ _ _ C) as G.
  induction q as [|i q IH]; intros m (mf & Hm) Nm CP.
  - cbn in *. rewrite (g_ref _ _ _ G m (getref_lt _ _ _ Hm)) by (intros <-; apply Nm; now left). rewrite Hm in *.
    destruct CP as [S _]. split; [exact S|]. destruct (r_t mf) as [y|]; [|exact Logic.I]. destruct (getobj s' y); exact Logic.I.
  - cbn in *. rewrite (g_ref _ _ _ G m (getref_lt _ _ _ Hm)) by (intros <-; apply Nm; now left). rewrite Hm in *.
    destruct CP as [S CP]. split; [exact S|]. destruct (r_t mf) as [y|] eqn:Ey; [|exact Logic.I].
    destruct (i_tgt _ _ I m mf y Hm Ey) as (c & Hc). rewrite Hc in CP. destruct (g_obj _ _ _ G y c Hc) as (e & He). rewrite He.
    cbn [with_cnt o_mem]. destruct (nth_error (o_mem c) i) as [m2|] eqn:Em; [|exact Logic.I]. apply nth_error_In in Em. apply IH.
    + apply (i_live _ _ I). apply owned_in. exists y, c. auto.
    + apply (chain_down s r0 p r l m mf y c m2 I Ch Hm Ey Hc Em). intros Hin. apply Nm. now right.
    + exact CP.
Qed.

(** the effect of storing a value in an object with one reference *)
Lemma data_other s r0 p r l rf o b v : inv s [] -> chain s r0 p (r :: l) -> getref s r = Some rf -> r_t rf = Some o ->
  getobj s o = Some b -> tc o (refs s) = 1%nat ->
  forall k x, ~ In x (r :: l) -> view k (setobj s o (Some (with_data b v))) x = view k s x.
Proof.
  intros I Ch H Et Hb T1. assert (Lo := getobj_lt _ _ _ Hb). induction k as [|k IH]; intros x Nx; [reflexivity|]. cbn [view]. rewrite getref_setobj.
  destruct (getref s x) as [xf|] eqn:Hx; [|reflexivity]. destruct (r_t xf) as [y|] eqn:Ty; [|reflexivity].
  rewrite getobj_setobj by exact Lo. destruct (Nat.eqb_spec y o) as [->|Ny].
  { exfalso. apply Nx. left. symmetry. exact (tc1_unique s o x r xf rf T1 Hx Ty H Et). }
  destruct (getobj s y) as [c|] eqn:Hc; [|reflexivity]. f_equal. apply map_ext_in. intros m Hm. apply IH.
  apply (chain_down s r0 p r l x xf y c m I Ch Hx Ty Hc Hm). intros Hin. apply Nx. now right.
Qed.
Lemma setn_map {A B} (f : A -> B) g l i m : nth_error l i = Some m -> (forall j x, nth_error l j = Some x -> j <> i -> g x = f x) ->
  map g l = setn i (g m) (map f l).
Proof.
  revert i. induction l as [|y l IH]; intros [|i] H G; cbn in *; try discriminate.
  - injection H as ->. f_equal. apply map_ext_in. intros a Ha. apply In_nth_error in Ha as (j & Hj). apply (G (S j) a Hj). lia.
  - f_equal; [apply (G 0%nat y eq_refl); lia|]. apply IH; auto. intros j x Hj Nj. apply (G (S j) x Hj). lia.
Qed.
Lemma nodup_nth_error {A} (l : list A) i j x : NoDup l -> nth_error l i = Some x -> nth_error l j = Some x -> i = j.
Proof.
  intros N Hi Hj. apply (proj1 (NoDup_nth_error l) N); [apply nth_error_Some; congruence|congruence].
Qed.
Lemma split_unique {A} (a a' : list A) x x' z c c' : NoDup (a ++ x :: z :: c) -> a ++ x :: z :: c = a' ++ x' :: z :: c' -> x = x'.
Proof.
  revert a'. induction a as [|y a IH]; intros [|y' a'] N E; cbn in *.
  - congruence.
  - injection E as -> E. exfalso. destruct a' as [|y2 a']; cbn in E; injection E as E1 E2; subst.
    + inversion_clear N as [|? ? _ N2]. inversion_clear N2 as [|? ? N3 _]. apply N3. now left.
    + inversion_clear N as [|? ? _ N2]. inversion_clear N2 as [|? ? N3 _]. apply N3. apply in_or_app. right. right. now left.
  - injection E as <- E. exfalso. destruct a as [|y2 a]; cbn in E; injection E as E1 E2; subst.
    + inversion_clear N as [|? ? _ N3]. cbn in N3. inversion_clear N3 as [|? ? N4 _]. apply N4. now left.
    + inversion_clear N as [|? ? _ N3]. cbn in N3. inversion_clear N3 as [|? ? N4 _]. apply N4. apply in_or_app. right. right. now left.
  - injection E as <- E. inversion_clear N as [|? ? _ N2]. exact (IH a' N2 E).
Qed.
Lemma owned_mem_nodup s ws o b : inv s ws -> getobj s o = Some b -> NoDup (o_mem b).
Proof.
  intros I Hb. assert (N := i_nd _ _ I). apply nd_app_r in N.
  destruct (owned_setn o None (objs s) (getobj_lt _ _ _ Hb)) as (rest & P1 & _). fold (getobj s o) in P1. rewrite Hb in P1.
  apply (Permutation_NoDup P1) in N. exact (nd_app_l _ _ N).
Qed.

Lemma data_own s r0 pf r lf rf o b v : inv s [] -> chain s r0 pf (r :: lf) -> getref s r = Some rf -> r_t rf = Some o ->
  getobj s o = Some b -> tc o (refs s) = 1%nat ->
  forall k, view k (setobj s o (Some (with_data b v))) r0 = tset (view k s r0) pf v.
Proof.
  intros I Ch H Et Hb T1. assert (Lo := getobj_lt _ _ _ Hb). set (s' := setobj s o (Some (with_data b v))).
  pose proof (chain_nodup _ _ _ _ I Ch) as ND.
  assert (OT := data_other s r0 pf r lf rf o b v I Ch H Et Hb T1). fold s' in OT.
  assert (GEN : forall p l, chain s r0 p l -> (exists pre, r :: lf = pre ++ l) -> forall q,
     (forall k, match l with w :: _ => view k s' w = tset (view k s w) q v | [] => False end) ->
     forall k, view k s' r0 = tset (view k s r0) (p ++ q) v).
  { intros p l C. induction C as [rf0 H0 N0|p i m w l wf ow bw C IH Hw Tw Hbw T1w Em]; intros (pre & Epre) q Hq k.
    - exact (Hq k).
    - rewrite <- app_assoc. cbn [app]. apply IH.
      + exists (pre ++ [m]). rewrite <- app_assoc. exact Epre.
      + clear k. intros k. destruct k as [|k]; [reflexivity|]. cbn [view]. unfold s'. rewrite getref_setobj, Hw, Tw. rewrite Hbw. fold s'.
        assert (Now : ow <> o).
        { intros ->. assert (w = r) by exact (tc1_unique s o w r wf rf T1 Hw Tw H Et). subst w.
          rewrite Epre in ND. destruct pre as [|a pre]; cbn in Epre; injection Epre as E1 E2; subst.
          - inversion_clear ND as [|? ? Nn _]. apply Nn. now left.
          - inversion_clear ND as [|? ? Nn _]. apply Nn. apply in_or_app. right. right. now left. }
        unfold s'. rewrite getobj_setobj by exact Lo. destruct (Nat.eqb_spec ow o); [contradiction|]. rewrite Hbw. fold s'.
        cbn [tset]. rewrite nth_error_map, Em. cbn [option_map]. f_equal.
        rewrite (setn_map (view k s) (view k s') (o_mem bw) i m Em).
        * rewrite (Hq k). reflexivity.
        * intros j x Hj Nj. apply OT. intros Hin. apply nth_error_In in Hj as Hjin.
          destruct (chain_up s r0 pf (r :: lf) I Ch w wf ow bw x Hw Tw Hbw Hjin Hin) as (pre2 & l2 & E2).
          rewrite Epre in E2, ND. pose proof (split_unique _ _ _ _ _ _ _ ND E2). subst x.
          apply Nj. exact (nodup_nth_error _ _ _ _ (owned_mem_nodup _ _ _ _ I Hbw) Hj Em). }
  intros k. rewrite <- (app_nil_r pf). apply (GEN pf (r :: lf) Ch); [exists []; reflexivity|].
  clear k. intros k. destruct k as [|k]; [reflexivity|]. cbn [view]. unfold s'. rewrite getref_setobj, H, Et.
  rewrite getobj_setobj, Nat.eqb_refl, Hb by exact Lo. cbn [tset with_data o_data o_mem]. f_equal. fold s'.
  apply map_ext_in. intros m Hm. apply OT.
  inversion_clear ND as [|? ? Nr _]. exact (chain_down s r0 pf r lf r rf o b m I Ch H Et Hb Hm Nr).
Qed.

(** the whole write: views are kept until the value is stored *)
Lemma write_prep fuel r0 : forall q s p r l v, inv s [] -> chain s r0 p (r :: l) -> cow_path s r q ->
  match write fuel s r q v with
  | Done _ s' => exists s1 r1 l1 rf1 o b, inv s1 [] /\ sameview s s1 /\ grow (fun _ => True) s s1 /\ chain s1 r0 (p ++ q) (r1 :: l1) /\
      getref s1 r1 = Some rf1 /\ r_t rf1 = Some o /\ getobj s1 o = Some b /\ tc o (refs s1) = 1%nat /\
      s' = setobj s1 o (Some (with_data b v))
  | Threw s' => sameview s s'
  | Undef => False
  | Deep => True
  end.
Proof.
  induction q as [|i q IH]; intros s p r l v I Ch CP; destruct (chain_live _ _ _ _ I Ch r (or_introl eq_refl)) as (rf & H);
    cbn [write]; pose proof (get_wr_ok fuel s r rf I H) as G; destruct (get_wr fuel s r) as [[] s1|s1| |]; auto;
    try (subst; intros k x xf _; reflexivity).
  - destruct G as (o & b & Et & Hb & G). cbn in CP. rewrite H in CP. destruct CP as [Sh _].
    rewrite app_nil_r. destruct G as [[-> [[W C1]|Sh']]|[C _]]; [|congruence|].
    + rewrite H, Et, Hb. exists s, r, l, rf, o, b. split; [exact I|]. split; [intros k x xf _; reflexivity|].
      split; [apply (grow_weaken nobody); [intros x []|apply grow_refl]|]. split; [exact Ch|]. repeat (split; [auto; fail|]). split; [|reflexivity].
      rewrite (i_cnt _ _ I o b Hb) in C1. lia.
    + destruct (c_refs _ _ _ _ _ _ C) as (rf3 & T3 & _ & _ & R3).
      assert (E3 : getref s1 r = Some rf3).
      { pose proof (getref_lt _ _ _ H). unfold getref. rewrite R3, nth_setn, Nat.eqb_refl, app_length.
        match goal with |- context [Nat.ltb ?a ?b] => destruct (Nat.ltb_spec a b); [reflexivity|lia] end. }
      rewrite E3, T3, (c_new _ _ _ _ _ _ C). eexists s1, r, l, rf3, _, _.
      split; [apply C|]. split; [apply C|]. split; [apply (grow_weaken (eq r)); [auto|apply C]|].
      split; [exact (chain_cowed _ s s1 r0 r o b rf I H Et Hb C p l Ch)|].
      split; [exact E3|]. split; [exact T3|]. split; [apply (c_new _ _ _ _ _ _ C)|]. split; [|reflexivity].
      pose proof (i_cnt _ _ (c_inv _ _ _ _ _ _ C) _ _ (c_new _ _ _ _ _ _ C)) as E. cbn [o_cnt] in E. lia.
  - destruct G as (o & b & Et & Hb & G). cbn in CP. rewrite H, Et, Hb in CP. destruct CP as [Sh CP].
    replace (p ++ i :: q) with ((p ++ [i]) ++ q) by (rewrite <- app_assoc; reflexivity).
    destruct G as [[-> [[W C1]|Sh']]|[C _]]; [|congruence|].
    + rewrite H, Et, Hb. destruct (nth_error (o_mem b) i) as [m|] eqn:Em; [|intros k x xf _; reflexivity].
      apply (IH s (p ++ [i]) m (r :: l) v I); [|exact CP]. apply (ch2 s r0 p i m r l rf o b); auto.
      rewrite (i_cnt _ _ I o b Hb) in C1. lia.
    + destruct (c_refs _ _ _ _ _ _ C) as (rf3 & T3 & _ & _ & R3).
      assert (E3 : getref s1 r = Some rf3).
      { pose proof (getref_lt _ _ _ H). unfold getref. rewrite R3, nth_setn, Nat.eqb_refl, app_length.
        match goal with |- context [Nat.ltb ?a ?b] => destruct (Nat.ltb_spec a b); [reflexivity|lia] end. }
      pose proof (c_new _ _ _ _ _ _ C) as Hn. rewrite E3, T3, Hn. cbn [o_mem].
      pose proof (c_inv _ _ _ _ _ _ C) as I1. pose proof (c_view _ _ _ _ _ _ C) as V1. pose proof (c_grow _ _ _ _ _ _ C) as G1.
      destruct (nth_error (seq (length (refs s)) (length (o_mem b))) i) as [m'|] eqn:Em'; [|exact V1].
      assert (Li : (i < length (o_mem b))%nat).
      { rewrite <- (seq_length (length (o_mem b)) (length (refs s))). apply nth_error_Some. congruence. }
      assert (Em2 : m' = (length (refs s) + i)%nat).
      { rewrite (nth_error_nth' _ 0%nat) in Em' by (rewrite seq_length; exact Li). injection Em' as <-. now apply seq_nth. }
      destruct (nth_error (o_mem b) i) as [m|] eqn:Em; [|apply nth_error_Some in Em; [destruct Em|exact Li]].
      assert (Hmi := nth_error_In _ _ Em).
      destruct (i_live _ _ I m) as (mf & Hm); [apply owned_in; exists o, b; auto|].
      pose proof (chain_nodup _ _ _ _ I Ch) as ND. inversion_clear ND as [|? ? Nr _].
      assert (Nm : ~ In m (r :: l)) by exact (chain_down s r0 p r l r rf o b m I Ch H Et Hb Hmi Nr).
      assert (Hm' : getref s1 m' = Some (shal (o_lockm b) (Some mf))).
      { pose proof (getref_lt _ _ _ H) as Lr. unfold getref. rewrite R3, nth_setn. destruct (Nat.eqb_spec m' r); [lia|]. cbn [andb].
        rewrite app_nth2 by lia. replace (m' - length (refs s))%nat with i by lia.
        set (fn := fun m => Some (shal (o_lockm b) (getref s m))).
        rewrite (nth_indep _ None (fn 0%nat)) by (rewrite map_length; exact Li). rewrite map_nth.
        rewrite (nth_error_nth _ _ 0%nat Em). unfold fn. now rewrite Hm. }
      assert (Ch1 := chain_cowed _ s s1 r0 r o b rf I H Et Hb C p l Ch).
      assert (Ch2 : chain s1 r0 (p ++ [i]) (m' :: r :: l)).
      { apply (ch2 s1 r0 p i m' r l rf3 _ _ Ch1 E3 T3 Hn); [|exact Em'].
        pose proof (i_cnt _ _ I1 _ _ Hn) as E. cbn [o_cnt] in E. lia. }
      assert (CP1 : cow_path s1 m' q).
      { assert (CPm : cow_path s1 m q) by (apply (cow_path_cowed false s s1 r0 p r l o b rf I Ch H Et Hb C); eauto).
        assert (Hm1 : getref s1 m = Some mf).
        { rewrite (g_ref _ _ _ G1 m (getref_lt _ _ _ Hm)); [exact Hm|]. intros <-. apply Nm. now left. }
        destruct q as [|j q]; cbn in CPm |- *; rewrite Hm1 in CPm; rewrite Hm'; unfold shal; destruct (r_t mf) as [y|]; cbn [r_sh r_t];
          try (split; [reflexivity|exact Logic.I]); exact CPm. }
      pose proof (IH s1 (p ++ [i]) m' (r :: l) v I1 Ch2 CP1) as R.
      destruct (write fuel s1 m' q v) as [u s2|s2| |]; auto.
      * destruct R as (s3 & r1 & l1 & rf1 & o1 & b1 & R1 & R2 & R3' & R4). exists s3, r1, l1, rf1, o1, b1.
        split; [exact R1|]. split.
        -- intros k x xf Hx. destruct (g_refx _ _ _ G1 x xf Hx) as (xf1 & Hx1 & _). rewrite (R2 k x xf1 Hx1). exact (V1 k x xf Hx).
        -- split; [|exact R4]. apply (grow_weaken (fun x => r = x \/ True)); [auto|]. exact (grow_trans _ _ _ _ _ G1 R3').
      * intros k x xf Hx. destruct (g_refx _ _ _ G1 x xf Hx) as (xf1 & Hx1 & _). rewrite (R k x xf1 Hx1). exact (V1 k x xf Hx).
Qed.

Lemma chain_in_owned s r0 p l : chain s r0 p l -> forall x, In x l -> x = r0 \/ In x (owned (objs s)).
Proof.
  induction 1 as [rf H N|p i m0 w l wf o b0 C IH Hw Tw Hb0 T1 Em]; intros x Hx.
  - destruct Hx as [<-|[]]. now left.
  - destruct Hx as [<-|Hx]; [|auto]. right. apply owned_in. exists o, b0. split; [exact Hb0|eapply nth_error_In; exact Em].
Qed.

Lemma write_isolated fuel s r q v : inv s [] -> toplevel s r -> cow_path s r q ->
  match write fuel s r q v with
  | Done _ s' => (forall x, toplevel s x -> x <> r -> forall k, view k s' x = view k s x) /\
                 (forall k, view k s' r = tset (view k s r) q v)
  | Threw s' => forall x, live_ref s x -> forall k, view k s' x = view k s x
  | Undef => False
  | Deep => True
  end.
Proof.
  intros I [Lr Nr] CP. destruct (live_get _ _ Lr) as (rf & H).
  pose proof (write_prep fuel r q s [] r [] v I (ch1 s r rf H Nr) CP) as P.
  destruct (write fuel s r q v) as [u s'|s'| |]; auto.
  - destruct P as (s1 & r1 & l1 & rf1 & o & b & I1 & V & G & Ch & H1 & T1 & B1 & TC & ->). cbn [app] in Ch. split.
    + intros x [Lx Nx] Nxr k. destruct (live_get _ _ Lx) as (xf & Hx). rewrite <- (V k x xf Hx).
      apply (data_other s1 r q r1 l1 rf1 o b v I1 Ch H1 T1 B1 TC). intros Hin.
      destruct (chain_in_owned _ _ _ _ Ch x Hin) as [E|E]; [congruence|]. apply Nx.
      apply (grow_owned _ _ _ x G); [eapply getref_lt; exact Hx|exact E].
    + intros k. rewrite <- (V k r rf H). apply (data_own s1 r q r1 l1 rf1 o b v); auto.
  - intros x Lx k. destruct (live_get _ _ Lx) as (xf & Hx). exact (P k x xf Hx).
Qed.

(** ** What an operation leaves alone *)
Definition frame (ex : nat -> Prop) (s s' : st) : Prop :=
  (length (refs s) <= length (refs s'))%nat /\ (length (objs s) <= length (objs s'))%nat /\
  (forall x, (x < length (refs s))%nat -> ~ ex x -> ~ In x (owned (objs s)) -> getref s' x = getref s x) /\
  (forall x, (x < length (refs s))%nat -> In x (owned (objs s')) -> In x (owned (objs s))) /\
  (forall y b, getobj s y = Some b -> getobj s' y = None -> o_anon b = true) /\
  (forall y, (y < length (objs s))%nat -> getobj s y = None -> getobj s' y = None).
Definition anonkeep (s s' : st) : Prop := forall y b b', getobj s y = Some b -> getobj s' y = Some b' -> o_anon b' = o_anon b.

Lemma frame_trans ex s s1 s2 : frame ex s s1 -> anonkeep s s1 -> frame ex s1 s2 -> frame ex s s2.
Proof.
  intros (A1 & A2 & A3 & A4 & A5 & A6) K (B1 & B2 & B3 & B4 & B5 & B6). split; [lia|]. split; [lia|]. split; [|split; [|split]].
  - intros x L E N. rewrite B3; [apply A3; auto|lia|exact E|]. intros H. apply N, A4; auto.
  - intros x L H. apply A4; [exact L|]. apply B4; [lia|exact H].
  - intros y b Hb Hn. destruct (getobj s1 y) as [b1|] eqn:E; [|exact (A5 y b Hb E)]. rewrite <- (K y b b1 Hb E). exact (B5 y b1 E Hn).
  - intros y L Hn. apply B6; [lia|]. now apply A6.
Qed.
Lemma frame_refl ex s : frame ex s s.
Proof. repeat split; auto. congruence. Qed.
Lemma frame_weaken (ex ex' : nat -> Prop) s s' : (forall x, ex x -> ex' x) -> frame ex s s' -> frame ex' s s'.
Proof. intros W (A1 & A2 & A3 & A4 & A5 & A6). repeat split; auto. Qed.
Lemma grow_frame ex s s' : grow ex s s' -> frame ex s s' /\ anonkeep s s'.
Proof.
  intros G. split.
  - repeat split; try apply G.
    + intros x L E _. now apply G.
    + intros x L H. apply (grow_owned _ _ _ x G L H).
    + intros y b Hb Hn. destruct (g_obj _ _ _ G y b Hb) as (c & E). congruence.
  - intros y b b' Hb Hb'. destruct (g_obj _ _ _ G y b Hb) as (c & E). rewrite Hb' in E. injection E as ->. reflexivity.
Qed.
Lemma owned_from (s s' : st) : (forall y b', getobj s' y = Some b' -> exists b, getobj s y = Some b /\ incl (o_mem b') (o_mem b)) ->
  forall x, In x (owned (objs s')) -> In x (owned (objs s)).
Proof. intros H x Hx. apply owned_in in Hx as (y & b' & Hy & Hin). destruct (H y b' Hy) as (b & Hb & In'). apply owned_in. exists y, b. auto. Qed.
Lemma dshrink_frame s s' r : dshrink s s' r -> frame (eq r) s s' /\ anonkeep s s'.
Proof.
  intros D. split.
  - split; [rewrite (d_lr _ _ _ D); auto|]. split; [rewrite (d_lo _ _ _ D); auto|]. split; [|split; [|split]].
    + intros x L E N. destruct (d_ref _ _ _ D x) as [H|[_ H]]; [congruence|exact H|contradiction].
    + intros x L. apply (owned_from s s'). intros y b' Hy. destruct (getobj s y) as [b|] eqn:E; [|rewrite (d_none _ _ _ D y E) in Hy; discriminate].
      exists b. split; [reflexivity|]. destruct (d_obj _ _ _ D y b E) as [(c & H)|[H _]]; [|congruence]. rewrite Hy in H. injection H as ->. now cbn.
    + intros y b Hb Hn. destruct (d_obj _ _ _ D y b Hb) as [(c & H)|[_ H]]; [congruence|exact H].
    + intros y L. apply D.
  - intros y b b' Hb Hb'. destruct (d_obj _ _ _ D y b Hb) as [(c & H)|[H _]]; [|congruence]. rewrite Hb' in H. injection H as ->. reflexivity.
Qed.
Lemma shrink_frame s s' ws : shrink s s' ws -> frame (fun x => In x ws) s s' /\ anonkeep s s'.
Proof.
  intros D. split.
  - split; [rewrite (k_lr _ _ _ D); auto|]. split; [rewrite (k_lo _ _ _ D); auto|]. split; [|split; [|split]].
    + intros x L E N. destruct (k_ref _ _ _ D x) as [H|[_ H]]; [exact H|]. apply in_app_or in H as [H|H]; contradiction.
    + intros x L. apply (owned_from s s'). intros y b' Hy. destruct (getobj s y) as [b|] eqn:E; [|rewrite (k_none _ _ _ D y E) in Hy; discriminate].
      exists b. split; [reflexivity|]. destruct (k_obj _ _ _ D y b E) as [(c & H)|[H _]]; [|congruence]. rewrite Hy in H. injection H as ->. now cbn.
    + intros y b Hb Hn. destruct (k_obj _ _ _ D y b Hb) as [(c & H)|[_ H]]; [congruence|exact H].
    + intros y L. apply D.
  - intros y b b' Hb Hb'. destruct (k_obj _ _ _ D y b Hb) as [(c & H)|[H _]]; [|congruence]. rewrite Hb' in H. injection H as ->. reflexivity.
Qed.
Lemma setref_frame (ex : nat -> Prop) s r nf : ex r -> frame ex s (setref s r nf) /\ anonkeep s (setref s r nf).
Proof.
  intros E. split.
  - split; [cbn; now rewrite setn_length|]. split; [auto|]. split; [|split; [|split]].
    + intros x L N _. unfold getref, setref. cbn [refs]. rewrite nth_setn. destruct (Nat.eqb_spec x r) as [->|]; [contradiction|reflexivity].
    + auto.
    + intros y b Hb Hn. unfold setref, getobj in *. cbn in *. congruence.
    + auto.
  - intros y b b' Hb Hb'. unfold setref, getobj in *. cbn in *. congruence.
Qed.
Lemma setobj_frame ex s o b b' : getobj s o = Some b -> o_mem b' = o_mem b -> frame ex s (setobj s o (Some b')).
Proof.
  intros Hb Em. assert (L := getobj_lt _ _ _ Hb). split; [auto|]. split; [cbn; now rewrite setn_length|]. split; [|split; [|split]].
  - auto.
  - intros x _. apply (owned_from s). intros y c Hy. rewrite getobj_setobj in Hy by exact L. destruct (Nat.eqb_spec y o) as [->|].
    + injection Hy as <-. exists b. split; [exact Hb|]. rewrite Em. apply incl_refl.
    + exists c. split; [exact Hy|apply incl_refl].
  - intros y c Hc Hn. rewrite getobj_setobj in Hn by exact L. destruct (Nat.eqb_spec y o); congruence.
  - intros y Ly Hn. rewrite getobj_setobj by exact L. destruct (Nat.eqb_spec y o) as [->|]; congruence.
Qed.
Lemma setobj_anon s o b b' : getobj s o = Some b -> o_anon b' = o_anon b -> anonkeep s (setobj s o (Some b')).
Proof.
  intros Hb Ea y c c' Hc Hc'. assert (L := getobj_lt _ _ _ Hb). rewrite getobj_setobj in Hc' by exact L.
  destruct (Nat.eqb_spec y o) as [->|]; [injection Hc' as <-|]; congruence.
Qed.
Lemma anonkeep_trans ex s s1 s2 : frame ex s s1 -> anonkeep s s1 -> anonkeep s1 s2 -> frame ex s1 s2 -> anonkeep s s2.
Proof.
  intros F1 K1 K2 F2 y b b2 Hb Hb2. destruct (getobj s1 y) as [b1|] eqn:E1.
  - rewrite (K2 y b1 b2 E1 Hb2). exact (K1 y b b1 Hb E1).
  - destruct F2 as (_ & _ & _ & _ & _ & F2). destruct F1 as (_ & L & _). apply getobj_lt in Hb. rewrite F2 in Hb2; [discriminate|lia|exact E1].
Qed.

Lemma priv_frame fuel s r fl d rf : inv s [] -> getref s r = Some rf -> good (priv fuel s r fl d) (frame (eq r) s).
Proof.
  intros I H. pose proof (priv_ok fuel s r fl d rf I H) as P. destruct (priv fuel s r fl d) as [u s'|s'| |]; cbn [good]; auto.
  - destruct P as (_ & G & _). apply (grow_frame _ _ _ G).
  - destruct P as (_ & G & _). apply (frame_weaken nobody); [intros x []|]. apply (grow_frame _ _ _ G).
Qed.
Lemma write_frame fuel : forall p s r v, inv s [] -> live_ref s r -> good (write fuel s r p v) (frame (fun x => x = r) s).
Proof.
  induction p as [|i p IH]; intros s r v I Lr; destruct (live_get _ _ Lr) as (rf & H); cbn [write];
    pose proof (get_wr_ok fuel s r rf I H) as G; destruct (get_wr fuel s r) as [[] s1|s1| |]; cbn [good]; auto;
    try (subst; apply frame_refl).
  all: destruct G as (o & b & Et & Hb & G).
  all: assert (F : inv s1 [] /\ (frame (fun x => x = r) s s1 /\ anonkeep s s1) /\
                   exists rf1 o1 b1, getref s1 r = Some rf1 /\ r_t rf1 = Some o1 /\ getobj s1 o1 = Some b1).
  1,3: destruct G as [[-> _]|[C _]];
    [ split; [exact I|]; split; [split; [apply frame_refl|intros y c c' E1 E2; congruence]|exists rf, o, b; auto]
    | split; [apply C|]; destruct (grow_frame _ _ _ (c_grow _ _ _ _ _ _ C)) as [F K]; split;
      [split; [apply (frame_weaken (eq r)); [congruence|exact F]|exact K]|];
      destruct (c_refs _ _ _ _ _ _ C) as (rf3 & T3 & _ & _ & R3); exists rf3, (length (objs s)); eexists;
      split; [|split; [exact T3|exact (c_new _ _ _ _ _ _ C)]];
      pose proof (getref_lt _ _ _ H); unfold getref; rewrite R3, nth_setn, Nat.eqb_refl, app_length;
      match goal with |- context [Nat.ltb ?a ?b] => destruct (Nat.ltb_spec a b); [reflexivity|lia] end ].
  - destruct F as (I1 & [F K] & rf1 & o1 & b1 & E1 & E2 & E3). rewrite E1, E2, E3. cbn [good].
    apply (frame_trans _ s s1); auto. apply (setobj_frame _ s1 o1 b1); auto.
  - destruct F as (I1 & [F K] & rf1 & o1 & b1 & E1 & E2 & E3). rewrite E1, E2, E3.
    destruct (nth_error (o_mem b1) i) as [m|] eqn:Em; [|exact F]. apply nth_error_In in Em.
    assert (Om : In m (owned (objs s1))) by (apply owned_in; exists o1, b1; auto).
    assert (Lm : live_ref s1 m). { destruct (i_live _ _ I1 m) as (mf & Hm); [exact Om|]. unfold live_ref. congruence. }
    specialize (IH s1 m v I1 Lm). destruct (write fuel s1 m p v) as [u s2|s2| |]; cbn [good] in *; auto.
    all: apply (frame_trans _ s s1); auto; destruct IH as (A1 & A2 & A3 & A4); split; [exact A1|]; split; [exact A2|]; split; [|exact A4];
      intros x L Nx No; apply A3; auto; intros ->; contradiction.
Qed.

Lemma push_frame ex s n : frame ex s {| refs := refs s ++ n; objs := objs s |}.
Proof.
  split; [cbn; rewrite app_length; lia|]. split; [auto|]. split; [|repeat split; auto; unfold getobj; cbn; congruence].
  intros x L _ _. unfold getref. cbn. now rewrite app_nth1.
Qed.
Lemma detach_frame s r rf : inv s [] -> getref s r = Some rf ->
  match detach s r with Done _ s1 => frame (eq r) s s1 /\ anonkeep s s1 | Threw s1 => s1 = s | _ => False end.
Proof.
  intros I H. pose proof (detach_ok s r rf I H) as D. destruct (detach s r); try tauto. apply dshrink_frame, D.
Qed.

Lemma clone_frame fuel s b o fl d : inv s [] -> getobj s o = Some b ->
  match clone_with (priv fuel) s b fl d with
  | Done o2 s2 => frame nobody s s2 /\ anonkeep s s2 /\ (length (objs s) <= o2)%nat /\ exists b2, getobj s2 o2 = Some b2
  | Threw s2 => frame nobody s s2
  | Undef => False | Deep => True
  end.
Proof.
  intros I Hb. pose proof (clone_with_ok (priv fuel) s b o fl d (priv_ok fuel) I Hb) as C.
  destruct (clone_with (priv fuel) s b fl d) as [o2 s2|s2| |]; auto.
  - destruct C as (ms & s1 & -> & -> & I1 & G & Hms & _). destruct (grow_frame _ _ _ G) as [F K].
    assert (NO : forall y c, getobj (newobj s1 b ms) y = Some c -> getobj s1 y = Some c \/ y = length (objs s1) /\ o_mem c = ms).
    { intros y c Hy. unfold getobj, newobj in Hy. cbn [objs] in Hy. destruct (Nat.ltb_spec y (length (objs s1))) as [Ly|Ly].
      - rewrite app_nth1 in Hy by exact Ly. now left.
      - rewrite app_nth2 in Hy by exact Ly. destruct (y - length (objs s1))%nat as [|[|]] eqn:E; cbn in Hy; try discriminate.
        injection Hy as <-. right. split; [lia|reflexivity]. }
    assert (OLD : forall y, (y < length (objs s1))%nat -> getobj (newobj s1 b ms) y = getobj s1 y).
    { intros y Ly. unfold getobj, newobj. cbn [objs]. now rewrite app_nth1. }
    destruct F as (A1 & A2 & A3 & A4 & A5 & A6). split; [|split; [|split]].
    + split; [exact A1|]. split; [unfold newobj; cbn [objs]; rewrite app_length; lia|]. split; [exact A3|]. split; [|split].
      * intros x L Hx. apply owned_in in Hx as (y & c & Hy & Hin). destruct (NO y c Hy) as [Hy'|[_ E]].
        -- apply A4; [exact L|]. apply owned_in. eauto.
        -- rewrite E in Hin. apply Hms in Hin. lia.
      * intros y c Hc Hn. apply (A5 y c Hc). rewrite OLD in Hn; [exact Hn|]. apply getobj_lt in Hc. lia.
      * intros y L Hn. rewrite OLD by lia. auto.
    + intros y c c' Hc Hc'. apply (K y c c' Hc). rewrite OLD in Hc'; [exact Hc'|]. apply getobj_lt in Hc. lia.
    + lia.
    + eexists. unfold getobj, newobj. cbn [objs]. rewrite app_nth2 by lia. rewrite Nat.sub_diag. reflexivity.
  - destruct C as (_ & G & _). apply (grow_frame _ _ _ G).
Qed.

Lemma step_frame fuel s a : inv s [] -> valid_op s a -> (forall o, a <> DeleteObj o) -> good (step fuel s a) (frame (named a) s).
Proof.
  intros I V ND. destruct a; cbn [step].
  - apply push_frame.
  - cbn [good]. set (nb := {| o_cnt := 0; o_anon := false; o_sing := sing; o_lockm := lockm; o_data := v; o_mem := empties (length (refs s)) k |}).
    assert (OLD : forall y, (y < length (objs s))%nat -> nth y (objs s ++ [Some nb]) None = getobj s y) by (intros; now apply app_nth1).
    split; [cbn; rewrite app_length; lia|]. split; [cbn; rewrite app_length; lia|]. split; [|split; [|split]].
    + intros x L _ _. unfold getref. cbn. now rewrite app_nth1.
    + intros x L Hx. cbn [objs] in Hx. unfold owned in *. rewrite flat_map_app in Hx. apply in_app_or in Hx as [Hx|Hx]; [exact Hx|].
      cbn [flat_map app mems nb o_mem] in Hx. rewrite app_nil_r in Hx. unfold empties in Hx. apply in_seq in Hx. lia.
    + intros y b Hb Hn. unfold getobj in Hn. cbn [objs] in Hn. rewrite OLD in Hn by (eapply getobj_lt; exact Hb). congruence.
    + intros y L Hn. unfold getobj. cbn [objs]. now rewrite OLD.
  - destruct (liveo_get _ _ V) as (b & Hb). rewrite Hb. assert (L := getobj_lt _ _ _ Hb). cbn [good].
    split; [cbn; rewrite app_length; lia|]. split; [cbn; now rewrite setn_length|]. split; [|split; [|split]].
    + intros x Lx _ _. unfold getref. cbn. now rewrite app_nth1.
    + intros x Lx Hx. apply owned_in in Hx as (y & c & Hy & Hin). unfold getobj in Hy. cbn [objs] in Hy. rewrite nth_setn in Hy.
      apply Nat.ltb_lt in L. rewrite L in Hy. destruct (Nat.eqb_spec y o) as [->|].
      * injection Hy as <-. cbn in Hin. apply in_app_or in Hin as [Hin|[<-|[]]]; [|lia]. apply owned_in. eauto.
      * apply owned_in. exists y, c. auto.
    + intros y c Hc Hn. unfold getobj in Hn. cbn [objs] in Hn. rewrite nth_setn in Hn. destruct (Nat.eqb y o && Nat.ltb o _); [discriminate|].
      unfold getobj in Hc. congruence.
    + intros y Ly Hn. unfold getobj. cbn [objs]. rewrite nth_setn. destruct (Nat.eqb_spec y o) as [->|]; [congruence|exact Hn].
  - (* DropMember *) destruct (liveo_get _ _ V) as (b & Hb). rewrite Hb. destruct (nth_error (o_mem b) i) as [m|] eqn:Em; [|apply frame_refl].
    assert (L := getobj_lt _ _ _ Hb). set (s1 := setobj s o _).
    assert (I1 : inv s1 [m]) by (apply (setmem_inv s []); [exact I|exact Hb|cbn [app]; exact (remove_perm i _ m Em)]).
    destruct (kill_ok (length (refs s)) s1 [m] I1 (nlive_le s1)) as (s' & K & _ & Sh & _).
    rewrite K. cbn [good]. apply nth_error_In in Em.
    destruct (shrink_frame _ _ _ Sh) as [(A1 & A2 & A3 & A4 & A5 & A6) _].
    assert (OW : forall x, In x (owned (objs s1)) -> In x (owned (objs s))).
    { apply owned_from. intros y c Hy. unfold s1 in Hy. rewrite getobj_setobj in Hy by exact L. destruct (Nat.eqb_spec y o) as [->|].
      - injection Hy as <-. exists b. split; [exact Hb|]. cbn [with_mem o_mem]. intros z Hz. apply in_app_or in Hz as [Hz|Hz].
        + rewrite <- (firstn_skipn i (o_mem b)). apply in_or_app. now left.
        + rewrite <- (firstn_skipn (S i) (o_mem b)). apply in_or_app. now right.
      - exists c. split; [exact Hy|apply incl_refl]. }
    split; [exact A1|]. split; [unfold s1 in A2; cbn in A2; rewrite setn_length in A2; exact A2|]. split; [|split; [|split]].
    + intros x Lx _ No. rewrite A3; [reflexivity|exact Lx| |].
      * intros [<-|[]]. apply No. apply owned_in. eauto.
      * intros Hin. apply No, OW, Hin.
    + intros x Lx Hx. apply OW. apply A4; auto.
    + intros y c Hc Hn. unfold s1 in A5. destruct (Nat.eq_dec y o) as [->|Ny].
      * rewrite Hb in Hc. injection Hc as <-. change (o_anon b) with (o_anon (with_mem b (firstn i (o_mem b) ++ skipn (S i) (o_mem b)))). apply (A5 o); [|exact Hn].
        rewrite getobj_setobj by exact L. now rewrite Nat.eqb_refl.
      * apply (A5 y c); [|exact Hn]. rewrite getobj_setobj by exact L. destruct (Nat.eqb_spec y o); [contradiction|exact Hc].
    + intros y Ly Hn. apply A6; [unfold s1; cbn; rewrite setn_length; exact Ly|]. unfold s1. rewrite getobj_setobj by exact L.
      destruct (Nat.eqb_spec y o) as [->|]; [congruence|exact Hn].
  - (* Attach *) destruct V as (Lr & Lo & K). destruct (live_get _ _ Lr) as (rf0 & H0). unfold attach. rewrite H0.
    destruct (match r_t rf0 with Some o' => Nat.eqb o o' | None => false end) eqn:Es; [apply frame_refl|].
    destruct (liveo_get _ _ Lo) as (b0 & Hb0). rewrite Hb0.
    assert (K' : keeps s r (fun s1 => live_obj s1 o)).
    { apply K. intros rf E. rewrite H0 in E. injection E as <-. intros E. rewrite E, Nat.eqb_refl in Es. discriminate. }
    pose proof (detach_dest s r _ I Lr K') as D. pose proof (detach_frame s r rf0 I H0) as DF.
    destruct (detach s r) as [u s1|s1| |]; cbn [good]; auto.
    2:{ subst. apply frame_refl. }
    destruct DF as [F K1]. destruct D as (I1 & Lo1 & _ & rf & H & Et). destruct (liveo_get _ _ Lo1) as (b & Hb). rewrite Hb, H. cbv zeta.
    assert (Lob := getobj_lt _ _ _ Hb).
    apply (frame_weaken _ (named (Attach r o fl))) in F; [|intros x <-; reflexivity].
    assert (HK : forall s2 t b2 nf, frame (named (Attach r o fl)) s1 s2 -> getobj s2 t = Some b2 ->
        frame (named (Attach r o fl)) s (setref (setobj s2 t (Some (with_cnt b2 (o_cnt b2 + 1)))) r nf)).
    { intros s2 t b2 nf F2 H2. apply (frame_trans _ s s1); auto.
      destruct F2 as (A1 & A2 & A3 & A4 & A5 & A6). set (s3 := setobj s2 t _).
      destruct (setobj_frame (named (Attach r o fl)) s2 t b2 (with_cnt b2 (o_cnt b2 + 1)) H2 eq_refl) as (B1 & B2 & B3 & B4 & B5 & B6). fold s3 in B1, B2, B3, B4, B5, B6.
      assert (R : forall x, x <> r -> getref (setref s3 r nf) x = getref s2 x).
      { intros x Nx. unfold getref, setref. cbn [refs]. rewrite nth_setn. destruct (Nat.eqb_spec x r); [contradiction|reflexivity]. }
      split; [cbn; rewrite setn_length; exact A1|]. split; [cbn [objs setref]; lia|]. split; [|split; [|split]].
      - intros x L E N. rewrite R by (intros ->; apply E; reflexivity). apply A3; auto.
      - intros x L Hx. apply A4; [exact L|]. apply B4; [lia|exact Hx].
      - intros y c Hc Hn. destruct (getobj s2 y) as [c2|] eqn:E2; [|exact (A5 y c Hc E2)].
        exfalso. change (getobj s3 y = None) in Hn. unfold s3 in Hn. rewrite getobj_setobj in Hn by (eapply getobj_lt; exact H2).
        destruct (Nat.eqb_spec y t); congruence.
      - intros y L Hn. change (getobj s3 y = None). apply B6; [lia|]. now apply A6. }
    destruct (o_cnt b =? 0).
    + destruct (f_own fl).
      * rewrite getobj_setobj, Nat.eqb_refl by exact Lob. cbn [good]. apply HK; [apply (setobj_frame _ s1 o b); auto|].
        now rewrite getobj_setobj, Nat.eqb_refl by exact Lob.
      * rewrite getobj_setobj, Nat.eqb_refl by exact Lob. cbn [good]. apply HK; [apply (setobj_frame _ s1 o b); auto|].
        now rewrite getobj_setobj, Nat.eqb_refl by exact Lob.
      * match goal with |- context [clone_with (priv fuel) s1 b ?f 0] => pose proof (clone_frame fuel s1 b o f 0 I1 Hb) as C;
          destruct (clone_with (priv fuel) s1 b f 0) as [o2 s2|s2| |] end; cbn [good]; auto.
        -- destruct C as (F2 & K2 & L2 & b2 & Hb2). rewrite Hb2. assert (Lo2 := getobj_lt _ _ _ Hb2).
           rewrite getobj_setobj, Nat.eqb_refl by exact Lo2. cbn [good]. apply HK; [|now rewrite getobj_setobj, Nat.eqb_refl by exact Lo2].
           apply (frame_trans _ s1 s2); [apply (frame_weaken nobody); [intros x []|exact F2]|exact K2|].
           apply (setobj_frame _ s2 o2 b2); auto.
        -- apply (frame_trans _ s s1); auto. apply (frame_weaken nobody); [intros x []|exact C].
    + cbn [good]. apply HK; [apply frame_refl|exact Hb].
  - (* Copy *) destruct V as (Lr & Lx & K). unfold copy, copy_with. destruct (Nat.eqb_spec r x) as [E|N]; [apply frame_refl|].
    destruct (live_get _ _ Lr) as (rf0 & H0). pose proof (detach_frame s r rf0 I H0) as DF.
    pose proof (detach_dest s r _ I Lr (K N)) as D. destruct (detach s r) as [u s1|s1| |]; cbn [good]; auto.
    2:{ subst. apply frame_refl. }
    destruct DF as [F K1]. apply (frame_weaken _ (named (Copy r x fl depth))) in F; [|intros y <-; reflexivity].
    destruct D as (I1 & Lx1 & _ & rf & H & Et). destruct (live_get _ _ Lx1) as (xf & Hx). rewrite Hx, H.
    destruct (r_t xf) as [o|] eqn:Ex.
    2:{ cbn [good]. apply (frame_trans _ s s1); auto. apply setref_frame. reflexivity. }
    destruct (i_tgt _ _ I1 x xf o Hx Ex) as (b & Hb). rewrite Hb.
    assert (HK : forall nf, frame (named (Copy r x fl depth)) s (setref (setobj s1 o (Some (with_cnt b (o_cnt b + 1)))) r nf) /\
                            anonkeep s (setref (setobj s1 o (Some (with_cnt b (o_cnt b + 1)))) r nf)).
    { intros nf. assert (F1 := setobj_frame (named (Copy r x fl depth)) s1 o b (with_cnt b (o_cnt b + 1)) Hb eq_refl).
      assert (A1 := setobj_anon s1 o b (with_cnt b (o_cnt b + 1)) Hb eq_refl).
      destruct (setref_frame (named (Copy r x fl depth)) (setobj s1 o (Some (with_cnt b (o_cnt b + 1)))) r nf eq_refl) as [F2 A2].
      assert (F3 := frame_trans _ _ _ _ F1 A1 F2). assert (A3 := anonkeep_trans _ _ _ _ F1 A1 A2 F2).
      split; [apply (frame_trans _ s s1); auto|]. exact (anonkeep_trans _ _ _ _ F K1 A3 F3). }
    destruct (f_deep fl || (0 <? depth)) eqn:Ed; [|cbn [good]; apply HK].
    set (nf := {| r_t := Some o; r_lock := false; r_wr := r_wr rf; r_sh := r_sh rf |}).
    destruct (HK (Some nf)) as [F2 A2]. set (s2 := setref _ r (Some nf)) in *.
    assert (I2 : inv s2 []) by (apply (point_inv s1 [] r rf o b nf); auto).
    assert (H2 : getref s2 r = Some nf).
    { unfold s2, getref, setref. cbn [refs setobj]. rewrite nth_setn, Nat.eqb_refl. apply getref_lt, Nat.ltb_lt in H. now rewrite H. }
    pose proof (priv_frame fuel s2 r fl depth nf I2 H2) as P. destruct (priv fuel s2 r fl depth) as [u2 s3|s3| |]; cbn [good] in *; auto.
    all: apply (frame_trans _ s s2); auto; apply (frame_weaken (eq r)); [intros y <-; reflexivity|exact P].
  - (* Xfer *) destruct V as (Lr & Lx & K). unfold xfer. destruct (Nat.eqb_spec r x) as [E|N]; [apply frame_refl|].
    destruct (live_get _ _ Lr) as (rf0 & H0). pose proof (detach_frame s r rf0 I H0) as DF.
    pose proof (detach_dest s r _ I Lr (K N)) as D. destruct (detach s r) as [u s1|s1| |]; cbn [good]; auto.
    2:{ subst. apply frame_refl. }
    destruct DF as [F K1]. set (ex := named (Xfer r x fl depth)) in *.
    assert (Er : ex r) by (left; reflexivity). assert (Exx : ex x) by (right; reflexivity).
    apply (frame_weaken _ ex) in F; [|intros y <-; exact Er].
    destruct D as (I1 & Lx1 & _ & rf & H & Et). destruct (live_get _ _ Lx1) as (xf & Hx). rewrite Hx, H.
    destruct (r_t xf) as [o|] eqn:Ex.
    2:{ cbn [good]. apply (frame_trans _ s s1); auto. apply setref_frame. exact Er. }
    destruct (i_tgt _ _ I1 x xf o Hx Ex) as (b & Hb). rewrite Hb.
    destruct (r_lock xf); [cbn [good]; exact F|].
    set (nf := {| r_t := Some o; r_lock := _; r_wr := _; r_sh := _ |}). set (s2 := setref (setref s1 r (Some nf)) x (Some rempty)).
    destruct (move_inv s1 [] r rf x xf nf I1 N H Et Hx (eq_sym Ex)) as [I2 _]. fold s2 in I2.
    destruct (setref_frame ex s1 r (Some nf) Er) as [Fa Ka]. destruct (setref_frame ex (setref s1 r (Some nf)) x (Some rempty) Exx) as [Fb Kb]. fold s2 in Fb, Kb.
    assert (F2 := frame_trans _ _ _ _ Fa Ka Fb). assert (A2 := anonkeep_trans _ _ _ _ Fa Ka Kb Fb).
    assert (F3 := frame_trans _ _ _ _ F K1 F2). assert (A3 := anonkeep_trans _ _ _ _ F K1 A2 F2).
    destruct (f_deep fl || (0 <? depth)) eqn:Ed; [|exact F3].
    assert (H2 : getref s2 r = Some nf).
    { unfold s2, getref, setref. cbn [refs]. rewrite !nth_setn, Nat.eqb_refl. apply getref_lt, Nat.ltb_lt in H. rewrite H.
      destruct (Nat.eqb_spec r x); [contradiction|reflexivity]. }
    pose proof (priv_frame fuel s2 r fl depth nf I2 H2) as P. destruct (priv fuel s2 r fl depth) as [u2 s3|s3| |]; cbn [good] in *; auto.
    all: apply (frame_trans _ s s2); auto; apply (frame_weaken (eq r)); [intros y <-; exact Er|exact P].
  - destruct (live_get _ _ V) as (rf & H). pose proof (detach_frame s r rf I H) as D. destruct (detach s r) as [u s1|s1| |]; cbn [good]; auto.
    + apply (frame_weaken (eq r)); [intros y <-; reflexivity|apply D].
    + subst. apply frame_refl.
  - destruct (live_get _ _ V) as (rf & H). pose proof (priv_frame fuel s r fl depth rf I H) as P.
    destruct (priv fuel s r fl depth); cbn [good] in *; auto; apply (frame_weaken (eq r)); auto; intros y <-; reflexivity.
  - destruct (live_get _ _ V) as (rf & H). rewrite H. apply setref_frame. reflexivity.
  - destruct (live_get _ _ V) as (rf & H). rewrite H. apply setref_frame. reflexivity.
  - destruct (live_get _ _ V) as (rf & H). rewrite H. destruct (r_t rf); [|apply frame_refl]. apply setref_frame. reflexivity.
  - (* Destroy *) destruct V as [Lr Nr]. destruct (live_get _ _ Lr) as (rf & H).
    assert (I1 : inv s [r]).
    { constructor; try apply I.
      - cbn. constructor; [exact Nr|apply I].
      - intros m [<-|Hm]; [eauto|apply (i_live _ _ I); exact Hm]. }
    destruct (kill_ok (length (refs s)) s [r] I1 (nlive_le s)) as (s' & K & _ & Sh & _). rewrite K. cbn [good].
    apply (frame_weaken (fun x => In x [r])); [intros x [<-|[]]; reflexivity|]. apply (shrink_frame _ _ _ Sh).
  - exact (write_frame fuel path s r v I V).
  - exfalso. exact (ND o eq_refl).
Qed.

Lemma delete_frame fuel s o b : inv s [] -> getobj s o = Some b -> o_anon b = false -> nrefs s o = 0%nat ->
  exists s', step fuel s (DeleteObj o) = Done tt s' /\ (forall x, ~ In x (owned (objs s)) -> getref s' x = getref s x) /\
    (forall y c, y <> o -> getobj s y = Some c -> getobj s' y = None -> o_anon c = true) /\ getobj s' o = None.
Proof.
  intros I Hb Ha Hn. cbn [step]. rewrite Hb, Ha. assert (Lo := getobj_lt _ _ _ Hb).
  destruct (owned_setn o None (objs s) Lo) as (rest & P1 & P2). fold (getobj s o) in P1. rewrite Hb in P1.
  cbn [mems] in P1, P2. cbn [app] in P2.
  assert (PP : Permutation (o_mem b ++ owned (objs (setobj s o None))) (owned (objs s))) by (cbn [objs setobj]; rewrite P1, P2; reflexivity).
  assert (I1 : inv (setobj s o None) (o_mem b)).
  { constructor.
    - intros x xf y Hx Ht. rewrite getobj_setobj by exact Lo. destruct (Nat.eqb_spec y o) as [->|].
      + exfalso. exact (proj1 (tc_zero o (refs s)) Hn x xf Hx Ht).
      + exact (i_tgt _ _ I x xf y Hx Ht).
    - intros y c Hy. rewrite getobj_setobj in Hy by exact Lo. destruct (Nat.eqb_spec y o); [discriminate|]. exact (i_cnt _ _ I y c Hy).
    - apply (Permutation_NoDup (Permutation_sym PP)). apply I.
    - intros m Hm. apply (Permutation_in _ PP) in Hm. exact (i_live _ _ I m Hm). }
  destruct (kill_ok (length (refs s)) _ (o_mem b) I1 (nlive_le (setobj s o None))) as (s' & K & I' & Sh & _).
  exists s'. split; [exact K|]. split; [|split].
  - intros x Nx. destruct (k_ref _ _ _ Sh x) as [E|[_ E]]; [exact E|]. destruct Nx. exact (Permutation_in _ PP E).
  - intros y c Ny Hc Hy. destruct (k_obj _ _ _ Sh y c) as [(e & E)|[_ E]]; [|congruence|exact E].
    rewrite getobj_setobj by exact Lo. destruct (Nat.eqb_spec y o); [contradiction|exact Hc].
  - apply (k_none _ _ _ Sh). rewrite getobj_setobj by exact Lo. now rewrite Nat.eqb_refl.
Qed.
