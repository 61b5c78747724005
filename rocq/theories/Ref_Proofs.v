From Coq Require Import Permutation.
From Verif Require Import Base Ref_Model Ref_Spec.
Local Open Scope Z_scope.

(** ** Lists with replaced elements *)
Lemma setn_length {A} n (x : A) l : length (setn n x l) = length l.
Proof. revert n. induction l as [|y l IH]; intros [|n]; cbn; auto. Qed.
Lemma nth_setn {A} n m (x d : A) l : nth m (setn n x l) d = if Nat.eqb m n && Nat.ltb n (length l) then x else nth m l d.
Proof.
  revert n m. induction l as [|y l IH]; intros [|n] [|m]; cbn [setn nth length]; auto;
    try (rewrite andb_false_r; reflexivity).
  - rewrite IH. cbn [Nat.eqb]. destruct (Nat.ltb_spec n (length l)), (Nat.ltb_spec (S n) (S (length l))); auto; lia.
Qed.
Lemma nth_some_lt {A} n (l : list (option A)) x : nth n l None = Some x -> (n < length l)%nat.
Proof. intros H. destruct (Nat.ltb_spec n (length l)); auto. rewrite nth_overflow in H by auto. discriminate. Qed.

Lemma setn_split {A} n (x d : A) l : (n < length l)%nat ->
  exists l1 l2, l = l1 ++ nth n l d :: l2 /\ setn n x l = l1 ++ x :: l2.
Proof.
  revert n. induction l as [|y l IH]; intros [|n] H; cbn in *; try lia.
  - exists [], l. auto.
  - destruct (IH n) as (l1 & l2 & E1 & E2); [lia|]. exists (y :: l1), l2. cbn. split; [now rewrite <- E1|now rewrite E2].
Qed.

Definition hit (o : nat) (x : option ref) : nat := if hits o x then 1 else 0.
Definition tc (o : nat) (l : list (option ref)) : nat := length (filter (hits o) l).
Lemma tc_app o a b : tc o (a ++ b) = (tc o a + tc o b)%nat.
Proof. unfold tc. now rewrite filter_app, app_length. Qed.
Lemma tc_cons o x l : tc o (x :: l) = (hit o x + tc o l)%nat.
Proof. unfold tc, hit. cbn. destruct (hits o x); reflexivity. Qed.
Lemma tc_setn o n x l : (n < length l)%nat -> (tc o (setn n x l) + hit o (nth n l None) = tc o l + hit o x)%nat.
Proof.
  intros H. destruct (setn_split n x None l H) as (l1 & l2 & E1 & E2). rewrite E2.
  rewrite E1 at 2. rewrite !tc_app, !tc_cons. lia.
Qed.
Lemma tc_zero o l : tc o l = 0%nat <-> forall n rf, nth n l None = Some rf -> r_t rf <> Some o.
Proof.
  unfold tc. split.
  - intros H n rf E Et. apply length_zero_iff_nil in H.
    assert (Hin : In (Some rf) (filter (hits o) l)).
    { apply filter_In. split; [rewrite <- E; apply nth_In; eapply nth_some_lt; exact E|].
      cbn. rewrite Et. apply Nat.eqb_refl. }
    rewrite H in Hin. destruct Hin.
  - intros H. destruct (filter (hits o) l) as [|x f] eqn:E; [reflexivity|exfalso].
    assert (Hin : In x (filter (hits o) l)) by (rewrite E; now left). apply filter_In in Hin as [Hin Hx].
    destruct x as [rf|]; [|discriminate]. cbn in Hx. destruct (r_t rf) as [o'|] eqn:Et; [|discriminate].
    apply Nat.eqb_eq in Hx. subst. destruct (In_nth _ _ None Hin) as (n & _ & En). exact (H n rf En Et).
Qed.
Lemma tc_ge1 o l n rf : nth n l None = Some rf -> r_t rf = Some o -> (1 <= tc o l)%nat.
Proof.
  intros H1 H2. destruct (Nat.eq_dec (tc o l) 0) as [E|E]; [|lia].
  exfalso. exact (proj1 (tc_zero o l) E n rf H1 H2).
Qed.
Lemma hit_some o rf : r_t rf = Some o -> hit o (Some rf) = 1%nat.
Proof. intros H. unfold hit. cbn. rewrite H, Nat.eqb_refl. reflexivity. Qed.
Lemma hit_le o x : (hit o x <= 1)%nat.
Proof. unfold hit. destruct (hits o x); lia. Qed.
Lemma hit_none o : hit o None = 0%nat. Proof. reflexivity. Qed.
Lemma hit_empty o rf : r_t rf = None -> hit o (Some rf) = 0%nat.
Proof. intros H. unfold hit. cbn. now rewrite H. Qed.
Lemma hit_other o o' rf : r_t rf = Some o' -> o' <> o -> hit o (Some rf) = 0%nat.
Proof. intros H N. unfold hit. cbn. rewrite H. destruct (Nat.eqb_spec o' o); [contradiction|reflexivity]. Qed.
Lemma hit_ext o x y : option_map r_t x = option_map r_t y -> hit o x = hit o y.
Proof. intros H. unfold hit. destruct x, y; cbn in *; try discriminate; auto. injection H as ->. reflexivity. Qed.
Lemma tc_ge2 o l n m rf rf' : n <> m -> nth n l None = Some rf -> r_t rf = Some o ->
  nth m l None = Some rf' -> r_t rf' = Some o -> (2 <= tc o l)%nat.
Proof.
  intros N H1 H2 H3 H4. pose proof (tc_setn o n None l (nth_some_lt _ _ _ H1)) as E.
  rewrite H1, (hit_some o rf H2), hit_none in E.
  assert ((1 <= tc o (setn n None l))%nat); [|lia].
  apply (tc_ge1 o _ m rf'); [|exact H4]. rewrite nth_setn. destruct (Nat.eqb_spec m n); [congruence|exact H3].
Qed.

(** ** Getters and setters *)
Lemma getref_lt s r rf : getref s r = Some rf -> (r < length (refs s))%nat.
Proof. apply nth_some_lt. Qed.
Lemma getobj_lt s o b : getobj s o = Some b -> (o < length (objs s))%nat.
Proof. apply nth_some_lt. Qed.
Lemma getref_setref s r x y : (r < length (refs s))%nat -> getref (setref s r x) y = if Nat.eqb y r then x else getref s y.
Proof.
  intros H. unfold getref, setref. cbn. rewrite nth_setn. destruct (Nat.ltb_spec r (length (refs s))); [|lia].
  now rewrite andb_true_r.
Qed.
Lemma getobj_setobj s o x y : (o < length (objs s))%nat -> getobj (setobj s o x) y = if Nat.eqb y o then x else getobj s y.
Proof.
  intros H. unfold getobj, setobj. cbn. rewrite nth_setn. destruct (Nat.ltb_spec o (length (objs s))); [|lia].
  now rewrite andb_true_r.
Qed.
Lemma getobj_setref s r x y : getobj (setref s r x) y = getobj s y.
Proof. reflexivity. Qed.
Lemma getref_setobj s r x y : getref (setobj s r x) y = getref s y.
Proof. reflexivity. Qed.

Lemma owned_setn o x l : (o < length l)%nat -> exists rest,
  Permutation (owned l) (mems (nth o l None) ++ rest) /\ Permutation (owned (setn o x l)) (mems x ++ rest).
Proof.
  intros H. destruct (setn_split o x None l H) as (l1 & l2 & E1 & E2).
  exists (owned l1 ++ owned l2). split.
  - rewrite E1 at 1. unfold owned. rewrite flat_map_app. cbn. rewrite !app_assoc. apply Permutation_app_tail, Permutation_app_comm.
  - rewrite E2. unfold owned. rewrite flat_map_app. cbn. rewrite !app_assoc. apply Permutation_app_tail, Permutation_app_comm.
Qed.
Lemma owned_same o x l : mems x = mems (nth o l None) -> owned (setn o x l) = owned l.
Proof.
  revert o. induction l as [|y l IH]; intros [|o] H; cbn in *; auto.
  - now rewrite H.
  - now rewrite IH.
Qed.
Lemma owned_in l m : In m (owned l) <-> exists o b, nth o l None = Some b /\ In m (o_mem b).
Proof.
  unfold owned. rewrite in_flat_map. split.
  - intros (x & H1 & H2). destruct x as [b|]; [|destruct H2]. destruct (In_nth _ _ None H1) as (n & _ & E). eauto.
  - intros (o & b & E & H). exists (Some b). split; [|exact H]. rewrite <- E. apply nth_In. eapply nth_some_lt; exact E.
Qed.

Lemma nd_app_r {A} (a b : list A) : NoDup (a ++ b) -> NoDup b.
Proof. induction a; cbn; auto. intros H. inversion H; auto. Qed.
Lemma nd_app_l {A} (a b : list A) : NoDup (a ++ b) -> NoDup a.
Proof.
  induction a as [|x a IH]; cbn; intros H; [constructor|]. inversion_clear H as [|? ? N D].
  constructor; auto. intros Hin. apply N, in_or_app. now left.
Qed.
Lemma nd_app_disj {A} (a b : list A) x : NoDup (a ++ b) -> In x a -> In x b -> False.
Proof.
  induction a as [|y a IH]; cbn; intros H Ha Hb; [destruct Ha|]. inversion_clear H as [|? ? N D].
  destruct Ha as [->|Ha]; [apply N, in_or_app; now right|auto].
Qed.

(** ** The invariant; [ws] = references about to be destroyed *)
Record inv (s : st) (ws : list nat) : Prop := {
  i_tgt : forall r rf o, getref s r = Some rf -> r_t rf = Some o -> exists b, getobj s o = Some b;
  i_cnt : forall o b, getobj s o = Some b -> o_cnt b = Z.of_nat (tc o (refs s));
  i_nd : NoDup (ws ++ owned (objs s));
  i_live : forall m, In m (ws ++ owned (objs s)) -> exists rf, getref s m = Some rf
}.
Definition leakfree (s : st) : Prop :=
  forall o b, getobj s o = Some b -> o_anon b = true -> 0 < o_cnt b.

(** a member belongs to one object only *)
Lemma owner_unique s ws o1 b1 o2 b2 m : inv s ws -> getobj s o1 = Some b1 -> getobj s o2 = Some b2 ->
  In m (o_mem b1) -> In m (o_mem b2) -> o1 = o2.
Proof.
  intros I H1 H2 M1 M2. destruct (Nat.eq_dec o1 o2) as [E|E]; [exact E|exfalso].
  assert (N := i_nd _ _ I). apply nd_app_r in N.
  destruct (owned_setn o1 None (objs s) (getobj_lt _ _ _ H1)) as (rest & P1 & P2).
  fold (getobj s o1) in P1. rewrite H1 in P1. cbn [mems] in P1, P2. cbn [app] in P2.
  apply (Permutation_NoDup P1) in N.
  assert (M2' : In m rest).
  { apply (Permutation_in _ P2). apply owned_in. exists o2, b2. split; [|exact M2].
    rewrite nth_setn. destruct (Nat.eqb_spec o2 o1); [congruence|exact H2]. }
  exact (nd_app_disj _ _ m N M1 M2').
Qed.

Definition nlive (s : st) : nat := length (filter (fun x => match x with Some _ => true | None => false end) (refs s)).
Lemma nlive_drop s m rf : getref s m = Some rf -> S (nlive (setref s m None)) = nlive s.
Proof.
  intros H. unfold nlive, setref. cbn. destruct (setn_split m None None (refs s) (getref_lt _ _ _ H)) as (l1 & l2 & E1 & E2).
  unfold getref in H. rewrite E2, E1, H, !filter_app, !app_length. cbn. lia.
Qed.

(** what destroying references may do to a state *)
Record shrink (s s' : st) (ws : list nat) : Prop := {
  k_lr : length (refs s') = length (refs s);
  k_lo : length (objs s') = length (objs s);
  k_ref : forall x, getref s' x = getref s x \/ (getref s' x = None /\ In x (ws ++ owned (objs s)));
  k_obj : forall y b, getobj s y = Some b -> (exists c, getobj s' y = Some (with_cnt b c)) \/ (getobj s' y = None /\ o_anon b = true);
  k_none : forall y, getobj s y = None -> getobj s' y = None;
  k_gone : forall x, In x ws -> getref s' x = None;
  k_mem : forall y b m, getobj s y = Some b -> getobj s' y = None -> In m (o_mem b) -> getref s' m = None
}.

Lemma with_cnt_2 b c d : with_cnt (with_cnt b c) d = with_cnt b d. Proof. reflexivity. Qed.
Lemma with_cnt_same b : with_cnt b (o_cnt b) = b. Proof. destruct b; reflexivity. Qed.

Lemma shrink_refl s : shrink s s [].
Proof.
  constructor.
  - reflexivity.
  - reflexivity.
  - intros x. now left.
  - intros y b Hb. left. exists (o_cnt b). now rewrite with_cnt_same.
  - auto.
  - intros x H. destruct H.
  - intros y b m H1 H2. congruence.
Qed.

Lemma inv_tail s m ws : inv s (m :: ws) -> inv s ws /\ ~ In m (ws ++ owned (objs s)).
Proof.
  intros I. pose proof (i_nd _ _ I) as N. cbn in N. inversion_clear N as [|? ? N1 N2]. split; [|exact N1].
  constructor; [exact (i_tgt _ _ I)|exact (i_cnt _ _ I)|exact N2|]. intros x Hx. apply (i_live _ _ I). now right.
Qed.

(** a reference stops pointing at its target: it is destroyed, or becomes invalid *)
Lemma drop_step s m ws rf x : inv s ws -> getref s m = Some rf ->
  (x = None /\ ~ In m (ws ++ owned (objs s)) \/ exists rf', x = Some rf' /\ r_t rf' = None) ->
  match r_t rf with
  | None => inv (setref s m x) ws
  | Some o => exists b, getobj s o = Some b /\
      let s1 := setref s m x in
      if (o_cnt b - 1 =? 0) && o_anon b
      then inv (setobj s1 o None) (o_mem b ++ ws) /\ (leakfree s -> leakfree (setobj s1 o None))
      else inv (setobj s1 o (Some (with_cnt b (o_cnt b - 1)))) ws /\
           (leakfree s -> leakfree (setobj s1 o (Some (with_cnt b (o_cnt b - 1)))))
  end.
Proof.
  intros I H Hx0. assert (L := getref_lt _ _ _ H).
  assert (Nd := i_nd _ _ I).
  assert (Hx : x = None \/ exists rf', x = Some rf' /\ r_t rf' = None) by (destruct Hx0 as [[? _]|?]; auto).
  assert (Hh : forall y, hit y x = 0%nat).
  { intros y. destruct Hx as [->|(rf' & -> & E)]; [reflexivity|now apply hit_empty]. }
  assert (Lv : forall y, In y (ws ++ owned (objs s)) -> exists rf', getref (setref s m x) y = Some rf').
  { intros y Hy. rewrite getref_setref by exact L. destruct (Nat.eqb_spec y m).
    - subst. destruct Hx0 as [[_ Hn]|(rf' & -> & _)]; [contradiction|eauto].
    - now apply (i_live _ _ I). }
  assert (Tc : forall y, (tc y (refs (setref s m x)) + hit y (Some rf) = tc y (refs s))%nat).
  { intros y. pose proof (tc_setn y m x (refs s) L) as T. unfold getref in H. rewrite H, Hh in T. cbn [setref refs]. lia. }
  assert (Ht : forall r rf' o', getref (setref s m x) r = Some rf' -> r_t rf' = Some o' -> getref s r = Some rf').
  { intros r rf' o' Hr Ht. rewrite getref_setref in Hr by exact L. destruct (Nat.eqb_spec r m); [|exact Hr].
    destruct Hx as [->|(rf2 & -> & E)]; [discriminate|congruence]. }
  destruct (r_t rf) as [o|] eqn:Et.
  - destruct (i_tgt _ _ I m rf o H Et) as (b & Hb). exists b. split; [exact Hb|]. cbv zeta.
    assert (Lo := getobj_lt _ _ _ Hb).
    assert (Cb := i_cnt _ _ I o b Hb).
    assert (To := Tc o). rewrite (hit_some o rf Et) in To.
    destruct ((o_cnt b - 1 =? 0) && o_anon b) eqn:Ed.
    + apply andb_true_iff in Ed as [Ed Ea]. apply Z.eqb_eq in Ed.
      assert (Z0 : tc o (refs (setref s m x)) = 0%nat) by lia.
      assert (T0 := proj1 (tc_zero o _) Z0).
      destruct (owned_setn o None (objs s) Lo) as (rest & P1 & P2). fold (getobj s o) in P1. rewrite Hb in P1.
      cbn [mems] in P1, P2. cbn [app] in P2.
      assert (Pm : Permutation ((o_mem b ++ ws) ++ owned (objs (setobj (setref s m x) o None))) (ws ++ owned (objs s))).
      { cbn [objs setobj setref]. rewrite P1, P2. rewrite <- app_assoc. rewrite !app_assoc.
        apply Permutation_app_tail, Permutation_app_comm. }
      split; [constructor|].
      * intros r rf' o' Hr Hrt. rewrite getref_setobj in Hr.
        assert (o' <> o) by (intros ->; exact (T0 r rf' Hr Hrt)).
        rewrite getobj_setobj by exact Lo. destruct (Nat.eqb_spec o' o); [contradiction|].
        rewrite getobj_setref. exact (i_tgt _ _ I r rf' o' (Ht r rf' o' Hr Hrt) Hrt).
      * intros y c Hy. rewrite getobj_setobj in Hy by exact Lo. destruct (Nat.eqb_spec y o); [discriminate|].
        rewrite getobj_setref in Hy. rewrite (i_cnt _ _ I y c Hy). cbn [refs setobj]. rewrite <- (Tc y).
        rewrite (hit_other y o rf Et) by congruence. now rewrite Nat.add_0_r.
      * apply (Permutation_NoDup (Permutation_sym Pm)). exact Nd.
      * intros y Hy. apply (Permutation_in _ Pm) in Hy. rewrite getref_setobj. now apply Lv.
      * intros LF y c Hy. rewrite getobj_setobj in Hy by exact Lo. destruct (Nat.eqb_spec y o); [discriminate|].
        exact (LF y c Hy).
    + assert (Ow : owned (objs (setobj (setref s m x) o (Some (with_cnt b (o_cnt b - 1))))) = owned (objs s)).
      { cbn [objs setobj setref]. apply owned_same. fold (getobj s o). now rewrite Hb. }
      split; [constructor|].
      * intros r rf' o' Hr Hrt. rewrite getref_setobj in Hr. apply (Ht r rf' o' Hr) in Hrt as Hr'.
        rewrite getobj_setobj by exact Lo. destruct (Nat.eqb_spec o' o); [eauto|]. exact (i_tgt _ _ I r rf' o' Hr' Hrt).
      * intros y c Hy. rewrite getobj_setobj in Hy by exact Lo. cbn [refs setobj]. destruct (Nat.eqb_spec y o) as [->|Ny].
        -- injection Hy as <-. cbn [o_cnt with_cnt]. lia.
        -- rewrite getobj_setref in Hy. rewrite (i_cnt _ _ I y c Hy). rewrite <- (Tc y).
           rewrite (hit_other y o rf Et) by congruence. now rewrite Nat.add_0_r.
      * rewrite Ow. exact Nd.
      * intros y Hy. rewrite Ow in Hy. rewrite getref_setobj. now apply Lv.
      * intros LF y c Hy Hya. rewrite getobj_setobj in Hy by exact Lo. destruct (Nat.eqb_spec y o) as [->|Ny].
        -- injection Hy as <-. cbn [o_cnt o_anon with_cnt] in *. rewrite Hya, andb_true_r in Ed. apply Z.eqb_neq in Ed. lia.
        -- exact (LF y c Hy Hya).
  - constructor.
    + intros r rf' o' Hr Hrt. exact (i_tgt _ _ I r rf' o' (Ht r rf' o' Hr Hrt) Hrt).
    + intros y c Hy. rewrite (i_cnt _ _ I y c Hy). rewrite <- (Tc y), (hit_empty y rf Et). now rewrite Nat.add_0_r.
    + exact Nd.
    + exact Lv.
Qed.

Lemma kill_step s m ws rf : inv s (m :: ws) -> getref s m = Some rf ->
  match r_t rf with
  | None => inv (setref s m None) ws /\ shrink s (setref s m None) [m] /\ (leakfree s -> leakfree (setref s m None))
  | Some o => exists b, getobj s o = Some b /\
      let s1 := setref s m None in
      if (o_cnt b - 1 =? 0) && o_anon b
      then inv (setobj s1 o None) (o_mem b ++ ws) /\ (leakfree s -> leakfree (setobj s1 o None))
      else inv (setobj s1 o (Some (with_cnt b (o_cnt b - 1)))) ws /\
           (leakfree s -> leakfree (setobj s1 o (Some (with_cnt b (o_cnt b - 1)))))
  end.
Proof.
  intros I0 H. assert (L := getref_lt _ _ _ H). destruct (inv_tail _ _ _ I0) as [I Nm].
  pose proof (drop_step s m ws rf None I H (or_introl (conj eq_refl Nm))) as D.
  destruct (r_t rf) as [o|] eqn:Et; [exact D|].
  split; [exact D|]. split; [|intros LF; exact LF].
  constructor; try reflexivity.
  - unfold setref; cbn. apply setn_length.
  - intros x. rewrite getref_setref by exact L. destruct (Nat.eqb_spec x m); [right; split; [reflexivity|left; congruence]|now left].
  - intros y b Hb. left. exists (o_cnt b). now rewrite with_cnt_same.
  - intros y Hy. exact Hy.
  - intros x [<-|[]]. rewrite getref_setref, Nat.eqb_refl by exact L. reflexivity.
  - intros y b z H1 H2. rewrite getobj_setref in H2. congruence.
Qed.

Lemma kill_ok fuel : forall s ws, inv s ws -> (nlive s <= fuel)%nat ->
  exists s', kill fuel s ws = Done tt s' /\ inv s' [] /\ shrink s s' ws /\ (leakfree s -> leakfree s').
Proof.
  induction fuel as [|f IH]; intros s ws I Hf.
  - destruct ws as [|m ws].
    + exists s. split; [reflexivity|]. split; [exact I|]. split; [apply shrink_refl|auto].
    + exfalso. destruct (i_live _ _ I m) as (rf & Hr); [now left|]. pose proof (nlive_drop _ _ _ Hr). lia.
  - destruct ws as [|m ws].
    + exists s. split; [reflexivity|]. split; [exact I|]. split; [apply shrink_refl|auto].
    + destruct (i_live _ _ I m) as (rf & Hr); [now left|].
      assert (L := getref_lt _ _ _ Hr). assert (NL := nlive_drop _ _ _ Hr).
      pose proof (kill_step s m ws rf I Hr) as St. cbn [kill]. rewrite Hr.
      destruct (r_t rf) as [o|] eqn:Et.
      * destruct St as (b & Hb & St). rewrite Hb. cbv zeta in *. assert (Lo := getobj_lt _ _ _ Hb).
        destruct ((o_cnt b - 1 =? 0) && o_anon b) eqn:Ed.
        -- destruct St as [I1 LF1].
           assert (NL1 : nlive (setobj (setref s m None) o None) = nlive (setref s m None)) by reflexivity.
           destruct (IH _ _ I1) as (s' & K & I' & Sh & LF'); [lia|].
           exists s'. split; [exact K|]. split; [exact I'|]. split; [|auto].
           destruct (owned_setn o None (objs s) Lo) as (rest & P1 & P2). fold (getobj s o) in P1. rewrite Hb in P1.
           cbn [mems] in P1, P2. cbn [app] in P2.
           constructor.
           ++ rewrite (k_lr _ _ _ Sh). unfold setobj, setref; cbn. apply setn_length.
           ++ rewrite (k_lo _ _ _ Sh). unfold setobj, setref; cbn. apply setn_length.
           ++ intros x. destruct (k_ref _ _ _ Sh x) as [E|[E Hin]].
              ** rewrite E, getref_setobj, getref_setref by exact L.
                 destruct (Nat.eqb_spec x m); [right; split; [reflexivity|left; congruence]|now left].
              ** right. split; [exact E|]. cbn [objs setobj setref] in Hin. right.
                 apply in_app_or in Hin as [Hin|Hin].
                 --- apply in_app_or in Hin as [Hin|Hin]; apply in_or_app; [right|now left].
                     apply (Permutation_in _ (Permutation_sym P1)), in_or_app. now left.
                 --- apply in_or_app. right. apply (Permutation_in _ (Permutation_sym P1)), in_or_app. right.
                     exact (Permutation_in _ P2 Hin).
           ++ intros y c Hy. destruct (Nat.eq_dec y o) as [->|Ny].
              ** right. rewrite Hb in Hy. injection Hy as <-. apply andb_true_iff in Ed as [_ Ea]. split; [|exact Ea].
                 apply (k_none _ _ _ Sh). rewrite getobj_setobj, Nat.eqb_refl by exact Lo. reflexivity.
              ** apply (k_obj _ _ _ Sh). rewrite getobj_setobj by exact Lo. destruct (Nat.eqb_spec y o); [contradiction|exact Hy].
           ++ intros y Hy. apply (k_none _ _ _ Sh). rewrite getobj_setobj by exact Lo. destruct (Nat.eqb_spec y o); [reflexivity|exact Hy].
           ++ intros x [<-|Hx]; [|apply (k_gone _ _ _ Sh), in_or_app; now right].
              destruct (k_ref _ _ _ Sh m) as [E|[E _]]; [|exact E].
              rewrite E, getref_setobj, getref_setref, Nat.eqb_refl by exact L. reflexivity.
           ++ intros y c z Hy Hy' Hz. destruct (Nat.eq_dec y o) as [->|Ny].
              ** rewrite Hb in Hy. injection Hy as <-. apply (k_gone _ _ _ Sh), in_or_app. now left.
              ** apply (k_mem _ _ _ Sh y c z); auto. rewrite getobj_setobj by exact Lo. destruct (Nat.eqb_spec y o); [contradiction|exact Hy].
        -- destruct St as [I1 LF1].
           assert (NL1 : nlive (setobj (setref s m None) o (Some (with_cnt b (o_cnt b - 1)))) = nlive (setref s m None)) by reflexivity.
           destruct (IH _ _ I1) as (s' & K & I' & Sh & LF'); [lia|].
           exists s'. split; [exact K|]. split; [exact I'|]. split; [|auto].
           assert (Ow : owned (objs (setobj (setref s m None) o (Some (with_cnt b (o_cnt b - 1))))) = owned (objs s)).
           { cbn [objs setobj setref]. apply owned_same. fold (getobj s o). now rewrite Hb. }
           constructor.
           ++ rewrite (k_lr _ _ _ Sh). unfold setobj, setref; cbn. apply setn_length.
           ++ rewrite (k_lo _ _ _ Sh). unfold setobj, setref; cbn. apply setn_length.
           ++ intros x. destruct (k_ref _ _ _ Sh x) as [E|[E Hin]].
              ** rewrite E, getref_setobj, getref_setref by exact L.
                 destruct (Nat.eqb_spec x m); [right; split; [reflexivity|left; congruence]|now left].
              ** right. split; [exact E|]. rewrite Ow in Hin. now right.
           ++ intros y c Hy. destruct (Nat.eq_dec y o) as [->|Ny].
              ** rewrite Hb in Hy. injection Hy as <-.
                 destruct (k_obj _ _ _ Sh o (with_cnt b (o_cnt b - 1))) as [(d & E)|[E Ea]].
                 --- rewrite getobj_setobj, Nat.eqb_refl by exact Lo. reflexivity.
                 --- left. exists d. exact E.
                 --- right. split; [exact E|exact Ea].
              ** apply (k_obj _ _ _ Sh). rewrite getobj_setobj by exact Lo. destruct (Nat.eqb_spec y o); [contradiction|exact Hy].
           ++ intros y Hy. apply (k_none _ _ _ Sh). rewrite getobj_setobj by exact Lo.
              destruct (Nat.eqb_spec y o); [congruence|exact Hy].
           ++ intros x [<-|Hx]; [|apply (k_gone _ _ _ Sh); exact Hx].
              destruct (k_ref _ _ _ Sh m) as [E|[E _]]; [|exact E].
              rewrite E, getref_setobj, getref_setref, Nat.eqb_refl by exact L. reflexivity.
           ++ intros y c z Hy Hy' Hz. destruct (Nat.eq_dec y o) as [->|Ny].
              ** rewrite Hb in Hy. injection Hy as <-. apply (k_mem _ _ _ Sh o (with_cnt b (o_cnt b - 1)) z); auto.
                 rewrite getobj_setobj, Nat.eqb_refl by exact Lo. reflexivity.
              ** apply (k_mem _ _ _ Sh y c z); auto. rewrite getobj_setobj by exact Lo. destruct (Nat.eqb_spec y o); [contradiction|exact Hy].
      * destruct St as (I1 & Sh1 & LF1).
        destruct (IH _ _ I1) as (s' & K & I' & Sh & LF'); [lia|].
        exists s'. split; [exact K|]. split; [exact I'|]. split; [|auto].
        constructor.
        -- rewrite (k_lr _ _ _ Sh). apply (k_lr _ _ _ Sh1).
        -- rewrite (k_lo _ _ _ Sh). reflexivity.
        -- intros x. destruct (k_ref _ _ _ Sh x) as [E|[E Hin]].
           ++ rewrite E, getref_setref by exact L. destruct (Nat.eqb_spec x m); [right; split; [reflexivity|left; congruence]|now left].
           ++ right. split; [exact E|]. now right.
        -- intros y c Hy. exact (k_obj _ _ _ Sh y c Hy).
        -- intros y Hy. exact (k_none _ _ _ Sh y Hy).
        -- intros x [<-|Hx]; [|apply (k_gone _ _ _ Sh); exact Hx].
           destruct (k_ref _ _ _ Sh m) as [E|[E _]]; [|exact E].
           rewrite E, getref_setref, Nat.eqb_refl by exact L. reflexivity.
        -- intros y c z Hy. exact (k_mem _ _ _ Sh y c z Hy).
Qed.

Lemma nlive_le s : (nlive s <= length (refs s))%nat.
Proof. unfold nlive. induction (refs s) as [|[x|] l IH]; cbn in *; lia. Qed.

(** ** detach *)
Record dshrink (s s1 : st) (r : nat) : Prop := {
  d_lr : length (refs s1) = length (refs s);
  d_lo : length (objs s1) = length (objs s);
  d_ref : forall x, x <> r -> getref s1 x = getref s x \/ (getref s1 x = None /\ In x (owned (objs s)));
  d_r : (exists rf', getref s1 r = Some rf' /\ r_t rf' = None /\ (rf' = rempty \/ s1 = s)) \/
        (getref s1 r = None /\ In r (owned (objs s)));
  d_obj : forall y b, getobj s y = Some b -> (exists c, getobj s1 y = Some (with_cnt b c)) \/ (getobj s1 y = None /\ o_anon b = true);
  d_none : forall y, getobj s y = None -> getobj s1 y = None;
  d_mem : forall y b m, getobj s y = Some b -> getobj s1 y = None -> In m (o_mem b) -> getref s1 m = None
}.

Lemma detach_ok s r rf : inv s [] -> getref s r = Some rf ->
  match detach s r with
  | Done _ s1 => inv s1 [] /\ dshrink s s1 r /\ (leakfree s -> leakfree s1) /\ (r_lock rf = false \/ r_t rf = None)
  | Threw s1 => s1 = s /\ r_lock rf = true /\ r_t rf <> None
  | Undef => False
  | Deep => False
  end.
Proof.
  intros I H. assert (L := getref_lt _ _ _ H). unfold detach. rewrite H.
  destruct (r_t rf) as [o|] eqn:Et.
  2:{ split; [exact I|]. split; [|auto]. constructor; auto.
      - left. exists rf. auto.
      - intros y b Hb. left. exists (o_cnt b). now rewrite with_cnt_same.
      - intros y b m H1 H2. congruence. }
  destruct (r_lock rf) eqn:El; [repeat split; auto; discriminate|].
  pose proof (drop_step s r [] rf (Some rempty) I H) as D. rewrite Et in D.
  destruct D as (b & Hb & D); [right; exists rempty; auto|]. rewrite Hb. cbv zeta in *. assert (Lo := getobj_lt _ _ _ Hb).
  assert (Ow : owned (objs (setobj (setref s r (Some rempty)) o (Some (with_cnt b (o_cnt b - 1))))) = owned (objs s)).
  { cbn [objs setobj setref]. apply owned_same. fold (getobj s o). now rewrite Hb. }
  destruct ((o_cnt b - 1 =? 0) && o_anon b) eqn:Ed.
  - destruct D as [I1 LF1]. rewrite app_nil_r in I1.
    set (s1 := setobj (setref s r (Some rempty)) o None) in *.
    destruct (kill_ok (length (refs s)) s1 (o_mem b) I1) as (s' & K & I' & Sh & LF').
    { pose proof (nlive_le s1) as N. unfold s1 at 2 in N. cbn in N. rewrite setn_length in N. exact N. }
    rewrite K. split; [exact I'|]. split; [|auto].
    assert (Hin : forall x, In x (o_mem b ++ owned (objs s1)) -> In x (owned (objs s))).
    { intros x Hx. destruct (owned_setn o None (objs s) Lo) as (rest & P1 & P2). fold (getobj s o) in P1. rewrite Hb in P1.
      cbn [mems] in P1, P2. cbn [app] in P2. apply (Permutation_in _ (Permutation_sym P1)), in_or_app.
      apply in_app_or in Hx as [Hx|Hx]; [now left|right]. exact (Permutation_in _ P2 Hx). }
    constructor.
    + rewrite (k_lr _ _ _ Sh). unfold s1; cbn. apply setn_length.
    + rewrite (k_lo _ _ _ Sh). unfold s1; cbn. apply setn_length.
    + intros x Nx. destruct (k_ref _ _ _ Sh x) as [E|[E Hx]]; [left|right; auto].
      rewrite E. unfold s1. rewrite getref_setobj, getref_setref by exact L. destruct (Nat.eqb_spec x r); [contradiction|reflexivity].
    + destruct (k_ref _ _ _ Sh r) as [E|[E Hx]]; [left|right; auto].
      exists rempty. rewrite E. unfold s1. rewrite getref_setobj, getref_setref, Nat.eqb_refl by exact L. auto.
    + intros y c Hy. destruct (Nat.eq_dec y o) as [->|Ny].
      * right. rewrite Hb in Hy. injection Hy as <-. apply andb_true_iff in Ed as [_ Ea]. split; [|exact Ea].
        apply (k_none _ _ _ Sh). unfold s1. rewrite getobj_setobj, Nat.eqb_refl by exact Lo. reflexivity.
      * apply (k_obj _ _ _ Sh). unfold s1. rewrite getobj_setobj by exact Lo. destruct (Nat.eqb_spec y o); [contradiction|exact Hy].
    + intros y Hy. apply (k_none _ _ _ Sh). unfold s1. rewrite getobj_setobj by exact Lo. destruct (Nat.eqb_spec y o); [reflexivity|exact Hy].
    + intros y c z Hy Hy' Hz. destruct (Nat.eq_dec y o) as [->|Ny].
      * rewrite Hb in Hy. injection Hy as <-. apply (k_gone _ _ _ Sh). exact Hz.
      * apply (k_mem _ _ _ Sh y c z); auto. unfold s1. rewrite getobj_setobj by exact Lo.
        destruct (Nat.eqb_spec y o); [contradiction|exact Hy].
  - destruct D as [I1 LF1]. split; [exact I1|]. split; [|auto]. constructor.
    + cbn. apply setn_length.
    + cbn. apply setn_length.
    + intros x Nx. left. rewrite getref_setobj, getref_setref by exact L. destruct (Nat.eqb_spec x r); [contradiction|reflexivity].
    + left. exists rempty. rewrite getref_setobj, getref_setref, Nat.eqb_refl by exact L. auto.
    + intros y c Hy. left. rewrite getobj_setobj by exact Lo. destruct (Nat.eqb_spec y o) as [->|Ny].
      * exists (o_cnt b - 1). congruence.
      * exists (o_cnt c). rewrite with_cnt_same. exact Hy.
    + intros y Hy. rewrite getobj_setobj by exact Lo. destruct (Nat.eqb_spec y o); [congruence|exact Hy].
    + intros y c z Hy Hy'. rewrite getobj_setobj in Hy' by exact Lo. destruct (Nat.eqb_spec y o); [discriminate|].
      rewrite getobj_setref in Hy'. congruence.
Qed.

(** ** Growing states: what cloning may do *)
Record grow (ex : nat -> Prop) (s s' : st) : Prop := {
  g_lr : (length (refs s) <= length (refs s'))%nat;
  g_lo : (length (objs s) <= length (objs s'))%nat;
  g_ref : forall x, (x < length (refs s))%nat -> ~ ex x -> getref s' x = getref s x;
  g_refx : forall x rf, getref s x = Some rf -> exists rf', getref s' x = Some rf' /\
             (r_t rf' = r_t rf \/ exists y, r_t rf' = Some y /\ (length (objs s) <= y)%nat);
  g_dead : forall x, (x < length (refs s))%nat -> getref s x = None -> getref s' x = None;
  g_obj : forall y b, getobj s y = Some b -> exists c, getobj s' y = Some (with_cnt b c);
  g_none : forall y, (y < length (objs s))%nat -> getobj s y = None -> getobj s' y = None;
  g_mem : forall y b m, (length (objs s) <= y)%nat -> getobj s' y = Some b -> In m (o_mem b) -> (length (refs s) <= m)%nat;
  g_bk : forall x rf y, (length (refs s) <= x)%nat -> getref s' x = Some rf -> r_t rf = Some y -> (y < length (objs s))%nat ->
           exists z rf', getref s z = Some rf' /\ r_t rf' = Some y
}.
Definition nobody : nat -> Prop := fun _ => False.

Lemma grow_refl s : grow nobody s s.
Proof.
  constructor; auto; try lia.
  - intros x rf H. exists rf. auto.
  - intros y b H. exists (o_cnt b). now rewrite with_cnt_same.
  - intros y b m H1 H2 _. exfalso. apply getobj_lt in H2. lia.
  - intros x rf y H1 H2. exfalso. apply getref_lt in H2. lia.
Qed.
Lemma grow_weaken (ex ex' : nat -> Prop) s s' : (forall x, ex x -> (x < length (refs s))%nat -> ex' x) -> grow ex s s' -> grow ex' s s'.
Proof.
  intros H G. constructor; try apply G. intros x L N. apply (g_ref _ _ _ G); [exact L|]. intros E. apply N, H; auto.
Qed.
Lemma grow_trans ex1 ex2 s s1 s2 : grow ex1 s s1 -> grow ex2 s1 s2 -> grow (fun x => ex1 x \/ ex2 x) s s2.
Proof.
  intros A B. pose proof (g_lr _ _ _ A) as LA. pose proof (g_lo _ _ _ A) as OA.
  pose proof (g_lr _ _ _ B) as LB. pose proof (g_lo _ _ _ B) as OB. constructor; try lia.
  - intros x L N. rewrite (g_ref _ _ _ B); [apply (g_ref _ _ _ A); auto|lia|auto].
  - intros x rf H. destruct (g_refx _ _ _ A x rf H) as (rf1 & H1 & T1).
    destruct (g_refx _ _ _ B x rf1 H1) as (rf2 & H2 & T2). exists rf2. split; [exact H2|].
    destruct T2 as [T2|(y & T2 & Hy)]; [rewrite T2; exact T1|right]. exists y. split; [exact T2|lia].
  - intros x L H. apply (g_dead _ _ _ B); [lia|]. apply (g_dead _ _ _ A); auto.
  - intros y b H. destruct (g_obj _ _ _ A y b H) as (c & H1). destruct (g_obj _ _ _ B y _ H1) as (d & H2). exists d. exact H2.
  - intros y L H. apply (g_none _ _ _ B); [lia|]. apply (g_none _ _ _ A); auto.
  - intros y b m L H M. destruct (Nat.ltb_spec y (length (objs s1))) as [Hy|Hy].
    + destruct (getobj s1 y) as [b1|] eqn:E1.
      * destruct (g_obj _ _ _ B y b1 E1) as (c & E2). rewrite H in E2. injection E2 as ->. exact (g_mem _ _ _ A y b1 m L E1 M).
      * rewrite (g_none _ _ _ B y Hy E1) in H. discriminate.
    + pose proof (g_mem _ _ _ B y b m Hy H M). lia.
  - assert (OLD : forall x rf y, getref s1 x = Some rf -> r_t rf = Some y -> (y < length (objs s))%nat ->
                   exists z rf', getref s z = Some rf' /\ r_t rf' = Some y).
    { intros x rf y H1 H2 H3. destruct (Nat.ltb_spec x (length (refs s))) as [Hx|Hx].
      - destruct (getref s x) as [rx|] eqn:E.
        + destruct (g_refx _ _ _ A x rx E) as (rx1 & E1 & T). rewrite H1 in E1. injection E1 as <-.
          exists x, rx. split; [exact E|]. destruct T as [T|(y' & T & Hy')]; [congruence|].
          rewrite H2 in T. injection T as <-. lia.
        + rewrite (g_dead _ _ _ A x Hx E) in H1. discriminate.
      - exact (g_bk _ _ _ A x rf y Hx H1 H2 H3). }
    intros x rf y L H1 H2 H3. destruct (Nat.ltb_spec x (length (refs s1))) as [Hx|Hx].
    + destruct (getref s1 x) as [rx|] eqn:E; [|rewrite (g_dead _ _ _ B x Hx E) in H1; discriminate].
      destruct (g_refx _ _ _ B x rx E) as (rx1 & E1 & T). rewrite H1 in E1. injection E1 as <-.
      destruct T as [T|(y' & T & Hy')].
      * apply (OLD x rx y E); congruence.
      * rewrite H2 in T. injection T as <-. lia.
    + destruct (g_bk _ _ _ B x rf y Hx H1 H2) as (z & rz & Z1 & Z2); [lia|]. exact (OLD z rz y Z1 Z2 H3).
Qed.
Lemma grow_trans_none s s1 s2 : grow nobody s s1 -> grow nobody s1 s2 -> grow nobody s s2.
Proof. intros A B. apply (grow_weaken (fun x => nobody x \/ nobody x)); [intros x [H|H] _; exact H|]. exact (grow_trans _ _ _ _ _ A B). Qed.

Lemma grow_owned ex s s' x : grow ex s s' -> (x < length (refs s))%nat -> In x (owned (objs s')) -> In x (owned (objs s)).
Proof.
  intros G L H. apply owned_in in H as (o & b & E & M). fold (getobj s' o) in E.
  destruct (Nat.ltb_spec o (length (objs s))) as [Ho|Ho].
  - destruct (getobj s o) as [b0|] eqn:E0.
    + destruct (g_obj _ _ _ G o b0 E0) as (c & E1). rewrite E in E1. injection E1 as ->.
      apply owned_in. exists o, b0. auto.
    + rewrite (g_none _ _ _ G o Ho E0) in E. discriminate.
  - pose proof (g_mem _ _ _ G o b x Ho E M). lia.
Qed.
Lemma grow_owned2 ex s s' x : grow ex s s' -> In x (owned (objs s)) -> In x (owned (objs s')).
Proof.
  intros G H. apply owned_in in H as (o & b & E & M). fold (getobj s o) in E. destruct (g_obj _ _ _ G o b E) as (c & E1).
  apply owned_in. exists o, (with_cnt b c). auto.
Qed.
Lemma inv_nil s ws : inv s ws -> inv s [].
Proof.
  intros I. constructor; try apply I.
  - exact (nd_app_r _ _ (i_nd _ _ I)).
  - intros m H. apply (i_live _ _ I), in_or_app. now right.
Qed.
Lemma nd_app_intro {A} (a b : list A) : NoDup a -> NoDup b -> (forall x, In x a -> In x b -> False) -> NoDup (a ++ b).
Proof.
  induction a as [|x a IH]; cbn; intros Ha Hb H; [exact Hb|]. inversion_clear Ha as [|? ? N D].
  constructor; [|apply IH; auto; intros y Y1 Y2; apply (H y); auto]. intros Hin. apply in_app_or in Hin as [Hin|Hin]; [auto|].
  apply (H x); auto.
Qed.
Lemma inv_ws ex s s' ws : inv s ws -> inv s' [] -> grow ex s s' -> inv s' ws.
Proof.
  intros I I' G. constructor; try apply I'.
  - apply nd_app_intro.
    + exact (nd_app_l _ _ (i_nd _ _ I)).
    + exact (i_nd _ _ I').
    + intros x H1 H2. destruct (i_live _ _ I x) as (rf & Hr); [apply in_or_app; now left|].
      apply (grow_owned _ _ _ x G) in H2; [|eapply getref_lt; exact Hr]. exact (nd_app_disj _ _ x (i_nd _ _ I) H1 H2).
  - intros m Hm. apply in_app_or in Hm as [Hm|Hm]; [|apply (i_live _ _ I'); exact Hm].
    destruct (i_live _ _ I m) as (rf & Hr); [apply in_or_app; now left|].
    destruct (g_refx _ _ _ G m rf Hr) as (rf' & Hr' & _). eauto.
Qed.

(** destroying references made since [s0] gives nothing but what was there in [s0] *)
Lemma kill_grow s0 : forall fuel s ws s', grow nobody s0 s -> inv s ws -> (forall w, In w ws -> (length (refs s0) <= w)%nat) ->
  kill fuel s ws = Done tt s' -> grow nobody s0 s'.
Proof.
  induction fuel as [|f IH]; intros s ws s' G I Hw K; destruct ws as [|m ws]; cbn in K; try discriminate; try (injection K as <-; exact G).
  destruct (getref s m) as [rf|] eqn:Hr; [|discriminate].
  assert (Hm : (length (refs s0) <= m)%nat) by (apply Hw; now left).
  assert (L := getref_lt _ _ _ Hr).
  assert (G1 : grow nobody s0 (setref s m None)).
  { constructor; try apply G.
    - cbn. rewrite setn_length. apply G.
    - intros x Lx N. rewrite getref_setref by exact L. destruct (Nat.eqb_spec x m); [lia|]. now apply (g_ref _ _ _ G).
    - intros x rx Hx. rewrite getref_setref by exact L. destruct (Nat.eqb_spec x m); [apply getref_lt in Hx; lia|]. now apply (g_refx _ _ _ G).
    - intros x Lx N. rewrite getref_setref by exact L. destruct (Nat.eqb_spec x m); [lia|]. now apply (g_dead _ _ _ G).
    - intros x rx y Lx Hx. rewrite getref_setref in Hx by exact L. destruct (Nat.eqb_spec x m); [discriminate|]. now apply (g_bk _ _ _ G x rx). }
  pose proof (kill_step s m ws rf I Hr) as St. destruct (r_t rf) as [o|] eqn:Et.
  - destruct St as (b & Hb & St). rewrite Hb in K. cbv zeta in St. assert (Lo := getobj_lt _ _ _ Hb).
    assert (GO : forall x, match x with Some b' => exists c, b' = with_cnt b c | None => (length (objs s0) <= o)%nat end ->
                 grow nobody s0 (setobj (setref s m None) o x)).
    { intros x Hx. constructor; try apply G1.
      - cbn. rewrite setn_length. apply G.
      - intros y c Hy. rewrite getobj_setobj by exact Lo. destruct (g_obj _ _ _ G y c Hy) as (d & Hd).
        destruct (Nat.eqb_spec y o) as [->|Ny]; [|exists d; exact Hd].
        rewrite Hb in Hd. injection Hd as ->. destruct x as [b'|]; [destruct Hx as (e & ->); exists e; reflexivity|].
        apply getobj_lt in Hy. lia.
      - intros y Ly Hy. rewrite getobj_setobj by exact Lo. destruct (Nat.eqb_spec y o) as [->|Ny]; [|now apply (g_none _ _ _ G)].
        rewrite (g_none _ _ _ G o Ly Hy) in Hb. discriminate.
      - intros y c z Ly Hy M. rewrite getobj_setobj in Hy by exact Lo. destruct (Nat.eqb_spec y o) as [->|Ny].
        + subst x. destruct Hx as (e & ->). exact (g_mem _ _ _ G o b z Ly Hb M).
        + exact (g_mem _ _ _ G y c z Ly Hy M). }
    destruct ((o_cnt b - 1 =? 0) && o_anon b) eqn:Ed.
    + destruct St as [I1 _].
      assert (No : (length (objs s0) <= o)%nat).
      { destruct (Nat.ltb_spec o (length (objs s0))) as [Ho|Ho]; [exfalso|exact Ho].
        destruct (g_bk _ _ _ G m rf o Hm Hr Et Ho) as (z & rz & Z1 & Z2).
        assert (Lz := getref_lt _ _ _ Z1). rewrite <- (g_ref _ _ _ G z Lz (fun H => H)) in Z1.
        apply andb_true_iff in Ed as [Ed _]. apply Z.eqb_eq in Ed. rewrite (i_cnt _ _ I o b Hb) in Ed.
        pose proof (tc_ge2 o (refs s) m z rf rz) as T. assert (m <> z) by lia. specialize (T ltac:(lia) Hr Et Z1 Z2). lia. }
      apply (IH _ _ _ (GO None No) I1) in K; [exact K|].
      intros w Hin. apply in_app_or in Hin as [Hin|Hin]; [|apply Hw; now right].
      exact (g_mem _ _ _ G o b w No Hb Hin).
    + destruct St as [I1 _]. apply (IH _ _ _ (GO (Some _) (ex_intro _ _ eq_refl)) I1) in K; [exact K|].
      intros w Hin. apply Hw. now right.
  - destruct St as (I1 & _). apply (IH _ _ _ G1 I1) in K; [exact K|]. intros w Hin. apply Hw. now right.
Qed.

(** ** Views *)
Definition sameview (s s' : st) : Prop := forall k x rf, getref s x = Some rf -> view k s' x = view k s x.
Lemma grow_views s s' : inv s [] -> grow nobody s s' -> sameview s s'.
Proof.
  intros I G k. induction k as [|k IH]; intros x rf H; [reflexivity|]. cbn.
  rewrite (g_ref _ _ _ G x (getref_lt _ _ _ H) (fun F => F)), H. destruct (r_t rf) as [o|] eqn:Et; [|reflexivity].
  destruct (i_tgt _ _ I x rf o H Et) as (b & Hb). destruct (g_obj _ _ _ G o b Hb) as (c & Hc). rewrite Hb, Hc. cbn. f_equal.
  apply map_ext_in. intros m Hm. destruct (i_live _ _ I m) as (mf & Hmf); [apply owned_in; eauto|]. exact (IH m mf Hmf).
Qed.

(** every reference made since [s] is in [ws] or inside an object *)
Definition newown (s s' : st) (ws : list nat) : Prop :=
  forall x rf, (length (refs s) <= x)%nat -> getref s' x = Some rf -> In x (ws ++ owned (objs s')).

(** *** One more reference *)
Definition ext (s : st) (nf : ref) : st :=
  {| refs := refs s ++ [Some nf];
     objs := match r_t nf with
             | None => objs s
             | Some o => match getobj s o with
                         | Some b => setn o (Some (with_cnt b (o_cnt b + 1))) (objs s)
                         | None => objs s
                         end
             end |}.
Lemma getref_ext s nf x : getref (ext s nf) x = if Nat.eqb x (length (refs s)) then Some nf else getref s x.
Proof.
  unfold getref, ext. cbn. destruct (Nat.eqb_spec x (length (refs s))) as [->|N].
  - rewrite app_nth2, Nat.sub_diag by lia. reflexivity.
  - destruct (Nat.ltb_spec x (length (refs s))); [now rewrite app_nth1 by lia|].
    rewrite !nth_overflow; auto. rewrite app_length. cbn. lia.
Qed.
Lemma length_ext s nf : length (refs (ext s nf)) = S (length (refs s)).
Proof. cbn. rewrite app_length. cbn. lia. Qed.
Lemma lobjs_ext s nf : length (objs (ext s nf)) = length (objs s).
Proof. cbn. destruct (r_t nf) as [o|]; [|reflexivity]. destruct (getobj s o); [apply setn_length|reflexivity]. Qed.
Lemma getobj_ext s nf y : getobj (ext s nf) y =
  match getobj s y with
  | Some b => if hits y (Some nf) then Some (with_cnt b (o_cnt b + 1)) else Some b
  | None => None
  end.
Proof.
  unfold ext, hits. unfold getobj at 1. cbn [objs].
  destruct (r_t nf) as [o|] eqn:Et.
  - destruct (getobj s o) as [b|] eqn:Hb.
    + rewrite nth_setn. fold (getobj s y). assert (Lo := getobj_lt _ _ _ Hb). destruct (Nat.ltb_spec o (length (objs s))); [|lia].
      rewrite andb_true_r. destruct (Nat.eqb_spec y o) as [->|N].
      * rewrite Nat.eqb_refl, Hb. reflexivity.
      * destruct (Nat.eqb_spec o y); [congruence|]. destruct (getobj s y); reflexivity.
    + fold (getobj s y). destruct (getobj s y) eqn:Hy; [|reflexivity]. destruct (Nat.eqb_spec o y); [congruence|reflexivity].
  - fold (getobj s y). destruct (getobj s y); reflexivity.
Qed.
Lemma owned_ext s nf : owned (objs (ext s nf)) = owned (objs s).
Proof.
  cbn. destruct (r_t nf) as [o|]; [|reflexivity]. destruct (getobj s o) as [b|] eqn:Hb; [|reflexivity].
  apply owned_same. fold (getobj s o). now rewrite Hb.
Qed.
Lemma ext_inv s ws nf : inv s ws -> (forall o, r_t nf = Some o -> exists b, getobj s o = Some b) ->
  inv (ext s nf) (ws ++ [length (refs s)]).
Proof.
  intros I H. constructor.
  - intros r rf o Hr Ht. rewrite getref_ext in Hr. rewrite getobj_ext.
    assert (E : exists b, getobj s o = Some b).
    { destruct (Nat.eqb_spec r (length (refs s))); [injection Hr as <-; auto|exact (i_tgt _ _ I r rf o Hr Ht)]. }
    destruct E as (b & ->). destruct (hits o _); eauto.
  - intros o b Hb. rewrite getobj_ext in Hb. destruct (getobj s o) as [b0|] eqn:E; [|discriminate].
    cbn [refs ext]. rewrite tc_app, tc_cons. unfold hit. pose proof (i_cnt _ _ I o b0 E) as C.
    change (tc o []) with 0%nat.
    destruct (hits o (Some nf)); injection Hb as <-; cbn [o_cnt with_cnt]; lia.
  - rewrite owned_ext, <- app_assoc. apply (Permutation_NoDup (l := length (refs s) :: ws ++ owned (objs s))).
    + cbn. apply Permutation_middle.
    + constructor; [|apply I]. intros Hin. destruct (i_live _ _ I _ Hin) as (rf & Hr). apply getref_lt in Hr. lia.
  - intros m Hm. rewrite owned_ext in Hm. rewrite getref_ext. destruct (Nat.eqb_spec m (length (refs s))); [eauto|].
    apply (i_live _ _ I). apply in_app_or in Hm as [Hm|Hm]; apply in_or_app; [left|now right].
    apply in_app_or in Hm as [Hm|[Hm|[]]]; [exact Hm|congruence].
Qed.
Lemma ext_grow s nf : (forall o, r_t nf = Some o -> exists z zf, getref s z = Some zf /\ r_t zf = Some o) -> grow nobody s (ext s nf).
Proof.
  intros H. constructor.
  - rewrite length_ext. lia.
  - rewrite lobjs_ext. lia.
  - intros x L _. rewrite getref_ext. destruct (Nat.eqb_spec x (length (refs s))); [lia|reflexivity].
  - intros x rf E. exists rf. rewrite getref_ext. apply getref_lt in E as L. destruct (Nat.eqb_spec x (length (refs s))); [lia|auto].
  - intros x L E. rewrite getref_ext. destruct (Nat.eqb_spec x (length (refs s))); [lia|auto].
  - intros y b E. rewrite getobj_ext, E. destruct (hits y (Some nf)); [eauto|]. exists (o_cnt b). now rewrite with_cnt_same.
  - intros y L E. now rewrite getobj_ext, E.
  - intros y b m L E. exfalso. apply getobj_lt in E. rewrite lobjs_ext in E. lia.
  - intros x rf y L E T _. rewrite getref_ext in E. destruct (Nat.eqb_spec x (length (refs s))).
    + injection E as <-. exact (H y T).
    + apply getref_lt in E. lia.
Qed.
Lemma ext_leak s nf : leakfree s -> leakfree (ext s nf).
Proof.
  intros LF o b E Ea. rewrite getobj_ext in E. destruct (getobj s o) as [b0|] eqn:E0; [|discriminate].
  destruct (hits o (Some nf)); injection E as <-.
  - cbn in *. pose proof (LF o b0 E0 Ea). lia.
  - exact (LF o b0 E0 Ea).
Qed.
Lemma ext_newown s nf : newown s (ext s nf) [length (refs s)].
Proof.
  intros x rf L H. apply getref_lt in H. rewrite length_ext in H. left. lia.
Qed.
Lemma ext_view s ws nf m mf k : inv s ws -> getref s m = Some mf -> r_t mf = r_t nf ->
  view k (ext s nf) (length (refs s)) = view k s m.
Proof.
  intros I H E.
  assert (G : sameview s (ext s nf)).
  { apply grow_views; [exact (inv_nil _ _ I)|]. apply ext_grow. intros o Ho. exists m, mf. split; [exact H|congruence]. }
  destruct k as [|k]; [reflexivity|]. rewrite <- (G (S k) m mf H). cbn [view].
  rewrite !getref_ext, Nat.eqb_refl. apply getref_lt in H as L. destruct (Nat.eqb_spec m (length (refs s))); [lia|].
  rewrite H, E. reflexivity.
Qed.

(** a reference whose flags change *)
Lemma retag_inv s ws r rf rf' : inv s ws -> getref s r = Some rf -> r_t rf' = r_t rf -> inv (setref s r (Some rf')) ws.
Proof.
  intros I H E. assert (L := getref_lt _ _ _ H). constructor.
  - intros x xf o Hx Ht. rewrite getref_setref in Hx by exact L. rewrite getobj_setref. destruct (Nat.eqb_spec x r) as [->|N].
    + injection Hx as <-. apply (i_tgt _ _ I r rf o H). congruence.
    + exact (i_tgt _ _ I x xf o Hx Ht).
  - intros o b Hb. rewrite getobj_setref in Hb. rewrite (i_cnt _ _ I o b Hb). f_equal.
    pose proof (tc_setn o r (Some rf') (refs s) L) as T. unfold getref in H. rewrite H in T.
    rewrite (hit_ext o (Some rf') (Some rf)) in T by (cbn; congruence). cbn [refs setref]. lia.
  - apply I.
  - intros m Hm. rewrite getref_setref by exact L. destruct (Nat.eqb_spec m r); [eauto|]. now apply (i_live _ _ I).
Qed.
Lemma retag_view s r rf rf' : getref s r = Some rf -> r_t rf' = r_t rf -> forall k x, view k (setref s r (Some rf')) x = view k s x.
Proof.
  intros H E k. assert (L := getref_lt _ _ _ H). induction k as [|k IH]; intros x; [reflexivity|]. cbn [view].
  rewrite getref_setref by exact L. destruct (Nat.eqb_spec x r) as [->|N].
  - rewrite H, E. destruct (r_t rf) as [o|]; [|reflexivity]. rewrite getobj_setref. destruct (getobj s o); [|reflexivity].
    f_equal. apply map_ext. exact IH.
  - destruct (getref s x) as [xf|]; [|reflexivity]. destruct (r_t xf) as [o|]; [|reflexivity]. rewrite getobj_setref.
    destruct (getobj s o); [|reflexivity]. f_equal. apply map_ext. exact IH.
Qed.
Lemma retag_grow s r rf rf' : getref s r = Some rf -> r_t rf' = r_t rf -> grow (eq r) s (setref s r (Some rf')).
Proof.
  intros H E. assert (L := getref_lt _ _ _ H). constructor.
  - cbn. rewrite setn_length. lia.
  - cbn. lia.
  - intros x Lx N. rewrite getref_setref by exact L. destruct (Nat.eqb_spec x r); [congruence|reflexivity].
  - intros x xf Hx. rewrite getref_setref by exact L. destruct (Nat.eqb_spec x r) as [->|N]; [|eauto].
    exists rf'. split; [reflexivity|left; congruence].
  - intros x Lx N. rewrite getref_setref by exact L. destruct (Nat.eqb_spec x r); [congruence|exact N].
  - intros y b Hb. exists (o_cnt b). now rewrite with_cnt_same.
  - auto.
  - intros y b m Ly Hb. apply getobj_lt in Hb. cbn in Hb. lia.
  - intros x xf y Lx Hx. apply getref_lt in Hx. cbn in Hx. rewrite setn_length in Hx. lia.
Qed.
Lemma retag_newown s0 s ws r rf rf' : newown s0 s ws -> getref s r = Some rf -> newown s0 (setref s r (Some rf')) ws.
Proof.
  intros N H x xf L Hx. assert (Lr := getref_lt _ _ _ H). rewrite getref_setref in Hx by exact Lr.
  destruct (Nat.eqb_spec x r) as [->|Nx]; [exact (N r rf L H)|exact (N x xf L Hx)].
Qed.

(** *** Specification of privatize, as used by copies *)
Definition pv_spec (pv : st -> nat -> rflags -> Z -> out unit) : Prop :=
  forall s r fl d rf, inv s [] -> getref s r = Some rf ->
  match pv s r fl d with
  | Done _ s' => inv s' [] /\ grow (eq r) s s' /\ newown s s' [] /\ sameview s s' /\
      (leakfree s -> (forall o b, r_t rf = Some o -> getobj s o = Some b -> o_anon b = true -> (2 <= tc o (refs s))%nat) -> leakfree s')
  | Threw s' => inv s' [] /\ grow nobody s s' /\ newown s s' [] /\ (leakfree s -> leakfree s')
  | Undef => False
  | Deep => True
  end.

Definition push (s : st) : st := {| refs := refs s ++ [Some rempty]; objs := objs s |}.
Lemma push_ext s : push s = ext s rempty. Proof. reflexivity. Qed.
Lemma setn_last {A} (l : list A) x y : setn (length l) x (l ++ [y]) = l ++ [x].
Proof. induction l; cbn; congruence. Qed.
Lemma set_push s nf o b : r_t nf = Some o -> getobj s o = Some b ->
  setref (setobj (push s) o (Some (with_cnt b (o_cnt b + 1)))) (length (refs s)) (Some nf) = ext s nf.
Proof.
  intros Et Hb. unfold setref, setobj, push, ext. cbn [refs objs]. rewrite Et, Hb, setn_last. reflexivity.
Qed.

Lemma fresh_copy pv s ws m mf fl d : pv_spec pv -> inv s ws -> getref s m = Some mf ->
  let n := length (refs s) in
  match copy_with pv (push s) n m fl d with
  | Done _ s' => inv s' (ws ++ [n]) /\ grow nobody s s' /\ newown s s' [n] /\ (exists nf, getref s' n = Some nf) /\
      (forall k, view k s' n = view k s m) /\ (leakfree s -> leakfree s')
  | Threw s' => inv s' (ws ++ [n]) /\ grow nobody s s' /\ newown s s' [n] /\ (leakfree s -> leakfree s')
  | Undef => False
  | Deep => True
  end.
Proof.
  intros PV I H n. assert (L := getref_lt _ _ _ H). unfold copy_with.
  destruct (Nat.eqb_spec n m) as [E|_]; [unfold n in E; lia|].
  assert (Hn : getref (push s) n = Some rempty) by (rewrite push_ext, getref_ext, Nat.eqb_refl; reflexivity).
  assert (Hm : getref (push s) m = Some mf).
  { rewrite push_ext, getref_ext. destruct (Nat.eqb_spec m (length (refs s))); [lia|exact H]. }
  unfold detach. rewrite Hn. cbn [r_t rempty]. rewrite Hm. rewrite Hn.
  assert (SH : forall nf, r_t nf = r_t mf -> inv (ext s nf) (ws ++ [n]) /\ grow nobody s (ext s nf) /\ newown s (ext s nf) [n] /\
      (exists nf', getref (ext s nf) n = Some nf') /\ (forall k, view k (ext s nf) n = view k s m) /\ (leakfree s -> leakfree (ext s nf))).
  { intros nf E. split; [|split; [|split; [|split; [|split]]]].
    - apply ext_inv; [exact I|]. intros o Ho. apply (i_tgt _ _ I m mf o H). congruence.
    - apply ext_grow. intros o Ho. exists m, mf. split; [exact H|congruence].
    - apply ext_newown.
    - exists nf. unfold n. now rewrite getref_ext, Nat.eqb_refl.
    - intros k. apply (ext_view s ws nf m mf); auto.
    - apply ext_leak. }
  destruct (r_t mf) as [o|] eqn:Et.
  - destruct (i_tgt _ _ I m mf o H Et) as (b & Hb). change (getobj (push s) o) with (getobj s o). rewrite Hb.
    destruct (f_deep fl || (0 <? d)) eqn:Ed.
    + set (nf := {| r_t := Some o; r_lock := false; r_wr := r_wr rempty; r_sh := r_sh rempty |}).
      pose proof (set_push s nf o b eq_refl Hb) as SP. fold n in SP. rewrite SP; clear SP.
      destruct (SH nf eq_refl) as (I1 & G1 & N1 & _ & V1 & L1).
      assert (Hx : getref (ext s nf) n = Some nf) by (unfold n; now rewrite getref_ext, Nat.eqb_refl).
      pose proof (PV (ext s nf) n fl d nf (inv_nil _ _ I1) Hx) as P.
      destruct (pv (ext s nf) n fl d) as [u s'|s'| |]; auto.
      * destruct P as (I2 & G2 & N2 & V2 & L2).
        split; [exact (inv_ws _ _ _ _ I1 I2 G2)|]. split; [|split; [|split; [|split]]].
        -- apply (grow_weaken (fun x => nobody x \/ n = x)); [|exact (grow_trans _ _ _ _ _ G1 G2)].
           intros x [F|<-] Lx; [exact F|]. unfold n in Lx. lia.
        -- intros x xf Lx Hxf. destruct (Nat.eq_dec x n) as [->|Nx]; [now left|]. right.
           apply (N2 x xf); [rewrite length_ext; unfold n in Nx; lia|exact Hxf].
        -- destruct (g_refx _ _ _ G2 n nf Hx) as (nf' & E & _). eauto.
        -- intros k. rewrite (V2 k n nf Hx). apply V1.
        -- intros LF. apply L2; [exact (L1 LF)|]. intros o' b' Ho' _ _. cbn in Ho'. injection Ho' as <-.
           apply (tc_ge2 o _ n m nf mf); auto; [unfold n; lia|].
           change (getref (ext s nf) m = Some mf). rewrite getref_ext. destruct (Nat.eqb_spec m (length (refs s))); [lia|exact H].
      * destruct P as (I2 & G2 & N2 & L2).
        split; [exact (inv_ws _ _ _ _ I1 I2 G2)|]. split; [exact (grow_trans_none _ _ _ G1 G2)|]. split; [|auto].
        intros x xf Lx Hxf. destruct (Nat.eq_dec x n) as [->|Nx]; [now left|]. right.
        apply (N2 x xf); [rewrite length_ext; unfold n in Nx; lia|exact Hxf].
    + set (nf := {| r_t := Some o; r_lock := f_lock fl; r_wr := r_wr mf;
                    r_sh := if f_sh fl then true else if f_cow fl then false else r_sh mf |}).
      pose proof (set_push s nf o b eq_refl Hb) as SP. fold n in SP. rewrite SP; clear SP. apply SH. reflexivity.
  - replace (setref (push s) n (Some rempty)) with (ext s rempty); [apply SH; reflexivity|].
    unfold setref, push, ext, n. cbn. now rewrite setn_last.
Qed.

Definition viewed (s0 s : st) (n m : nat) : Prop := forall k, view k s n = view k s0 m.
Lemma Forall2_app1 {A B} (P : A -> B -> Prop) l l' x y : Forall2 P l l' -> P x y -> Forall2 P (l ++ [x]) (l' ++ [y]).
Proof. intros H Hxy. apply Forall2_app; auto. Qed.

Lemma clone_members_ok pv lockm fl d s0 : pv_spec pv -> inv s0 [] ->
  forall ms s acc dn, inv s acc -> grow nobody s0 s -> (forall w, In w acc -> (length (refs s0) <= w)%nat) ->
  newown s0 s acc -> Forall2 (viewed s0 s) acc dn -> (forall m, In m ms -> exists mf, getref s0 m = Some mf) ->
  match clone_members (fun s' n m => copy_with pv s' n m fl d) lockm s ms acc with
  | Done ms' s' => inv s' ms' /\ grow nobody s0 s' /\ (forall w, In w ms' -> (length (refs s0) <= w)%nat) /\
       newown s0 s' ms' /\ Forall2 (viewed s0 s') ms' (dn ++ ms) /\ (leakfree s -> leakfree s')
  | Threw s' => inv s' [] /\ grow nobody s0 s' /\ newown s0 s' [] /\ (leakfree s -> leakfree s')
  | Undef => False
  | Deep => True
  end.
Proof.
  intros PV I0. induction ms as [|m ms IH]; intros s acc dn I G Hacc NO V Hms.
  - cbn. rewrite app_nil_r. auto 10.
  - destruct (Hms m) as (mf & Hm0); [now left|].
    assert (Hm : getref s m = Some mf) by (rewrite (g_ref _ _ _ G m (getref_lt _ _ _ Hm0) (fun F => F)); exact Hm0).
    cbn [clone_members]. fold (push s). pose proof (fresh_copy pv s acc m mf fl d PV I Hm) as F. cbv zeta in F.
    set (n := length (refs s)) in *.
    assert (Hn : (length (refs s0) <= n)%nat) by (unfold n; apply G).
    destruct (copy_with pv (push s) n m fl d) as [u s2|s2| |]; auto.
    + destruct F as (I2 & G2 & N2 & (nf & Hnf) & V2 & L2). rewrite Hnf.
      assert (SV : sameview s s2) by (apply grow_views; [exact (inv_nil _ _ I)|exact G2]).
      assert (Lacc : forall w, In w acc -> exists wf, getref s w = Some wf).
      { intros w Hw. apply (i_live _ _ I), in_or_app. now left. }
      set (nf' := {| r_t := r_t nf; r_lock := true; r_wr := r_wr nf; r_sh := r_sh nf |}).
      set (s3 := if lockm then setref s2 n (Some nf') else s2).
      assert (I3 : inv s3 (acc ++ [n])) by (unfold s3; destruct lockm; [apply (retag_inv _ _ n nf); auto|exact I2]).
      assert (G3 : grow nobody s0 s3).
      { assert (GG := grow_trans_none _ _ _ G G2). unfold s3. destruct lockm; [|exact GG].
        apply (grow_weaken (fun x => nobody x \/ n = x)); [intros x [Fx|<-] Lx; [exact Fx|lia]|].
        apply (grow_trans _ _ _ _ _ GG). now apply (retag_grow s2 n nf nf'). }
      assert (NO2 : newown s0 s2 (acc ++ [n])).
      { intros x xf Lx Hx. destruct (Nat.ltb_spec x n) as [Hxn|Hxn].
        - unfold n in Hxn. rewrite (g_ref _ _ _ G2 x Hxn (fun F => F)) in Hx. apply (NO x xf Lx) in Hx.
          apply in_app_or in Hx as [Hx|Hx]; apply in_or_app; [left; apply in_or_app; now left|right].
          exact (grow_owned2 _ _ _ x G2 Hx).
        - apply (N2 x xf Hxn) in Hx. destruct Hx as [<-|Hx]; apply in_or_app; [left; apply in_or_app; right; now left|now right]. }
      assert (NO3 : newown s0 s3 (acc ++ [n])) by (unfold s3; destruct lockm; [apply (retag_newown s0 s2 _ n nf); auto|exact NO2]).
      assert (VV : forall k x, view k s3 x = view k s2 x).
      { intros k x. unfold s3. destruct lockm; [|reflexivity]. now apply (retag_view s2 n nf nf'). }
      assert (V3 : Forall2 (viewed s0 s3) (acc ++ [n]) (dn ++ [m])).
      { apply Forall2_app1.
        - clear - V SV VV Lacc. induction V as [|w y l l' Hwy V IH]; [constructor|]. constructor.
          + intros k. rewrite VV. destruct (Lacc w) as (wf & Hw); [now left|]. rewrite (SV k w wf Hw). apply Hwy.
          + apply IH. intros w' Hw'. apply Lacc. now right.
        - intros k. rewrite VV, V2. apply (grow_views s0 s I0 G k m mf Hm0). }
      assert (L3 : leakfree s -> leakfree s3).
      { intros LF. unfold s3. destruct lockm; [|exact (L2 LF)]. exact (L2 LF). }
      assert (Hacc3 : forall w, In w (acc ++ [n]) -> (length (refs s0) <= w)%nat).
      { intros w Hw. apply in_app_or in Hw as [Hw|[<-|[]]]; auto. }
      pose proof (IH s3 (acc ++ [n]) (dn ++ [m]) I3 G3 Hacc3 NO3 V3 (fun x Hx => Hms x (or_intror Hx))) as R.
      rewrite <- app_assoc in R. cbn [app] in R.
      destruct (clone_members _ _ s3 ms (acc ++ [n])) as [ms' s'|s'| |]; auto.
      * destruct R as (R1 & R2 & R3 & R4 & R5 & R6). auto 10.
      * destruct R as (R1 & R2 & R3 & R4). auto 10.
    + destruct F as (I2 & G2 & N2 & L2).
      assert (NO2 : newown s0 s2 (acc ++ [n])).
      { intros x xf Lx Hx. destruct (Nat.ltb_spec x n) as [Hxn|Hxn].
        - unfold n in Hxn. rewrite (g_ref _ _ _ G2 x Hxn (fun F => F)) in Hx. apply (NO x xf Lx) in Hx.
          apply in_app_or in Hx as [Hx|Hx]; apply in_or_app; [left; apply in_or_app; now left|right].
          exact (grow_owned2 _ _ _ x G2 Hx).
        - apply (N2 x xf Hxn) in Hx. destruct Hx as [<-|Hx]; apply in_or_app; [left; apply in_or_app; right; now left|now right]. }
      destruct (kill_ok (length (refs s2)) s2 (acc ++ [n]) I2 (nlive_le s2)) as (s3 & K & I3 & Sh & L3).
      rewrite K. split; [exact I3|]. split; [|split; [|auto]].
      * apply (kill_grow s0 (length (refs s2)) s2 (acc ++ [n]) s3 (grow_trans_none _ _ _ G G2) I2); [|exact K].
        intros w Hw. apply in_app_or in Hw as [Hw|[<-|[]]]; auto.
      * intros x xf Lx Hx. cbn.
        destruct (k_ref _ _ _ Sh x) as [E|[E _]]; [|congruence]. rewrite Hx in E. symmetry in E.
        pose proof (NO2 x xf Lx E) as Hin. apply in_app_or in Hin as [Hin|Hin].
        -- rewrite (k_gone _ _ _ Sh x Hin) in Hx. discriminate.
        -- apply owned_in in Hin as (y & c & Hy & Hxm). fold (getobj s2 y) in Hy.
           destruct (k_obj _ _ _ Sh y c Hy) as [(e & Ey)|[Ey _]].
           ++ apply owned_in. exists y, (with_cnt c e). auto.
           ++ rewrite (k_mem _ _ _ Sh y c x Hy Ey Hxm) in Hx. discriminate.
Qed.

Lemma tc_mono o (l l' : list (option ref)) : (length l <= length l')%nat ->
  (forall x, (x < length l)%nat -> nth x l' None = nth x l None) -> (tc o l <= tc o l')%nat.
Proof.
  intros L H. assert (E : l = firstn (length l) l').
  { apply (nth_ext _ _ None None); [rewrite firstn_length; lia|]. intros n Hn.
    rewrite <- (H n Hn). rewrite <- (firstn_skipn (length l) l') at 1. rewrite app_nth1; [reflexivity|].
    rewrite firstn_length. lia. }
  rewrite <- (firstn_skipn (length l) l'), tc_app, <- E. lia.
Qed.

(** the clone of an object, before it gets its first reference *)
Definition newobj (s1 : st) (b : ob) (ms : list nat) : st :=
  {| refs := refs s1;
     objs := objs s1 ++ [Some {| o_cnt := 0; o_anon := false; o_sing := false; o_lockm := o_lockm b;
                                 o_data := o_data b; o_mem := ms |}] |}.
Lemma clone_with_ok pv s b o fl d : pv_spec pv -> inv s [] -> getobj s o = Some b ->
  match clone_with pv s b fl d with
  | Done o2 s2 => exists ms s1, o2 = length (objs s1) /\ s2 = newobj s1 b ms /\
      inv s1 ms /\ grow nobody s s1 /\ (forall w, In w ms -> (length (refs s) <= w)%nat) /\
      newown s s1 ms /\ Forall2 (viewed s s1) ms (o_mem b) /\ (leakfree s -> leakfree s1)
  | Threw s' => inv s' [] /\ grow nobody s s' /\ newown s s' [] /\ (leakfree s -> leakfree s')
  | Undef => False
  | Deep => True
  end.
Proof.
  intros PV I Hb. unfold clone_with. destruct (o_sing b).
  { split; [exact I|]. split; [apply grow_refl|]. split; [|auto]. intros x xf L H. apply getref_lt in H. lia. }
  pose proof (clone_members_ok pv (o_lockm b) fl d s PV I (o_mem b) s [] []) as C.
  specialize (C I (grow_refl s)).
  assert (C' := C (fun w H => match H with end)). clear C.
  assert (N0 : newown s s []) by (intros x xf L H; apply getref_lt in H; lia).
  specialize (C' N0 (Forall2_nil _)).
  assert (Hms : forall m, In m (o_mem b) -> exists mf, getref s m = Some mf).
  { intros m Hm. apply (i_live _ _ I). apply owned_in. exists o, b. auto. }
  specialize (C' Hms).
  destruct (clone_members _ _ s (o_mem b) []) as [ms s1|s1| |]; auto.
  destruct C' as (C1 & C2 & C3 & C4 & C5 & C6). exists ms, s1. unfold newobj. auto 10.
Qed.

(** the clone gets its first reference, [r] *)
Definition give (s1 : st) (b : ob) (ms : list nat) (r : nat) (rf : ref) (old : option (nat * ob)) : st :=
  setref {| refs := refs s1;
            objs := (match old with Some (o, b1) => setn o (Some (with_cnt b1 (o_cnt b1 - 1))) (objs s1) | None => objs s1 end)
                    ++ [Some {| o_cnt := 1; o_anon := true; o_sing := false; o_lockm := o_lockm b; o_data := o_data b; o_mem := ms |}] |}
         r (Some rf).

Lemma getobj_give s1 b ms r rf old y : (forall o b1, old = Some (o, b1) -> getobj s1 o = Some b1) ->
  getobj (give s1 b ms r rf old) y =
  if Nat.eqb y (length (objs s1))
  then Some {| o_cnt := 1; o_anon := true; o_sing := false; o_lockm := o_lockm b; o_data := o_data b; o_mem := ms |}
  else match getobj s1 y with
       | Some c => if match old with Some (o, _) => Nat.eqb o y | None => false end then Some (with_cnt c (o_cnt c - 1)) else Some c
       | None => None
       end.
Proof.
  intros Ho. unfold give. rewrite getobj_setref. unfold getobj at 1. cbn [objs].
  set (l := match old with Some (o, b1) => _ | None => _ end).
  assert (Ll : length l = length (objs s1)) by (unfold l; destruct old as [[o b1]|]; [apply setn_length|reflexivity]).
  destruct (Nat.eqb_spec y (length (objs s1))) as [->|N].
  - rewrite app_nth2, Ll, Nat.sub_diag by lia. reflexivity.
  - assert (E : nth y l None = match getobj s1 y with
       | Some c => if match old with Some (o, _) => Nat.eqb o y | None => false end then Some (with_cnt c (o_cnt c - 1)) else Some c
       | None => None end).
    { unfold l. destruct old as [[o b1]|].
      - pose proof (Ho o b1 eq_refl) as H1. assert (Lo := getobj_lt _ _ _ H1). rewrite nth_setn. fold (getobj s1 y).
        destruct (Nat.ltb_spec o (length (objs s1))); [|lia]. rewrite andb_true_r.
        destruct (Nat.eqb_spec y o) as [->|Ny]; [rewrite H1, Nat.eqb_refl; reflexivity|].
        destruct (Nat.eqb_spec o y); [congruence|]. destruct (getobj s1 y); reflexivity.
      - fold (getobj s1 y). destruct (getobj s1 y); reflexivity. }
    rewrite <- E. destruct (Nat.ltb_spec y (length l)); [now rewrite app_nth1 by lia|].
    rewrite !nth_overflow; auto. rewrite app_length. cbn. lia.
Qed.
Lemma getref_give s1 b ms r rf old y : (r < length (refs s1))%nat ->
  getref (give s1 b ms r rf old) y = if Nat.eqb y r then Some rf else getref s1 y.
Proof. intros L. unfold give. rewrite getref_setref by (cbn; exact L). reflexivity. Qed.
Lemma owned_give s1 b ms r rf old : (forall o b1, old = Some (o, b1) -> getobj s1 o = Some b1) ->
  owned (objs (give s1 b ms r rf old)) = owned (objs s1) ++ ms.
Proof.
  intros Ho. unfold give. cbn. unfold owned. rewrite flat_map_app. cbn. rewrite app_nil_r. f_equal.
  destruct old as [[o b1]|]; [|reflexivity]. apply owned_same. specialize (Ho o b1 eq_refl). fold (getobj s1 o). now rewrite Ho.
Qed.

Lemma give_inv s1 b ms r rf1 rf old : inv s1 ms -> getref s1 r = Some rf1 ->
  r_t rf1 = option_map fst old -> (forall o b1, old = Some (o, b1) -> getobj s1 o = Some b1) ->
  r_t rf = Some (length (objs s1)) -> inv (give s1 b ms r rf old) [].
Proof.
  intros I H Hold Ho Et. assert (L := getref_lt _ _ _ H). constructor.
  - intros x xf y Hx Hy. rewrite getobj_give by exact Ho. rewrite getref_give in Hx by exact L.
    destruct (Nat.eqb_spec y (length (objs s1))); [eauto|]. destruct (Nat.eqb_spec x r).
    + injection Hx as <-. congruence.
    + destruct (i_tgt _ _ I x xf y Hx Hy) as (c & ->). destruct (match old with Some _ => _ | None => _ end); eauto.
  - intros y c Hy. rewrite getobj_give in Hy by exact Ho. change (refs (give s1 b ms r rf old)) with (setn r (Some rf) (refs s1)).
    pose proof (tc_setn y r (Some rf) (refs s1) L) as T. fold (getref s1 r) in T. rewrite H in T.
    destruct (Nat.eqb_spec y (length (objs s1))) as [->|N].
    + injection Hy as <-. cbn [o_cnt]. rewrite (hit_some _ rf Et) in T.
      assert (Z0 : tc (length (objs s1)) (refs s1) = 0%nat).
      { apply tc_zero. intros x xf Hx Hxt. destruct (i_tgt _ _ I x xf _ Hx Hxt) as (c & Hc). apply getobj_lt in Hc. lia. }
      assert (Z1 : hit (length (objs s1)) (Some rf1) = 0%nat).
      { unfold hit. cbn. destruct (r_t rf1) as [o'|] eqn:E'; [|reflexivity]. destruct (Nat.eqb_spec o' (length (objs s1))) as [->|]; [|reflexivity].
        exfalso. exact (proj1 (tc_zero _ _) Z0 r rf1 H E'). }
      lia.
    + rewrite (hit_other y _ rf Et) in T by congruence.
      destruct (getobj s1 y) as [c0|] eqn:E; [|discriminate]. pose proof (i_cnt _ _ I y c0 E) as C.
      destruct old as [[o b1]|]; cbn in Hold.
      * destruct (Nat.eqb_spec o y) as [->|Ny]; injection Hy as <-; cbn [o_cnt with_cnt].
        -- rewrite (hit_some _ rf1 Hold) in T. lia.
        -- rewrite (hit_other y o rf1 Hold Ny) in T. lia.
      * injection Hy as <-. rewrite (hit_empty y rf1 Hold) in T. lia.
  - cbn [app]. rewrite owned_give by exact Ho. apply (Permutation_NoDup (Permutation_app_comm _ _)). apply I.
  - intros m Hm. cbn [app] in Hm. rewrite owned_give in Hm by exact Ho. rewrite getref_give by exact L.
    destruct (Nat.eqb_spec m r); [eauto|]. apply (i_live _ _ I). apply in_app_or in Hm as [Hm|Hm]; apply in_or_app; auto.
Qed.
Lemma give_grow s s1 b ms r rf1 rf old : grow nobody s s1 -> getref s1 r = Some rf1 -> (r < length (refs s))%nat ->
  (forall o b1, old = Some (o, b1) -> getobj s1 o = Some b1) ->
  (forall w, In w ms -> (length (refs s) <= w)%nat) ->
  r_t rf = Some (length (objs s1)) -> grow (eq r) s (give s1 b ms r rf old).
Proof.
  intros G H Lr Ho Hms Et. assert (L := getref_lt _ _ _ H). pose proof (g_lo _ _ _ G) as LO. constructor.
  - unfold give. cbn. rewrite setn_length. apply G.
  - unfold give. cbn. rewrite app_length. destruct old as [[o b1]|]; [rewrite setn_length|]; lia.
  - intros x Lx N. rewrite getref_give by exact L. destruct (Nat.eqb_spec x r); [congruence|]. apply (g_ref _ _ _ G); auto.
  - intros x xf Hx. rewrite getref_give by exact L. destruct (Nat.eqb_spec x r) as [->|N].
    + exists rf. split; [reflexivity|right]. exists (length (objs s1)). auto.
    + exact (g_refx _ _ _ G x xf Hx).
  - intros x Lx Hx. rewrite getref_give by exact L. destruct (Nat.eqb_spec x r) as [->|N].
    + rewrite (g_dead _ _ _ G r Lx Hx) in H. discriminate.
    + exact (g_dead _ _ _ G x Lx Hx).
  - intros y c Hy. rewrite getobj_give by exact Ho. apply getobj_lt in Hy as Ly.
    destruct (Nat.eqb_spec y (length (objs s1))); [lia|].
    destruct (g_obj _ _ _ G y c Hy) as (e & ->). destruct (match old with Some _ => _ | None => _ end); [|eauto].
    exists (e - 1). reflexivity.
  - intros y Ly Hy. rewrite getobj_give by exact Ho. destruct (Nat.eqb_spec y (length (objs s1))); [lia|].
    now rewrite (g_none _ _ _ G y Ly Hy).
  - intros y c m Ly Hy Hm. rewrite getobj_give in Hy by exact Ho. destruct (Nat.eqb_spec y (length (objs s1))).
    + injection Hy as <-. apply Hms. exact Hm.
    + destruct (getobj s1 y) as [c0|] eqn:E; [|discriminate]. apply (g_mem _ _ _ G y c0 m Ly E).
      destruct (match old with Some _ => _ | None => _ end); injection Hy as <-; exact Hm.
  - intros x xf y Lx Hx Ht Hy. rewrite getref_give in Hx by exact L. destruct (Nat.eqb_spec x r); [lia|].
    exact (g_bk _ _ _ G x xf y Lx Hx Ht Hy).
Qed.
Lemma give_newown s s1 b ms r rf old : newown s s1 ms -> (r < length (refs s))%nat -> (r < length (refs s1))%nat ->
  (forall o b1, old = Some (o, b1) -> getobj s1 o = Some b1) -> newown s (give s1 b ms r rf old) [].
Proof.
  intros N Lr L Ho x xf Lx Hx. cbn [app]. rewrite owned_give by exact Ho. rewrite getref_give in Hx by exact L.
  destruct (Nat.eqb_spec x r); [lia|]. apply (N x xf Lx) in Hx. apply in_app_or in Hx as [Hx|Hx]; apply in_or_app; auto.
Qed.
(** what is seen does not change when [r] moves to the clone of its target *)
Lemma give_view s s1 b o b1 ms r rf1 rf : inv s [] -> grow nobody s s1 -> inv s1 ms -> getref s r = Some rf1 ->
  r_t rf1 = Some o -> getobj s o = Some b -> getobj s1 o = Some b1 -> Forall2 (viewed s s1) ms (o_mem b) ->
  r_t rf = Some (length (objs s1)) -> sameview s (give s1 b ms r rf (Some (o, b1))).
Proof.
  intros I0 G I H0 Ho Hb0 Hb1 V Et.
  assert (H : getref s1 r = Some rf1) by (rewrite (g_ref _ _ _ G r (getref_lt _ _ _ H0) (fun F => F)); exact H0).
  assert (L := getref_lt _ _ _ H).
  assert (GO : forall o' b1', Some (o, b1) = Some (o', b1') -> getobj s1 o' = Some b1') by (intros ? ? E; injection E as <- <-; exact Hb1).
  assert (S1 : forall k x xf, getref s1 x = Some xf -> view k (give s1 b ms r rf (Some (o, b1))) x = view k s1 x).
  { induction k as [|k IH]; intros x xf Hx; [reflexivity|]. cbn [view]. rewrite getref_give by exact L.
    destruct (Nat.eqb_spec x r) as [->|N].
    - rewrite Et, getobj_give, Nat.eqb_refl by exact GO. cbn [o_data o_mem].
      transitivity (view (S k) s1 r); [|reflexivity]. rewrite (grow_views s s1 I0 G (S k) r rf1 H0).
      cbn [view]. rewrite H0, Ho, Hb0. f_equal.
      assert (Lm : forall w, In w ms -> exists wf, getref s1 w = Some wf) by (intros w Hw; apply (i_live _ _ I), in_or_app; now left).
      set (g := give s1 b ms r rf (Some (o, b1))) in *. clearbody g.
      clear - V IH Lm. induction V as [|w y l l' Hwy V IHV]; [reflexivity|]. cbn. f_equal.
      + destruct (Lm w) as (wf & Hw); [now left|]. rewrite (IH w wf Hw). apply Hwy.
      + apply IHV. intros w' Hw'. apply Lm. now right.
    - rewrite Hx. destruct (r_t xf) as [y|] eqn:Ey; [|reflexivity]. destruct (i_tgt _ _ I x xf y Hx Ey) as (c & Hc).
      rewrite getobj_give by exact GO. assert (Lc := getobj_lt _ _ _ Hc). destruct (Nat.eqb_spec y (length (objs s1))); [lia|].
      rewrite Hc. assert (E : forall c', match (if Nat.eqb o y then Some (with_cnt c c') else Some c) with
         | Some b0 => TNode (o_data b0) (map (view k (give s1 b ms r rf (Some (o, b1)))) (o_mem b0)) | None => TNil end
         = TNode (o_data c) (map (view k (give s1 b ms r rf (Some (o, b1)))) (o_mem c))).
      { intros c'. destruct (Nat.eqb o y); reflexivity. }
      rewrite E. f_equal. apply map_ext_in. intros m Hm.
      destruct (i_live _ _ I m) as (mf & Hmf); [apply in_or_app; right; apply owned_in; eauto|]. exact (IH m mf Hmf). }
  intros k x xf Hx. rewrite <- (grow_views s s1 I0 G k x xf Hx). apply (S1 k x xf).
  rewrite (g_ref _ _ _ G x (getref_lt _ _ _ Hx) (fun F => F)). exact Hx.
Qed.

Lemma priv_ok f : pv_spec (priv f).
Proof.
  induction f as [|f IH]; intros s r fl d rf I H; [exact Logic.I|]. cbn [priv]. rewrite H.
  assert (L := getref_lt _ _ _ H).
  destruct (r_t rf) as [o|] eqn:Et.
  2:{ split; [exact I|]. split; [apply grow_refl|]. split; [|auto]. intros x xf Lx Hx. apply getref_lt in Hx. lia. }
  destruct (i_tgt _ _ I r rf o H Et) as (b & Hb). rewrite Hb. cbv zeta.
  destruct (_ || f_deep fl) eqn:Ec.
  - pose proof (clone_with_ok (priv f) s b o (masked fl) (d - 1) IH I Hb) as C.
    destruct (clone_with (priv f) s b (masked fl) (d - 1)) as [o2 s2|s2| |]; auto.
    destruct C as (ms & s1 & -> & -> & I1 & G1 & Hms & N1 & V1 & L1).
    destruct (g_obj _ _ _ G1 o b Hb) as (c1 & Hb1). assert (Lo1 := getobj_lt _ _ _ Hb1).
    assert (H1 : getref s1 r = Some rf) by (rewrite (g_ref _ _ _ G1 r L (fun F => F)); exact H).
    assert (Lr1 := getref_lt _ _ _ H1).
    assert (E1 : getobj (newobj s1 b ms) o = Some (with_cnt b c1)).
    { unfold getobj, newobj. cbn [objs]. rewrite app_nth1 by exact Lo1. exact Hb1. }
    assert (E2 : getobj (newobj s1 b ms) (length (objs s1)) =
       Some {| o_cnt := 0; o_anon := false; o_sing := false; o_lockm := o_lockm b; o_data := o_data b; o_mem := ms |}).
    { unfold getobj, newobj. cbn [objs]. rewrite app_nth2, Nat.sub_diag by lia. reflexivity. }
    rewrite E1, E2. cbn [with_cnt with_anon o_cnt o_anon o_sing o_lockm o_data o_mem].
    set (b1 := with_cnt b c1) in *.
    set (rf2 := {| r_t := Some (length (objs s1)); r_lock := false; r_wr := negb (f_ro fl); r_sh := false |}).
    match goal with |- context [setref (setobj (setobj ?a o ?x) ?o2 ?y) r (Some rf2)] =>
      set (s3 := setref (setobj (setobj a o x) o2 y) r (Some rf2)) end.
    assert (E3 : s3 = give s1 b ms r rf2 (Some (o, b1))).
    { unfold s3, give, newobj, setref, setobj. cbn [refs objs]. f_equal.
      assert (A1 : forall l (x y : option ob), (o < length l)%nat -> setn o x (l ++ [y]) = setn o x l ++ [y]).
      { clear. intros l. revert o. induction l as [|a l IHl]; intros [|o] x y Ho; cbn in *; try lia; auto. rewrite IHl by lia. reflexivity. }
      rewrite A1 by exact Lo1. rewrite <- (setn_length o (Some (with_cnt b1 (o_cnt b1 - 1))) (objs s1)) at 1.
      rewrite setn_last. reflexivity. }
    assert (GO : forall o' b1', Some (o, b1) = Some (o', b1') -> getobj s1 o' = Some b1') by (intros ? ? E; injection E as <- <-; exact Hb1).
    assert (I3 : inv s3 []) by (rewrite E3; apply (give_inv s1 b ms r rf rf2); auto).
    assert (G3 : grow (eq r) s s3) by (rewrite E3; apply (give_grow s s1 b ms r rf); auto).
    assert (N3 : newown s s3 []) by (rewrite E3; apply give_newown; auto).
    assert (V3 : sameview s s3) by (rewrite E3; apply (give_view s s1 b o b1 ms r rf); auto).
    assert (H3 : getref s3 r = Some rf2) by (rewrite E3, getref_give, Nat.eqb_refl by exact Lr1; reflexivity).
    rewrite H3. set (rf3 := {| r_t := r_t rf2; r_lock := _; r_wr := true; r_sh := _ |}).
    split; [apply (retag_inv _ _ r rf2); auto|]. split; [|split; [|split]].
    + apply (grow_weaken (fun x => r = x \/ r = x)); [intros x [E|E] _; exact E|].
      apply (grow_trans _ _ _ _ _ G3). now apply (retag_grow s3 r rf2 rf3).
    + apply (retag_newown s s3 _ r rf2); auto.
    + intros k x xf Hx. rewrite (retag_view s3 r rf2 rf3 H3 eq_refl). exact (V3 k x xf Hx).
    + intros LF H2. intros y c Hy Hya. rewrite getobj_setref, E3, getobj_give in Hy by exact GO.
      destruct (Nat.eqb_spec y (length (objs s1))); [injection Hy as <-; cbn; lia|].
      destruct (getobj s1 y) as [c0|] eqn:E0; [|discriminate].
      destruct (Nat.eqb_spec o y) as [<-|Ny].
      * rewrite Hb1 in E0. injection E0 as <-. injection Hy as <-. cbn in Hya. cbn [o_cnt with_cnt].
        pose proof (i_cnt _ _ I1 o b1 Hb1) as C1. specialize (H2 o b eq_refl Hb Hya).
        unfold b1 in *; cbn [o_cnt with_cnt] in *. assert (tc o (refs s) <= tc o (refs s1))%nat; [|lia].
        apply tc_mono; [apply G1|]. intros x Lx. exact (g_ref _ _ _ G1 x Lx (fun F => F)).
      * injection Hy as <-. exact (L1 LF y c0 E0 Hya).
  - match goal with |- context [setref s r (Some ?x)] => set (rf3 := x) end.
    assert (E3 : r_t rf3 = r_t rf) by (rewrite Et; reflexivity).
    split; [apply (retag_inv _ _ r rf); auto|]. split; [now apply (retag_grow s r rf rf3)|]. split; [|split].
    + intros x xf Lx Hx. apply getref_lt in Hx. cbn in Hx. rewrite setn_length in Hx. lia.
    + intros k x xf Hx. now apply (retag_view s r rf rf3).
    + intros LF _. exact LF.
Qed.

(** ** All operations *)
(** an invalid reference is made to point to [o], whose count goes up *)
Lemma point_inv s ws r rf o b nf : inv s ws -> getref s r = Some rf -> r_t rf = None -> getobj s o = Some b -> r_t nf = Some o ->
  forall b', o_cnt b' = o_cnt b + 1 -> o_mem b' = o_mem b -> inv (setref (setobj s o (Some b')) r (Some nf)) ws.
Proof.
  intros I H Et Hb En b' Ec Em. assert (L := getref_lt _ _ _ H). assert (Lo := getobj_lt _ _ _ Hb).
  assert (L' : (r < length (refs (setobj s o (Some b'))))%nat) by exact L.
  constructor.
  - intros x xf y Hx Ht. rewrite getref_setref in Hx by exact L'. rewrite getobj_setref, getobj_setobj by exact Lo.
    destruct (Nat.eqb_spec y o); [eauto|]. destruct (Nat.eqb_spec x r); [injection Hx as <-; congruence|].
    exact (i_tgt _ _ I x xf y Hx Ht).
  - intros y c Hy. rewrite getobj_setref, getobj_setobj in Hy by exact Lo. cbn [refs setref setobj].
    pose proof (tc_setn y r (Some nf) (refs s) L) as T. fold (getref s r) in T. rewrite H, (hit_empty y rf Et) in T.
    destruct (Nat.eqb_spec y o) as [->|N].
    + injection Hy as <-. rewrite (hit_some o nf En) in T. pose proof (i_cnt _ _ I o b Hb). lia.
    + rewrite (hit_other y o nf En) in T by congruence. pose proof (i_cnt _ _ I y c Hy). lia.
  - cbn [objs setref setobj]. rewrite owned_same; [apply I|]. fold (getobj s o). rewrite Hb. cbn. exact Em.
  - cbn [objs setref setobj]. rewrite owned_same by (fold (getobj s o); rewrite Hb; cbn; exact Em).
    intros m Hm. rewrite getref_setref by exact L'. destruct (Nat.eqb_spec m r); [eauto|]. now apply (i_live _ _ I).
Qed.
Lemma point_leak s ws r o b nf b' : inv s ws -> leakfree s -> getobj s o = Some b -> o_cnt b' = o_cnt b + 1 ->
  leakfree (setref (setobj s o (Some b')) r (Some nf)).
Proof.
  intros I LF Hb Ec y c Hy Ha. rewrite getobj_setref, getobj_setobj in Hy by (eapply getobj_lt; exact Hb).
  destruct (Nat.eqb_spec y o); [|exact (LF y c Hy Ha)]. injection Hy as <-. rewrite (i_cnt _ _ I o b Hb) in Ec. lia.
Qed.
(** the target of [x] moves to the invalid reference [r] *)
Lemma move_inv s ws r rf x xf nf : inv s ws -> r <> x -> getref s r = Some rf -> r_t rf = None -> getref s x = Some xf ->
  r_t nf = r_t xf -> inv (setref (setref s r (Some nf)) x (Some rempty)) ws /\
  (forall o, tc o (refs (setref (setref s r (Some nf)) x (Some rempty))) = tc o (refs s)).
Proof.
  intros I N H Et Hx En. assert (L := getref_lt _ _ _ H). assert (Lx := getref_lt _ _ _ Hx).
  assert (Lx' : (x < length (refs (setref s r (Some nf))))%nat) by (cbn; rewrite setn_length; exact Lx).
  assert (TC : forall o, tc o (refs (setref (setref s r (Some nf)) x (Some rempty))) = tc o (refs s)).
  { intros o. cbn [refs setref]. pose proof (tc_setn o r (Some nf) (refs s) L) as T1. fold (getref s r) in T1.
    pose proof (tc_setn o x (Some rempty) (setn r (Some nf) (refs s))) as T2. rewrite setn_length in T2. specialize (T2 Lx).
    rewrite nth_setn in T2. destruct (Nat.eqb_spec x r); [congruence|]. cbn [andb] in T2. fold (getref s x) in T2.
    rewrite H, (hit_empty o rf Et) in T1. rewrite Hx, (hit_empty o rempty eq_refl) in T2.
    rewrite (hit_ext o (Some nf) (Some xf)) in T1 by (cbn; congruence). lia. }
  split; [|exact TC]. constructor.
  - intros y yf o Hy Ht. rewrite !getobj_setref. rewrite getref_setref in Hy by exact Lx'. destruct (Nat.eqb_spec y x); [injection Hy as <-; discriminate|].
    rewrite getref_setref in Hy by exact L. destruct (Nat.eqb_spec y r).
    + injection Hy as <-. apply (i_tgt _ _ I x xf o Hx). congruence.
    + exact (i_tgt _ _ I y yf o Hy Ht).
  - intros o b Hb. rewrite TC. exact (i_cnt _ _ I o b Hb).
  - apply I.
  - intros m Hm. rewrite getref_setref by exact Lx'. destruct (Nat.eqb_spec m x); [eauto|].
    rewrite getref_setref by exact L. destruct (Nat.eqb_spec m r); [eauto|]. now apply (i_live _ _ I).
Qed.
Lemma anon_inv s ws o b a : inv s ws -> getobj s o = Some b -> inv (setobj s o (Some (with_anon b a))) ws.
Proof.
  intros I Hb. assert (Lo := getobj_lt _ _ _ Hb).
  assert (Ow : owned (objs (setobj s o (Some (with_anon b a)))) = owned (objs s)).
  { cbn. apply owned_same. fold (getobj s o). now rewrite Hb. }
  constructor.
  - intros x xf y Hx Ht. rewrite getobj_setobj by exact Lo. destruct (Nat.eqb_spec y o); [eauto|]. exact (i_tgt _ _ I x xf y Hx Ht).
  - intros y c Hy. rewrite getobj_setobj in Hy by exact Lo. destruct (Nat.eqb_spec y o) as [->|]; [|exact (i_cnt _ _ I y c Hy)].
    injection Hy as <-. exact (i_cnt _ _ I o b Hb).
  - rewrite Ow. apply I.
  - rewrite Ow. apply I.
Qed.
Lemma data_inv s ws o b v : inv s ws -> getobj s o = Some b -> inv (setobj s o (Some (with_data b v))) ws.
Proof.
  intros I Hb. assert (Lo := getobj_lt _ _ _ Hb).
  assert (Ow : owned (objs (setobj s o (Some (with_data b v)))) = owned (objs s)).
  { cbn. apply owned_same. fold (getobj s o). now rewrite Hb. }
  constructor.
  - intros x xf y Hx Ht. rewrite getobj_setobj by exact Lo. destruct (Nat.eqb_spec y o); [eauto|]. exact (i_tgt _ _ I x xf y Hx Ht).
  - intros y c Hy. rewrite getobj_setobj in Hy by exact Lo. destruct (Nat.eqb_spec y o) as [->|]; [|exact (i_cnt _ _ I y c Hy)].
    injection Hy as <-. exact (i_cnt _ _ I o b Hb).
  - rewrite Ow. apply I.
  - rewrite Ow. apply I.
Qed.
Lemma data_leak s o b v : leakfree s -> getobj s o = Some b -> leakfree (setobj s o (Some (with_data b v))).
Proof.
  intros LF Hb y c Hy Ha. rewrite getobj_setobj in Hy by (eapply getobj_lt; exact Hb).
  destruct (Nat.eqb_spec y o); [|exact (LF y c Hy Ha)]. injection Hy as <-. exact (LF o b Hb Ha).
Qed.

Definition good {A} (x : out A) (P : st -> Prop) : Prop :=
  match x with Done _ s' => P s' | Threw s' => P s' | Undef => False | Deep => True end.

Lemma live_get s r : live_ref s r -> exists rf, getref s r = Some rf.
Proof. unfold live_ref. destruct (getref s r) as [rf|]; [eauto|congruence]. Qed.
Lemma liveo_get s o : live_obj s o -> exists b, getobj s o = Some b.
Proof. unfold live_obj. destruct (getobj s o) as [b|]; [eauto|congruence]. Qed.

(** what [detach] of the destination leaves *)
Lemma detach_dest s r (P : st -> Prop) : inv s [] -> live_ref s r -> keeps s r P ->
  match detach s r with
  | Done _ s1 => inv s1 [] /\ P s1 /\ (leakfree s -> leakfree s1) /\ exists rf, getref s1 r = Some rf /\ r_t rf = None
  | Threw s1 => s1 = s
  | _ => False
  end.
Proof.
  intros I Lr K. destruct (live_get _ _ Lr) as (rf & H). pose proof (detach_ok s r rf I H) as D. unfold keeps in K.
  destruct (detach s r) as [[] s1|s1| |]; auto.
  - destruct D as (I1 & D1 & L1 & _). destruct (K s1 eq_refl) as [Lr1 HP]. split; [exact I1|]. split; [exact HP|]. split; [exact L1|].
    destruct (d_r _ _ _ D1) as [(rf' & E & T & _)|[E _]]; [eauto|]. unfold live_ref in Lr1. congruence.
  - apply D.
Qed.

Lemma copy_step fuel s r x fl d : inv s [] -> valid_op s (Copy r x fl d) ->
  good (copy fuel s r x fl d) (fun s' => inv s' [] /\ (leakfree s -> leakfree s')).
Proof.
  intros I (Lr & Lx & K). unfold copy, copy_with. destruct (Nat.eqb_spec r x) as [E|N]; [cbn; auto|].
  pose proof (detach_dest s r _ I Lr (K N)) as D. destruct (detach s r) as [u s1|s1| |]; cbn; auto.
  2:{ subst. auto. }
  destruct D as (I1 & Lx1 & LF1 & rf & H & Et). destruct (live_get _ _ Lx1) as (xf & Hx). rewrite Hx, H.
  destruct (r_t xf) as [o|] eqn:Ex.
  2:{ cbn. split; [|exact LF1]. apply (retag_inv _ _ r rf); auto. }
  destruct (i_tgt _ _ I1 x xf o Hx Ex) as (b & Hb). rewrite Hb.
  destruct (f_deep fl || (0 <? d)) eqn:Ed.
  - set (nf := {| r_t := Some o; r_lock := false; r_wr := r_wr rf; r_sh := r_sh rf |}).
    set (s2 := setref _ r (Some nf)).
    assert (I2 : inv s2 []) by (apply (point_inv s1 [] r rf o b nf); auto).
    assert (H2 : getref s2 r = Some nf).
    { unfold s2. rewrite getref_setref, Nat.eqb_refl; [reflexivity|]. cbn. eapply getref_lt; exact H. }
    assert (Hx2 : getref s2 x = Some xf).
    { unfold s2. rewrite getref_setref by (cbn; eapply getref_lt; exact H). destruct (Nat.eqb_spec x r); [congruence|exact Hx]. }
    pose proof (priv_ok fuel s2 r fl d nf I2 H2) as P. destruct (priv fuel s2 r fl d) as [u' s3|s3| |]; auto.
    + destruct P as (P1 & _ & _ & _ & P5). split; [exact P1|]. intros LF. apply P5.
      * apply (point_leak s1 [] r o b nf); auto.
      * intros o' b' E _ _. cbn in E. injection E as <-. exact (tc_ge2 o _ r x nf xf N H2 eq_refl Hx2 Ex).
    + destruct P as (P1 & _ & _ & P5). split; [exact P1|]. intros LF. apply P5. apply (point_leak s1 [] r o b nf); auto.
  - cbn. split.
    + apply (point_inv s1 [] r rf o b); auto.
    + intros LF. apply (point_leak s1 [] r o b); auto.
Qed.

Lemma not_deep_or fl d : f_deep fl || (0 <? d) = true -> is_deep fl d.
Proof. intros H. apply orb_true_iff in H as [H|H]; [now left|right]. now apply Z.ltb_lt. Qed.

Lemma xfer_step fuel s r x fl d : inv s [] -> valid_op s (Xfer r x fl d) ->
  good (xfer fuel s r x fl d) (fun s' => inv s' [] /\ (leakfree s -> careful s (Xfer r x fl d) -> leakfree s')).
Proof.
  intros I (Lr & Lx & K). unfold xfer. destruct (Nat.eqb_spec r x) as [E|N]; [cbn; auto|].
  pose proof (detach_dest s r _ I Lr (K N)) as D. destruct (detach s r) as [[] s1|s1| |] eqn:Edt; cbn [good]; auto.
  2:{ subst. auto. }
  destruct D as (I1 & Lx1 & LF1 & rf & H & Et). destruct (live_get _ _ Lx1) as (xf & Hx). rewrite Hx, H.
  destruct (r_t xf) as [o|] eqn:Ex.
  2:{ cbn [good]. split; [|auto]. apply (retag_inv _ _ r rf); auto. }
  destruct (i_tgt _ _ I1 x xf o Hx Ex) as (b & Hb). rewrite Hb.
  destruct (r_lock xf); [cbn [good]; split; auto|].
  set (nf := {| r_t := Some o; r_lock := _; r_wr := _; r_sh := _ |}). set (s2 := setref (setref s1 r (Some nf)) x (Some rempty)).
  destruct (move_inv s1 [] r rf x xf nf I1 N H Et Hx (eq_sym Ex)) as [I2 TC]. fold s2 in I2, TC.
  destruct (f_deep fl || (0 <? d)) eqn:Ed; [|cbn [good]; split; [exact I2|auto]].
  assert (H2 : getref s2 r = Some nf).
  { unfold s2. rewrite getref_setref by (cbn; rewrite setn_length; eapply getref_lt; exact Hx). destruct (Nat.eqb_spec r x); [congruence|].
    rewrite getref_setref, Nat.eqb_refl; [reflexivity|eapply getref_lt; exact H]. }
  pose proof (priv_ok fuel s2 r fl d nf I2 H2) as P. destruct (priv fuel s2 r fl d) as [u' s3|s3| |]; auto.
  - destruct P as (P1 & _ & _ & _ & P5). split; [exact P1|]. intros LF C. apply P5; [exact (LF1 LF)|].
    intros o' b' E Hb' Ha. cbn in E. injection E as <-. change (getobj s2 o) with (getobj s1 o) in Hb'.
    destruct C as [C|C]; [exfalso; apply C; now apply not_deep_or|]. specialize (C N s1 Edt).
    rewrite TC. pose proof (tc_ge1 o (refs s1) x xf Hx Ex). destruct (Nat.eq_dec (tc o (refs s1)) 1); [|lia].
    exfalso. apply C. exists xf, o, b'. auto.
  - destruct P as (P1 & _ & _ & P5). split; [exact P1|]. intros LF C. apply P5. exact (LF1 LF).
Qed.

Lemma hook_inv s r rf o b nf a : inv s [] -> getref s r = Some rf -> r_t rf = None -> getobj s o = Some b -> r_t nf = Some o ->
  inv (setref (setobj s o (Some (with_cnt (with_anon b a) (o_cnt b + 1)))) r (Some nf)) [] /\
  (leakfree s -> leakfree (setref (setobj s o (Some (with_cnt (with_anon b a) (o_cnt b + 1)))) r (Some nf))).
Proof.
  intros I H Et Hb En. split.
  - apply (point_inv s [] r rf o b nf); auto.
  - intros LF. apply (point_leak s [] r o b nf); auto.
Qed.
Lemma setn_setn {A} n (x y : A) l : setn n x (setn n y l) = setn n x l.
Proof. revert n. induction l as [|z l IH]; intros [|n]; cbn; auto. now rewrite IH. Qed.

Lemma attach_step fuel s r o fl : inv s [] -> valid_op s (Attach r o fl) ->
  good (attach fuel s r o fl) (fun s' => inv s' [] /\ (leakfree s -> leakfree s')).
Proof.
  intros I (Lr & Lo & K). unfold attach. destruct (live_get _ _ Lr) as (rf0 & H0). rewrite H0.
  destruct (match r_t rf0 with Some o' => Nat.eqb o o' | None => false end) eqn:Es; [cbn; auto|].
  destruct (liveo_get _ _ Lo) as (b0 & Hb0). rewrite Hb0.
  assert (K' : keeps s r (fun s1 => live_obj s1 o)).
  { apply K. intros rf E. rewrite H0 in E. injection E as <-. intros E. rewrite E, Nat.eqb_refl in Es. discriminate. }
  pose proof (detach_dest s r _ I Lr K') as D. destruct (detach s r) as [u s1|s1| |]; cbn [good]; auto.
  2:{ subst. auto. }
  destruct D as (I1 & Lo1 & LF1 & rf & H & Et). destruct (liveo_get _ _ Lo1) as (b & Hb). rewrite Hb, H. cbv zeta.
  assert (Lob := getobj_lt _ _ _ Hb).
  assert (HK : forall a (nf : ref), r_t nf = Some o ->
     let s' := setref (setobj (setobj s1 o (Some (with_anon b a))) o (Some (with_cnt (with_anon b a) (o_cnt (with_anon b a) + 1)))) r (Some nf) in
     inv s' [] /\ (leakfree s -> leakfree s')).
  { intros a nf En s'. unfold s', setobj. cbn [objs]. rewrite setn_setn.
    destruct (hook_inv s1 r rf o b nf a I1 H Et Hb En) as [A B]. split; [exact A|]. intros LF. exact (B (LF1 LF)). }
  assert (GA : forall a, getobj (setobj s1 o (Some (with_anon b a))) o = Some (with_anon b a)).
  { intros a. rewrite getobj_setobj, Nat.eqb_refl by exact Lob. reflexivity. }
  destruct (o_cnt b =? 0) eqn:Ec.
  - destruct (f_own fl) eqn:Ew.
    + rewrite GA. cbn [good]. apply HK. reflexivity.
    + rewrite GA. cbn [good]. apply HK. reflexivity.
    + match goal with |- context [clone_with ?p s1 b ?fl' 0] => pose proof (clone_with_ok p s1 b o fl' 0 (priv_ok fuel) I1 Hb) as C;
        destruct (clone_with p s1 b fl' 0) as [o2 s2|s2| |] end; cbn [good]; auto.
      2:{ destruct C as (C1 & _ & _ & C4). auto. }
      destruct C as (ms & s3 & -> & -> & I3 & G3 & Hms & N3 & V3 & L3).
      assert (E2 : getobj (newobj s3 b ms) (length (objs s3)) =
         Some {| o_cnt := 0; o_anon := false; o_sing := false; o_lockm := o_lockm b; o_data := o_data b; o_mem := ms |}).
      { unfold getobj, newobj. cbn [objs]. rewrite app_nth2, Nat.sub_diag by lia. reflexivity. }
      rewrite E2. assert (L2 := getobj_lt _ _ _ E2).
      rewrite getobj_setobj, Nat.eqb_refl by exact L2. cbn [good with_anon with_cnt o_cnt o_anon o_sing o_lockm o_data o_mem].
      assert (H3 : getref s3 r = Some rf) by (rewrite (g_ref _ _ _ G3 r (getref_lt _ _ _ H) (fun F => F)); exact H).
      match goal with |- inv ?X [] /\ _ => assert (E3 : exists nf, r_t nf = Some (length (objs s3)) /\ X = give s3 b ms r nf None) end.
      { eexists. split; [|unfold give, newobj, setref, setobj; cbn [refs objs]; rewrite !setn_last; reflexivity]. reflexivity. }
      destruct E3 as (nf & En & ->). split.
      * apply (give_inv s3 b ms r rf nf None); auto. discriminate.
      * intros LF y c Hy Ha. rewrite getobj_give in Hy by discriminate. destruct (Nat.eqb_spec y (length (objs s3))).
        -- injection Hy as <-. cbn [o_cnt]. lia.
        -- destruct (getobj s3 y) as [c0|] eqn:E; [|discriminate]. injection Hy as <-. exact (L3 (LF1 LF) y c0 E Ha).
  - cbn [good]. split.
    + apply (point_inv s1 [] r rf o b); auto.
    + intros LF. apply (point_leak s1 [] r o b); auto.
Qed.
