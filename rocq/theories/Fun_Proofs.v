(** Proofs about Function nodes. *)
From Coq Require Import Sorted.
From Verif Require Import Base Poll_Model Vel_Model Fun_Model Fun_Spec.
Local Open Scope Z_scope.

(** ** merging spids *)
Lemma get_app a x b : get_at (a ++ x :: b) (length a) = x.
Proof. unfold get_at. rewrite app_nth2 by lia. rewrite Nat.sub_diag. reflexivity. Qed.
Lemma put_app a x b y : put_at (a ++ x :: b) (length a) y = a ++ y :: b.
Proof. induction a as [|z a IH]; cbn; [reflexivity|]. now rewrite IH. Qed.
Lemma put_app2 a b i y : put_at (a ++ b) (length a + i) y = a ++ put_at b i y.
Proof. induction a as [|z a IH]; cbn; [reflexivity|]. now rewrite IH. Qed.

Fixpoint span_le (s : Z) (l : list Z) : list Z * list Z :=
  match l with [] => ([], []) | p :: l' => if p <=? s then let (a, b) := span_le s l' in (p :: a, b) else ([], l) end.
Lemma span_app s l : fst (span_le s l) ++ snd (span_le s l) = l.
Proof. induction l as [|p l IH]; [reflexivity|]. cbn [span_le]. destruct (p <=? s); [|reflexivity]. destruct (span_le s l). cbn in *. now rewrite IH. Qed.
Fixpoint lmerge (child prev : list Z) (lst : Z) {struct child} : list Z :=
  match child with
  | [] => prev
  | s :: child => let (a, b) := span_le s prev in let lst := last a lst in
                  a ++ (if s =? lst then [] else [s]) ++ lmerge child b lst
  end.
Lemma shift A (p : Z) gap rest : exists gap', length gap' = length gap /\ put_at (A ++ gap ++ p :: rest) (length A) p = (A ++ [p]) ++ gap' ++ rest.
Proof.
  destruct gap as [|g gap].
  - exists []. split; [reflexivity|]. cbn [app]. rewrite put_app. now rewrite <- app_assoc.
  - exists (gap ++ [p]). split; [rewrite app_length; cbn; lia|]. change ((g :: gap) ++ p :: rest) with (g :: gap ++ p :: rest). rewrite put_app, <- !app_assoc. reflexivity.
Qed.
Lemma last_cons {A} (p : A) a d : last (p :: a) d = last a p.
Proof. revert p d. induction a as [|x a IH]; intros p d; [reflexivity|]. change (last (p :: x :: a) d) with (last (x :: a) d). now rewrite !IH. Qed.
Lemma copy_le_ok s post : forall prev A gap lst, exists gap', length gap' = length gap /\
  copy_le (length prev) (A ++ gap ++ prev ++ post) (length A + length gap) (length A) lst s =
  ((A ++ fst (span_le s prev)) ++ gap' ++ snd (span_le s prev) ++ post, (length A + length gap + length (fst (span_le s prev)))%nat,
   (length A + length (fst (span_le s prev)))%nat, last (fst (span_le s prev)) lst).
Proof.
  induction prev as [|p prev IH]; intros A gap lst.
  - exists gap. split; [reflexivity|]. cbn. rewrite app_nil_r, !Nat.add_0_r. reflexivity.
  - cbn [length copy_le span_le].
    assert (G : get_at (A ++ gap ++ (p :: prev) ++ post) (length A + length gap) = p).
    { rewrite <- app_length, app_assoc. apply get_app. }
    rewrite G. destruct (p <=? s).
    + destruct (shift A p gap (prev ++ post)) as (gap' & L & E). change ((p :: prev) ++ post) with (p :: prev ++ post). rewrite E.
      destruct (IH (A ++ [p]) gap' p) as (gap2 & L2 & E2). rewrite app_length in E2. cbn [length] in E2. rewrite L in E2.
      replace (S (length A + length gap)) with (length A + 1 + length gap)%nat by lia. replace (S (length A)) with (length A + 1)%nat by lia.
      exists gap2. split; [lia|]. rewrite E2. destruct (span_le s prev) as [a b]. cbn [fst snd length]. rewrite last_cons. rewrite <- (app_assoc A [p] a). cbn [app].
      replace (length A + 1 + length gap + length a)%nat with (length A + length gap + S (length a))%nat by lia.
      replace (length A + 1 + length a)%nat with (length A + S (length a))%nat by lia. reflexivity.
    + exists gap. split; [reflexivity|]. cbn [fst snd length last]. rewrite app_nil_r, !Nat.add_0_r. reflexivity.
Qed.
Lemma merge_spids_ok post : forall child prev A gap lst, (length child <= length gap)%nat ->
  exists m b gap', lmerge child prev lst = m ++ b /\
  merge_spids child (A ++ gap ++ prev ++ post) (length A + length gap) (length A + length gap + length prev) (length A) lst =
    ((A ++ m) ++ gap' ++ b ++ post, (length (A ++ m) + length gap')%nat, length (A ++ m)) /\
  (length (A ++ m) + length gap' + length b = length A + length gap + length prev)%nat.
Proof.
  induction child as [|s child IH]; intros prev A gap lst L.
  - exists [], prev, gap. split; [reflexivity|]. cbn [merge_spids]. rewrite !app_nil_r. auto.
  - cbn [merge_spids lmerge length] in *.
    replace (length A + length gap + length prev - (length A + length gap))%nat with (length prev) by lia.
    destruct (copy_le_ok s post prev A gap lst) as (gap1 & L1 & E1). rewrite E1.
    pose proof (f_equal (@length Z) (span_app s prev)) as LS. rewrite app_length in LS.
    destruct (span_le s prev) as [a b] eqn:Esp. cbn [fst snd] in *.
    set (lst' := last a lst). replace (length A + length a)%nat with (length (A ++ a)) by (apply app_length).
    destruct (s =? lst') eqn:Es.
    + destruct (IH b (A ++ a) gap1 lst' ltac:(lia)) as (m & b' & gap' & H1 & H2 & H3).
      exists (a ++ m), b', gap'. split; [cbn [app]; rewrite H1; apply app_assoc|].
      replace (length A + length gap + length a)%nat with (length (A ++ a) + length gap1)%nat by (rewrite app_length; lia).
      replace (length A + length gap + length prev)%nat with (length (A ++ a) + length gap1 + length b)%nat by (rewrite app_length; lia).
      rewrite H2. replace ((A ++ a) ++ m) with (A ++ a ++ m) in * by (apply app_assoc). split; [reflexivity|]. exact H3.
    + destruct gap1 as [|g gap1]; [cbn in L1; lia|]. change ((g :: gap1) ++ b ++ post) with (g :: gap1 ++ b ++ post). rewrite put_app.
      destruct (IH b ((A ++ a) ++ [s]) gap1 lst' ltac:(cbn in *; lia)) as (m & b' & gap' & H1 & H2 & H3).
      exists (a ++ [s] ++ m), b', gap'. split; [rewrite H1, <- !app_assoc; reflexivity|].
      replace (length A + length gap + length a)%nat with (length ((A ++ a) ++ [s]) + length gap1)%nat by (rewrite !app_length; cbn in *; lia).
      replace (length A + length gap + length prev)%nat with (length ((A ++ a) ++ [s]) + length gap1 + length b)%nat by (rewrite !app_length; cbn in *; lia).
      replace (S (length (A ++ a))) with (length ((A ++ a) ++ [s])) by (rewrite (app_length (A ++ a)); cbn; lia).
      replace ((A ++ a) ++ s :: gap1 ++ b ++ post) with (((A ++ a) ++ [s]) ++ gap1 ++ b ++ post) by (rewrite <- !app_assoc; reflexivity).
      rewrite H2. replace (((A ++ a) ++ [s]) ++ m) with (A ++ a ++ [s] ++ m) in * by (rewrite <- !app_assoc; reflexivity).
      split; [reflexivity|]. rewrite H3, !app_length. cbn in *. lia.
Qed.
Lemma copy_rest_ok post : forall b A gap, exists gap', length gap' = length gap /\
  copy_rest (length b) (A ++ gap ++ b ++ post) (length A + length gap) (length A) = ((A ++ b) ++ gap' ++ post, length (A ++ b)).
Proof.
  induction b as [|p b IH]; intros A gap.
  - exists gap. split; [reflexivity|]. cbn. now rewrite app_nil_r.
  - cbn [length copy_rest].
    assert (G : get_at (A ++ gap ++ (p :: b) ++ post) (length A + length gap) = p) by (rewrite <- app_length, app_assoc; apply get_app).
    rewrite G. destruct (shift A p gap (b ++ post)) as (gap1 & L1 & E1). change ((p :: b) ++ post) with (p :: b ++ post). rewrite E1.
    destruct (IH (A ++ [p]) gap1) as (gap2 & L2 & E2). exists gap2. split; [lia|].
    replace (S (length A + length gap)) with (length (A ++ [p]) + length gap1)%nat by (rewrite app_length; cbn; lia).
    replace (S (length A)) with (length (A ++ [p])) by (rewrite app_length; cbn; lia).
    rewrite E2, <- !app_assoc. reflexivity.
Qed.
Definition lmerges (cs : list (list Z)) (cur : list Z) : list Z := fold_left (fun cur c => lmerge c cur (-1)) cs cur.
Lemma merge_children_ok : forall cs A cur post, length A = length (concat cs) ->
  exists post', merge_children cs (A ++ cur ++ post) (length A) (length cur) = (lmerges cs cur ++ post', length (lmerges cs cur)).
Proof.
  induction cs as [|c cs IH]; intros A cur post L.
  - destruct A; [|discriminate]. exists post. reflexivity.
  - destruct c as [|x c']; [exact (IH A cur post L)|]. remember (x :: c') as c eqn:Ec.
    cbn [concat] in L. rewrite app_length in L.
    replace (merge_children (c :: cs) (A ++ cur ++ post) (length A) (length cur)) with
      (let inx := length A in let lastinx := (inx + length cur)%nat in let stinx := (length A - length c)%nat in
       let '(a, inx, inxout) := merge_spids c (A ++ cur ++ post) inx lastinx stinx (-1) in
       let '(a, inxout) := copy_rest (lastinx - inx) a inx inxout in merge_children cs a stinx (inxout - stinx)) by (rewrite Ec; reflexivity).
    cbv zeta. set (A0 := firstn (length A - length c) A). set (gap := skipn (length A - length c) A).
    assert (LA : length A0 = (length A - length c)%nat) by (unfold A0; rewrite firstn_length; lia).
    assert (LG : length gap = length c) by (unfold gap; rewrite skipn_length; lia).
    assert (EA : A = A0 ++ gap) by (symmetry; apply firstn_skipn).
    destruct (merge_spids_ok post c cur A0 gap (-1) ltac:(lia)) as (m & b & gap1 & M1 & M2 & M3).
    assert (E0 : A ++ cur ++ post = A0 ++ gap ++ cur ++ post) by (rewrite (app_assoc A0 gap), <- EA; reflexivity).
    rewrite <- LA, E0. clearbody A0 gap.
    replace (length A) with (length A0 + length gap)%nat by lia. rewrite M2.
    replace (length A0 + length gap + length cur - (length (A0 ++ m) + length gap1))%nat with (length b) by lia.
    destruct (copy_rest_ok post b (A0 ++ m) gap1) as (gap2 & L2 & R2). rewrite R2.
    replace (length ((A0 ++ m) ++ b) - length A0)%nat with (length (lmerge c cur (-1))) by (rewrite M1, !app_length; lia).
    replace (((A0 ++ m) ++ b) ++ gap2 ++ post) with (A0 ++ lmerge c cur (-1) ++ gap2 ++ post) by (rewrite M1, <- !app_assoc; reflexivity).
    destruct (IH A0 (lmerge c cur (-1)) (gap2 ++ post)) as (post' & R); [lia|]. exists post'. exact R.
Qed.
Lemma merged_spids_eq cs : merged_spids cs = lmerges cs [].
Proof.
  unfold merged_spids. destruct (merge_children_ok cs (repeat 0 (length (concat cs))) [] []) as (post & E); [apply repeat_length|].
  rewrite repeat_length in E. cbn [app length] in E. rewrite app_nil_r in E. rewrite E. rewrite firstn_app, firstn_all, Nat.sub_diag. cbn. apply app_nil_r.
Qed.

(** the merge of two increasing lists *)
Lemma span_le_spec s l : increasing l -> (forall x, In x (fst (span_le s l)) -> x <= s) /\ (forall x, In x (snd (span_le s l)) -> s < x).
Proof.
  induction 1 as [|p l H IH F]; [cbn; tauto|]. cbn [span_le]. destruct (Z.leb_spec p s) as [L|L].
  - destruct (span_le s l) as [a b]. cbn [fst snd] in *. split; [intros x [<-|Hx]; [lia|now apply IH]|apply IH].
  - cbn [fst snd]. split; [easy|]. intros x [<-|Hx]; [lia|]. rewrite Forall_forall in F. specialize (F x Hx). lia.
Qed.
Lemma sorted_app a b : increasing (a ++ b) -> increasing a /\ increasing b.
Proof.
  induction a as [|x a IH]; intro H; [split; [constructor|exact H]|]. inversion H as [|? ? H1 H2]; subst. destruct (IH H1) as [I1 I2]. split; [|exact I2].
  constructor; [exact I1|]. rewrite Forall_forall in *. intros y Hy. apply H2. apply in_or_app. now left.
Qed.
Lemma sorted_join a b : increasing a -> increasing b -> (forall x y, In x a -> In y b -> x < y) -> increasing (a ++ b).
Proof.
  induction 1 as [|x a H IH F]; intros Hb D; [exact Hb|]. cbn. constructor.
  - apply IH; auto. intros u v Hu. apply D. now right.
  - rewrite Forall_forall in *. intros y Hy. apply in_app_or in Hy as [Hy|Hy]; [now apply F|]. apply D; [now left|exact Hy].
Qed.
Lemma last_in (a : list Z) d : a <> [] -> In (last a d) a.
Proof. intro N. destruct (exists_last N) as (l & x & ->). rewrite last_last. apply in_or_app. right. now left. Qed.
Lemma last_max a d s : increasing a -> In s a -> (forall x, In x a -> x <= s) -> last a d = s.
Proof.
  intros Inc Hs M. destruct (exists_last (l := a)) as (l & x & ->); [intros ->; contradiction|]. rewrite last_last.
  apply in_app_or in Hs as [Hs|[Hs|[]]]; [|exact Hs].
  assert (s < x).
  { clear - Inc Hs. induction l as [|y l IH]; [contradiction|]. inversion Inc as [|? ? H1 H2]; subst. destruct Hs as [<-|Hs]; [|now apply IH]. rewrite Forall_forall in H2. apply H2. apply in_or_app. right. now left. }
  specialize (M x ltac:(apply in_or_app; right; now left)). lia.
Qed.
Lemma lmerge_spec : forall child prev lst, increasing child -> increasing prev -> (forall x, In x child \/ In x prev -> lst < x) ->
  increasing (lmerge child prev lst) /\ forall x, In x (lmerge child prev lst) <-> In x child \/ In x prev.
Proof.
  induction child as [|s child IH]; intros prev lst Hc Hp Hl; cbn [lmerge].
  - split; [exact Hp|]. intro x. cbn. tauto.
  - inversion Hc as [|? ? Hc' Fc]; subst. rewrite Forall_forall in Fc.
    destruct (span_le_spec s prev Hp) as [Sa Sb]. pose proof (span_app s prev) as Eab.
    destruct (span_le s prev) as [a b] eqn:Esp. cbn [fst snd] in *. subst prev. destruct (sorted_app _ _ Hp) as [Ia Ib].
    assert (Ll : last a lst <= s).
    { destruct a as [|x a]; [cbn; specialize (Hl s ltac:(left; now left)); lia|]. apply Sa. apply last_in. discriminate. }
    destruct (IH b (last a lst) Hc' Ib) as [I1 M1].
    { intros x [Hx|Hx]; [specialize (Fc x Hx)|specialize (Sb x Hx)]; lia. }
    assert (R : forall y, In y (lmerge child b (last a lst)) -> s < y).
    { intros y Hy. apply M1 in Hy as [Hy|Hy]; auto. }
    destruct (Z.eqb_spec s (last a lst)) as [Es|Ns].
    + cbn [app]. split.
      * apply sorted_join; auto. intros x y Hx Hy. specialize (Sa x Hx). specialize (R y Hy). lia.
      * assert (Sin : In s a).
        { destruct a as [|z a]; [cbn in Es; specialize (Hl s ltac:(left; now left)); lia|]. rewrite Es. apply last_in. discriminate. }
        intro x. rewrite in_app_iff, M1, in_app_iff. cbn. intuition (subst; auto).
    + assert (Nin : ~ In s a) by (intro Hs; apply Ns; symmetry; now apply last_max).
      assert (As : forall x, In x a -> x < s) by (intros x Hx; specialize (Sa x Hx); destruct (Z.eq_dec x s) as [->|]; [contradiction|lia]).
      split.
      * apply sorted_join; [exact Ia| |].
        -- cbn. constructor; [exact I1|]. rewrite Forall_forall. exact R.
        -- intros x y Hx [<-|Hy]; [auto|]. specialize (As x Hx). specialize (R y Hy). lia.
      * intro x. rewrite !in_app_iff. cbn. rewrite M1. intuition (subst; auto).
Qed.
Lemma lmerges_spec : forall cs cur, Forall increasing cs -> increasing cur -> (forall x, In x (concat cs) \/ In x cur -> 0 <= x) ->
  increasing (lmerges cs cur) /\ forall x, In x (lmerges cs cur) <-> In x (concat cs) \/ In x cur.
Proof.
  induction cs as [|c cs IH]; intros cur Hc Hp N; [split; [exact Hp|]; intro x; cbn; tauto|].
  inversion Hc as [|? ? H1 H2]; subst. unfold lmerges in *. cbn [fold_left concat] in *.
  destruct (lmerge_spec c cur (-1) H1 Hp) as [I M]; [intros x Hx; enough (0 <= x) by lia; apply N; rewrite in_app_iff; tauto|].
  destruct (IH (lmerge c cur (-1)) H2 I) as [I2 M2]; [intros x Hx; apply N; rewrite in_app_iff; rewrite M in Hx; tauto|].
  split; [exact I2|]. intro x. rewrite M2, M, in_app_iff. tauto.
Qed.
Lemma merged_spids_spec cs : Forall increasing cs -> (forall x, In x (concat cs) -> 0 <= x) ->
  increasing (merged_spids cs) /\ forall x, In x (merged_spids cs) <-> In x (concat cs).
Proof. intros H N. rewrite merged_spids_eq. destruct (lmerges_spec cs [] H) as [I M]; [constructor|intros x [Hx|[]]; auto|]. split; [exact I|]. intro x. rewrite M. cbn. tauto. Qed.
