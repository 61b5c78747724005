(** Proofs for Rid_Thms: riders. *)
From Coq Require Import String.
From Verif Require Import Base Hiid_Model Hiid_Proofs Rqid_Model Poll_Model Ncache_Model Rid_Model Rid_Spec.
Local Open Scope Z_scope.
Open Scope list_scope.

Lemma same_iff x y : same x y = true <-> x = y.
Proof. unfold same. destruct (list_eq_dec Z.eq_dec x y); split; congruence. Qed.
Lemma same_refl x : same x x = true.
Proof. apply same_iff. reflexivity. Qed.
Lemma eqb_same x y : hiid_eqb x y = same x y.
Proof. apply eq_true_iff_eq. rewrite hiid_eqb_iff, same_iff. reflexivity. Qed.
Lemma field_look r f : field r f = look r f.
Proof.
  unfold look. induction r as [|[g v] r IH]; [reflexivity|]. cbn [field find fst]. rewrite eqb_same.
  destruct (same g f); [reflexivity|exact IH].
Qed.
Lemma look_In r f v : look r f = Some v -> In (f, v) r.
Proof.
  unfold look. destruct (find _ r) as [[g w]|] eqn:E; [|discriminate]. apply find_some in E. destruct E as [E1 E2].
  apply same_iff in E2. cbn in *. intros [= <-]. subst. exact E1.
Qed.
Lemma In_look r f v : NoDup (map fst r) -> In (f, v) r -> look r f = Some v.
Proof.
  unfold look. induction r as [|[g w] r IH]; [intros _ []|]. cbn [map fst find]. intros N. apply NoDup_cons_iff in N as [N1 N2].
  intros [[= -> ->]|Hi]; [rewrite same_refl; reflexivity|].
  destruct (same g f) eqn:E; [|auto]. apply same_iff in E. subst. exfalso. apply N1. apply in_map_iff. exists (f, v). auto.
Qed.
Lemma keyed_at h a : keyed h -> NoDup (map fst (at_ h a)).
Proof.
  intros K. unfold at_. destruct (nth_in_or_default a h []) as [Hi|Hd].
  - unfold keyed in K. rewrite Forall_forall in K. exact (K _ Hi).
  - rewrite Hd. constructor.
Qed.
Lemma look_iff h a f v : keyed h -> (look (at_ h a) f = Some v <-> In (f, v) (at_ h a)).
Proof. intros K. split; [apply look_In|apply In_look, keyed_at, K]. Qed.
Ltac dat := repeat match goal with |- context [deref ?h ?a] => change (deref h a) with (at_ h a) end.

Section Commands.
Variable W : vocab.
Lemma selectionb_iff c : selectionb W c = true <-> selection W c.
Proof. unfold selectionb, selection. rewrite orb_true_iff, !same_iff. reflexivity. Qed.
Lemma commandsIn_iff h a x : In x (commandsIn W h a) <-> isCommand W h a x.
Proof.
  unfold commandsIn, isCommand. rewrite in_flat_map. split.
  - intros ([c v] & Hi & Hx). cbn [fst snd] in Hx. destruct (selectionb W c) eqn:Es; [destruct Hx|].
    destruct v as [b| | | |]; try (destruct Hx; fail). destruct Hx as [<-|[]]. exists b. cbn. split; [exact Hi|]. split; [reflexivity|].
    rewrite <- selectionb_iff. congruence.
  - intros (b & Hi & Hs & Hn). destruct x as [c r]. cbn in *. exists (c, VRec b). split; [exact Hi|]. cbn.
    rewrite <- selectionb_iff in Hn. destruct (selectionb W c); [congruence|]. subst. left. reflexivity.
Qed.
Lemma isForb_iff h nd e : keyed h -> fineEntry W (at_ h e) -> (isForb W nd (at_ h e) = true <-> isFor W nd (at_ h e)).
Proof.
  intros K [F1 F2]. unfold isForb, isFor, listed. pose proof (look_iff h e [AidName W]) as LN. pose proof (look_iff h e [AidNodeIndex W]) as LI.
  destruct (look (at_ h e) [AidName W]) as [v|] eqn:EN; [destruct (F1 v eq_refl) as [names ->]|];
  destruct (look (at_ h e) [AidNodeIndex W]) as [v|] eqn:EI; try destruct (F2 v eq_refl) as [ixs ->];
  repeat match goal with |- context [in_dec ?d ?x ?l] => destruct (in_dec d x l) end;
  try (split; [intros _|reflexivity]).
  all: try (left; eexists; split; [apply LI; [exact K|reflexivity]|assumption]; fail).
  all: try (right; left; eexists; split; [apply LN; [exact K|reflexivity]|assumption]; fail).
  all: try match goal with H : In _ [] |- _ => destruct H end.
  - assert (U : forall l, In ([AidNodeIndex W], VInts l) (at_ h e) -> l = ixs) by (intros l Hl; apply LI in Hl; [congruence|exact K]).
    assert (U' : forall l, In ([AidName W], VStrs l) (at_ h e) -> l = names) by (intros l Hl; apply LN in Hl; [congruence|exact K]).
    apply look_In in EN, EI.
    split.
    + destruct names; [|discriminate]. destruct ixs; [|discriminate]. intros _. right; right. split; assumption.
    + intros [(l & Hl & Hi)|[(l & Hl & Hi)|[H1 H2]]].
      * apply U in Hl. subst. contradiction.
      * apply U' in Hl. subst. contradiction.
      * rewrite (H1 _ EI), (H2 _ EN). reflexivity.
  - assert (U' : forall l, In ([AidName W], VStrs l) (at_ h e) -> l = names) by (intros l Hl; apply LN in Hl; [congruence|exact K]).
    assert (U : forall l, ~ In ([AidNodeIndex W], VInts l) (at_ h e)) by (intros l Hl; apply LI in Hl; [congruence|exact K]).
    apply look_In in EN.
    split.
    + destruct names; [|discriminate]. intros _. right; right. split; [intros l Hl; destruct (U l Hl)|assumption].
    + intros [(l & Hl & Hi)|[(l & Hl & Hi)|[H1 H2]]].
      * destruct (U l Hl).
      * apply U' in Hl. subst. contradiction.
      * rewrite (H2 _ EN). reflexivity.
  - assert (U : forall l, In ([AidNodeIndex W], VInts l) (at_ h e) -> l = ixs) by (intros l Hl; apply LI in Hl; [congruence|exact K]).
    assert (U' : forall l, ~ In ([AidName W], VStrs l) (at_ h e)) by (intros l Hl; apply LN in Hl; [congruence|exact K]).
    apply look_In in EI.
    split.
    + destruct ixs; [|discriminate]. intros _. right; right. split; [assumption|intros l Hl; destruct (U' l Hl)].
    + intros [(l & Hl & Hi)|[(l & Hl & Hi)|[H1 H2]]].
      * apply U in Hl. subst. contradiction.
      * destruct (U' l Hl).
      * rewrite (H1 _ EI). reflexivity.
  - right; right. split; intros l Hl; [apply LI in Hl|apply LN in Hl]; (exact K || congruence).
Qed.

(** ** What the functions do, up to an exception *)
Variable pc : list call -> call -> option Z.
Definition Does (want : list call) (fine : Prop) (o : list call * option Z) (log : list call) (code : Z) : Prop :=
  exists l, fst o = log ++ l /\ (exists t, want = l ++ t) /\
    match snd o with
    | Some c => l = want /\ c = Z.lor code (codes pc log want) /\ (forall l1 x l2, want = l1 ++ x :: l2 -> pc (log ++ l1) x <> None)
    | None => (exists l0 x, l = l0 ++ [x] /\ pc (log ++ l0) x = None) \/ ~ fine
    end.
Lemma codes_app log l1 l2 : codes pc log (l1 ++ l2) = Z.lor (codes pc log l1) (codes pc (log ++ l1) l2).
Proof.
  revert log. induction l1 as [|x l1 IH]; intros log; cbn [app codes].
  - rewrite app_nil_r, Z.lor_0_l. reflexivity.
  - rewrite IH, <- app_assoc. cbn [app]. rewrite Z.lor_assoc. reflexivity.
Qed.
Lemma split_app (l1 l2 m n : list call) x : l1 ++ l2 = m ++ x :: n ->
  (exists n', l1 = m ++ x :: n') \/ (exists m', m = l1 ++ m' /\ l2 = m' ++ x :: n).
Proof.
  revert m. induction l1 as [|y l1 IH]; intros m H; cbn in H.
  - right. exists m. split; [reflexivity|exact H].
  - destruct m as [|z m]; cbn in H.
    + injection H as -> H. left. exists l1. reflexivity.
    + injection H as -> H. destruct (IH m H) as [(n' & ->)|(m' & -> & ->)].
      * left. exists n'. reflexivity.
      * right. exists m'. split; reflexivity.
Qed.
Lemma does_nil log code (P : Prop) : Does [] P (log, Some code) log code.
Proof.
  exists []. cbn. rewrite app_nil_r. split; [reflexivity|]. split; [exists []; reflexivity|].
  split; [reflexivity|]. split; [rewrite Z.lor_0_r; reflexivity|]. intros [|? ?] x l2 H; discriminate.
Qed.
Lemma does_bad want (P : Prop) log code : ~ P -> Does want P (log, None) log code.
Proof. intros N. exists []. cbn. rewrite app_nil_r. split; [reflexivity|]. split; [exists want; reflexivity|]. right. exact N. Qed.
Lemma does_then w1 w2 (P1 P2 P : Prop) o k log code : Does w1 P1 o log code -> (forall log' code', Does w2 P2 (k log' code') log' code') ->
  (P -> P1) -> (P -> P2) -> Does (w1 ++ w2) P (andThen o k) log code.
Proof.
  intros (l & Hf & (t & Ht) & H) K I1 I2. destruct o as [log' [c|]]; cbn [fst snd andThen] in *.
  - destruct H as (-> & -> & Hn). subst log'. destruct (K (log ++ w1) (Z.lor code (codes pc log w1))) as (l' & Hf' & (t' & Ht') & H').
    exists (w1 ++ l'). rewrite Hf', <- app_assoc. split; [reflexivity|]. split; [exists t'; rewrite <- app_assoc, <- Ht'; reflexivity|].
    destruct (snd (k _ _)) as [c'|].
    + destruct H' as (-> & -> & Hn'). split; [reflexivity|]. split; [rewrite codes_app, Z.lor_assoc; reflexivity|].
      intros l1 x l2 E. destruct (split_app _ _ _ _ _ E) as [(n' & E1)|(m' & -> & E2)]; [exact (Hn _ _ _ E1)|].
      rewrite app_assoc. exact (Hn' _ _ _ E2).
    + destruct H' as [(l0 & x & -> & Hx)|N]; [left|right; tauto]. exists (w1 ++ l0), x. rewrite <- !app_assoc in *. split; [reflexivity|exact Hx].
  - exists l. split; [exact Hf|]. split; [exists (t ++ w2); rewrite Ht, app_assoc; reflexivity|]. destruct H as [H|H]; [left; exact H|right; tauto].
Qed.
Lemma does_weaken want (P Q : Prop) o log code : Does want P o log code -> (Q -> P) -> Does want Q o log code.
Proof.
  intros (l & Hf & Ht & H) I. exists l. split; [exact Hf|]. split; [exact Ht|]. destruct (snd o); [exact H|]. destruct H as [H|H]; [left; exact H|right; tauto].
Qed.

Definition cmds (h : list (list (list Z * val))) (r : list (list Z * val)) : list call :=
  flat_map (fun p => if selectionb W (fst p) then [] else match snd p with VRec b => [(fst p, at_ h b)] | _ => [] end) r.
Lemma processCommands_does h r : forall log code,
  Does (cmds h r) (forall c v, In (c, v) r -> selection W c \/ exists b, v = VRec b) (processCommands W pc h r log code) log code.
Proof.
  induction r as [|[c v] r IH]; intros log code; cbn [processCommands cmds flat_map fst snd]; [apply does_nil|]. fold (cmds h r).
  rewrite !eqb_same. fold (selectionb W c). change (same c (FName W) || same c (FNodeIndex W)) with (selectionb W c).
  destruct (selectionb W c) eqn:Es.
  - eapply does_weaken; [apply IH|]. intros F d u Hi. exact (F d u (or_intror Hi)).
  - assert (Nv : forall u, (forall b, u <> VRec b) -> ~ (forall d w, In (d, w) ((c, u) :: r) -> selection W d \/ (exists b, w = VRec b))).
    { intros u Hu F. destruct (F c u (or_introl eq_refl)) as [Hs|(b & ->)]; [apply selectionb_iff in Hs; congruence|exact (Hu b eq_refl)]. }
    destruct v as [b|l|l|l|]; try (apply does_bad, Nv; intros; discriminate).
    cbv zeta. change (deref h b) with (at_ h b). destruct (pc log (c, at_ h b)) as [k|] eqn:Ep.
    + destruct (IH (log ++ [(c, at_ h b)]) (Z.lor code k)) as (l & Hf & (t & Ht) & H).
      exists ((c, at_ h b) :: l). split; [rewrite Hf, <- app_assoc; reflexivity|]. split; [exists t; cbn; rewrite Ht; reflexivity|].
      destruct (snd _) as [c'|].
      * destruct H as (-> & -> & Hn). split; [reflexivity|]. split; [cbn [app codes]; rewrite Ep, Z.lor_assoc; reflexivity|].
        intros [|y l1] x l2 E; cbn in E; injection E as <- E; [rewrite app_nil_r; congruence|].
        specialize (Hn _ _ _ E). rewrite <- app_assoc in Hn. exact Hn.
      * destruct H as [(l0 & x & -> & Hx)|N].
        -- left. exists ((c, at_ h b) :: l0), x. split; [reflexivity|]. rewrite <- app_assoc in Hx. exact Hx.
        -- right. intros F. apply N. intros d u Hi. exact (F d u (or_intror Hi)).
    + exists [(c, at_ h b)]. cbn [fst snd]. split; [reflexivity|]. split; [exists (cmds h r); reflexivity|].
      left. exists [], (c, at_ h b). rewrite app_nil_r. split; [reflexivity|exact Ep].
Qed.
Lemma commandsIn_does h a log code : Does (commandsIn W h a) (fineCommands W h a) (processCommands W pc h (deref h a) log code) log code.
Proof. apply processCommands_does. Qed.

Lemma matches_isForb nd e names ixs : names_of W e = Some names -> indices_of W e = Some ixs -> entry_matches nd names ixs = isForb W nd e.
Proof.
  unfold names_of, indices_of, isForb, listed. rewrite !field_look. unfold FName, FNodeIndex. intros HN HI.
  assert (EN : match look e [AidName W] with Some (VStrs l) => l | _ => [] end = names).
  { destruct (look e [AidName W]) as [[]|]; congruence. }
  assert (EI : match look e [AidNodeIndex W] with Some (VInts l) => l | _ => [] end = ixs).
  { destruct (look e [AidNodeIndex W]) as [[]|]; congruence. }
  rewrite EN, EI. unfold entry_matches.
  assert (B1 : existsb (Z.eqb (nd_index nd)) ixs = if in_dec Z.eq_dec (nd_index nd) ixs then true else false).
  { apply eq_true_iff_eq. rewrite existsb_exists. destruct (in_dec _ _ _) as [i|n]; split; try congruence.
    - intros _. exists (nd_index nd). split; [exact i|apply Z.eqb_refl].
    - intros (x & Hx & E). apply Z.eqb_eq in E. subst. contradiction. }
  assert (B2 : existsb (String.eqb (nd_name nd)) names = if in_dec string_dec (nd_name nd) names then true else false).
  { apply eq_true_iff_eq. rewrite existsb_exists. destruct (in_dec string_dec (nd_name nd) names) as [i|n]; split; try congruence.
    - intros _. exists (nd_name nd). split; [exact i|apply String.eqb_refl].
    - intros (x & Hx & E). apply String.eqb_eq in E. subst. contradiction. }
  rewrite B1, B2. destruct (in_dec Z.eq_dec _ _); [reflexivity|]. destruct (in_dec string_dec _ _); reflexivity.
Qed.
Lemma by_list_does h nd l : forall log code,
  Does (listCommands W h nd (Some (VList l))) (forall e, In e l -> fineEntry W (at_ h e) /\ fineCommands W h e) (by_list W pc h nd l log code) log code.
Proof.
  induction l as [|a l IH]; intros log code; cbn [listCommands by_list find]; [apply does_nil|]. dat.
  destruct (names_of W (at_ h a)) as [names|] eqn:EN.
  - destruct (indices_of W (at_ h a)) as [ixs|] eqn:EI.
    + rewrite (matches_isForb nd _ _ _ EN EI). destruct (isForb W nd (at_ h a)).
      * eapply does_weaken; [apply (commandsIn_does h a)|]. intros F. apply F. left. reflexivity.
      * eapply does_weaken; [apply IH|]. intros F e Hi. apply F. right. exact Hi.
    + apply does_bad. intros F. destruct (F a (or_introl eq_refl)) as [[_ F2] _]. unfold indices_of in EI. rewrite field_look in EI.
      unfold FNodeIndex in EI. destruct (look (at_ h a) [AidNodeIndex W]) as [v|] eqn:EL; [|discriminate]. destruct (F2 v eq_refl) as [x ->]. discriminate.
  - apply does_bad. intros F. destruct (F a (or_introl eq_refl)) as [[F1 _] _]. unfold names_of in EN. rewrite field_look in EN.
    unfold FName in EN. destruct (look (at_ h a) [AidName W]) as [v|] eqn:EL; [|discriminate]. destruct (F1 v eq_refl) as [x ->]. discriminate.
Qed.
Lemma one_group_does h nd a log code : Does (groupCommands W h nd a) (fineGroup W h nd a) (one_group W pc h nd (deref h a) log code) log code.
Proof.
  unfold one_group, groupCommands. rewrite !field_look. dat. unfold FCommandAll, FCommandByList, FCommandByNodeIndex.
  pose (A := forall w, look (at_ h a) [AidCommand W; AidBy W; AidList W] = Some w -> exists l, w = VList l /\ forall e, In e l -> fineEntry W (at_ h e) /\ fineCommands W h e).
  pose (B := forall w, look (at_ h a) [AidCommand W; AidBy W; AidNodeIndex W] = Some w -> exists b, w = VRec b /\ fineRec W h (look (at_ h b) [nd_index nd])).
  apply does_then with (P1 := fineRec W h (look (at_ h a) [AidCommand W; AidAll W])) (P2 := A /\ B).
  - destruct (look (at_ h a) [AidCommand W; AidAll W]) as [[b| | | |]|]; cbn [recCommands].
    2-5: apply does_bad; intros F; destruct (F _ eq_refl) as (b & E & _); discriminate.
    + eapply does_weaken; [apply (commandsIn_does h)|]. intros F. destruct (F _ eq_refl) as (b' & [= <-] & Hc). exact Hc.
    + apply does_nil.
  - intros log' code'. apply does_then with (P1 := A) (P2 := B).
    + destruct (look (at_ h a) [AidCommand W; AidBy W; AidList W]) as [[b|l| | |]|].
      1,3-5: apply does_bad; intros F; destruct (F _ eq_refl) as (l' & E & _); discriminate.
      * eapply does_weaken; [apply by_list_does|]. intros F. destruct (F _ eq_refl) as (l' & [= <-] & Hc). exact Hc.
      * apply does_nil.
    + intros log'' code''. destruct (look (at_ h a) [AidCommand W; AidBy W; AidNodeIndex W]) as [[b| | | |]|].
      2-5: apply does_bad; intros F; destruct (F _ eq_refl) as (b & E & _); discriminate.
      2: apply does_nil.
      rewrite field_look. dat.
      destruct (look (at_ h b) [nd_index nd]) as [[e| | | |]|] eqn:EI; cbn [recCommands].
      2-5: apply does_bad; intros F; destruct (F _ eq_refl) as (b' & [= <-] & F'); rewrite EI in F'; destruct (F' _ eq_refl) as (e & E & _); discriminate.
      2: apply does_nil.
      eapply does_weaken; [apply (commandsIn_does h)|]. intros F. destruct (F _ eq_refl) as (b' & [= <-] & F'). rewrite EI in F'. destruct (F' _ eq_refl) as (e' & [= <-] & Hc). exact Hc.
    + intros F. exact (proj1 F).
    + intros F. exact (proj2 F).
  - intros F. exact (proj1 F).
  - intros F. exact (proj2 F).
Qed.
Lemma groups_does h nd root gs : forall log code,
  Does (flat_map (fun g => match look (at_ h root) g with Some (VRec a) => groupCommands W h nd a | _ => [] end) gs)
       (forall g v, In g gs -> look (at_ h root) g = Some v -> exists a, v = VRec a /\ fineGroup W h nd a)
       (groups W pc h nd (deref h root) gs log code) log code.
Proof.
  induction gs as [|g gs IH]; intros log code; cbn [flat_map groups]; [apply does_nil|]. rewrite field_look. dat.
  destruct (look (at_ h root) g) as [[a| | | |]|] eqn:E.
  2-5: apply does_bad; intros F; destruct (F g _ (or_introl eq_refl) E) as (b & E' & _); discriminate.
  - eapply does_then; [apply one_group_does|apply IH| |].
    + intros F. destruct (F g _ (or_introl eq_refl) E) as (b & [= <-] & Hg). exact Hg.
    + intros F g' v Hi. exact (F g' v (or_intror Hi)).
  - eapply does_weaken; [apply IH|]. intros F g' v Hi. exact (F g' v (or_intror Hi)).
Qed.
Lemma or_iff_compat (A B C D : Prop) : (A <-> B) -> (C <-> D) -> (A \/ C <-> B \/ D).
Proof. tauto. Qed.
Lemma find_first {A} (P : A -> bool) l e : find P l = Some e <-> exists l1 l2, l = l1 ++ e :: l2 /\ P e = true /\ Forall (fun d => P d = false) l1.
Proof.
  induction l as [|x l IH]; cbn [find].
  - split; [discriminate|]. intros ([|? ?] & l2 & E & _); discriminate.
  - destruct (P x) eqn:Ex.
    + split.
      * intros [= <-]. exists [], l. auto.
      * intros ([|y l1] & l2 & E & Pe & F); injection E as <- E; [reflexivity|]. apply Forall_cons_iff in F as [F _]. congruence.
    + rewrite IH. split.
      * intros (l1 & l2 & -> & Pe & F). exists (x :: l1), l2. split; [reflexivity|]. split; [exact Pe|]. constructor; auto.
      * intros ([|y l1] & l2 & E & Pe & F); injection E as <- E; [congruence|]. apply Forall_cons_iff in F as [_ F]. exists l1, l2. auto.
Qed.
Lemma listCommands_iff h nd l x : keyed h -> (forall e, In e l -> fineEntry W (at_ h e)) ->
  (In x (listCommands W h nd (Some (VList l))) <-> exists e, firstFor W h nd l e /\ isCommand W h e x).
Proof.
  intros K F. cbn [listCommands].
  assert (X : forall e, find (fun e => isForb W nd (at_ h e)) l = Some e <-> firstFor W h nd l e).
  { intros e. rewrite find_first. unfold firstFor. split; intros (l1 & l2 & -> & H1 & H2); exists l1, l2; (split; [reflexivity|]); split.
    - apply isForb_iff; auto. apply F. apply in_or_app; right; left; reflexivity.
    - rewrite Forall_forall in *. intros d Hd. rewrite <- isForb_iff; [rewrite (H2 d Hd); discriminate|exact K|]. apply F. apply in_or_app; left; exact Hd.
    - apply isForb_iff; auto. apply F. apply in_or_app; right; left; reflexivity.
    - rewrite Forall_forall in *. intros d Hd. specialize (H2 d Hd). rewrite <- isForb_iff in H2; [destruct (isForb W nd (at_ h d)); congruence|exact K|].
      apply F. apply in_or_app; left; exact Hd. }
  split.
  - destruct (find _ l) as [e|] eqn:E; [|intros []]. intros Hx. exists e. split; [apply X; reflexivity|]. apply commandsIn_iff. exact Hx.
  - intros (e & Hf & Hc). apply X in Hf. rewrite Hf. apply commandsIn_iff. exact Hc.
Qed.
Lemma riderCommands_iff h nd root x : keyed h -> fineRider W h nd root -> (In x (riderCommands W h nd root) <-> commanded W h nd root x).
Proof.
  intros K F. unfold riderCommands, commanded. rewrite in_flat_map. unfold holdsRec.
  assert (G : forall a, fineGroup W h nd a -> (In x (groupCommands W h nd a) <->
    ((exists b, In ([AidCommand W; AidAll W], VRec b) (at_ h a) /\ isCommand W h b x) \/
     (exists l e, In ([AidCommand W; AidBy W; AidList W], VList l) (at_ h a) /\ firstFor W h nd l e /\ isCommand W h e x) \/
     (exists b e, In ([AidCommand W; AidBy W; AidNodeIndex W], VRec b) (at_ h a) /\ In ([nd_index nd], VRec e) (at_ h b) /\ isCommand W h e x)))).
  { intros a (F1 & F2 & F3). unfold groupCommands. rewrite !in_app_iff. apply or_iff_compat; [|apply or_iff_compat].
    - split.
      + destruct (look (at_ h a) [AidCommand W; AidAll W]) as [[b| | | |]|] eqn:E; cbn [recCommands]; try (intros []; fail).
        intros Hx. exists b. split; [apply look_In, E|]. apply commandsIn_iff, Hx.
      + intros (b & Hb & Hc). apply (look_iff h a) in Hb; [|exact K]. rewrite Hb. apply commandsIn_iff, Hc.
    - split.
      + destruct (look (at_ h a) [AidCommand W; AidBy W; AidList W]) as [[|l| | |]|] eqn:E; try (intros []; fail).
        destruct (F2 _ eq_refl) as (l' & [= <-] & Fl).
        intros Hx. apply listCommands_iff in Hx; [|exact K|intros e He; apply Fl, He]. destruct Hx as (e & H1 & H2).
        exists l, e. split; [apply look_In, E|]. auto.
      + intros (l & e & Hl & Hf & Hc). apply (look_iff h a) in Hl; [|exact K]. rewrite Hl in F2 |- *. destruct (F2 _ eq_refl) as (l' & [= <-] & Fl).
        apply listCommands_iff; [exact K|intros d Hd; apply Fl, Hd|]. exists e. auto.
    - split.
      + destruct (look (at_ h a) [AidCommand W; AidBy W; AidNodeIndex W]) as [[b| | | |]|] eqn:E; try (intros []; fail).
        destruct (look (at_ h b) [nd_index nd]) as [[e| | | |]|] eqn:E2; cbn [recCommands]; try (intros []; fail).
        intros Hx. exists b, e. split; [apply look_In, E|]. split; [apply look_In, E2|]. apply commandsIn_iff, Hx.
      + intros (b & e & Hb & He & Hc). apply (look_iff h a) in Hb; [|exact K]. rewrite Hb. apply (look_iff h b) in He; [|exact K]. rewrite He.
        apply commandsIn_iff, Hc. }
  split.
  - intros (g & Hg & Hx). destruct (look (at_ h root) g) as [[a| | | |]|] eqn:E; try (destruct Hx; fail).
    destruct (F g _ Hg E) as (a' & [= <-] & Fg). exists g, a. split; [exact Hg|]. split; [apply look_In, E|]. apply (G a Fg), Hx.
  - intros (g & a & Hg & Ha & Hx). exists g. split; [exact Hg|]. apply (look_iff h root) in Ha; [|exact K]. rewrite Ha.
    destruct (F g _ Hg Ha) as (a' & [= <-] & Fg). apply (G a Fg), Hx.
Qed.
End Commands.
