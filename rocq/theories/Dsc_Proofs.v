(** Maps of spids, and discovery over a tree. *)
From Coq Require Import Sorted.
From Verif Require Import Base Polc_Model Slv_Model Dsc_Model Dsc_Spec.

Definition keys (m : smap) : list Z := map fst m.
Definition in_order (m : smap) : Prop := StronglySorted Z.lt (keys m).
Lemma insert_In over s e : forall m k, In k (keys (insert over s e m)) <-> k = s \/ In k (keys m).
Proof.
  induction m as [|(k', x) m IH]; intros k; [cbn; firstorder|]. cbn [insert]. destruct (s <? k')%Z; [cbn; firstorder congruence|].
  destruct (Z.eqb_spec s k'); cbn [keys map fst In] in *; [subst; firstorder congruence|]. fold (keys (insert over s e m)). fold (keys m). rewrite IH. firstorder congruence.
Qed.
Lemma insert_order over s e : forall m, in_order m -> in_order (insert over s e m).
Proof.
  unfold in_order. induction m as [|(k, x) m IH]; intros H; [repeat constructor|]. cbn [insert]. cbn [keys map fst] in H. inversion H as [|? ? H1 H2]; subst.
  destruct (Z.ltb_spec s k).
  - cbn [keys map fst]. constructor; [exact H|]. constructor; [assumption|]. eapply Forall_impl; [|exact H2]. cbn. lia.
  - destruct (Z.eqb_spec s k); [exact H|]. cbn [keys map fst]. constructor; [now apply IH|]. apply Forall_forall. intros y Hy.
    apply insert_In in Hy as [->|Hy]; [lia|]. now apply (proj1 (Forall_forall _ _) H2).
Qed.
Lemma lookup_low s : forall m, Forall (Z.lt s) (keys m) -> lookup s m = None.
Proof.
  induction m as [|(k, x) m IH]; intros H; [reflexivity|]. cbn [keys map fst] in H. inversion H; subst. cbn [lookup]. destruct (Z.eqb_spec s k); [lia|]. now apply IH.
Qed.
Lemma lookup_In s : forall m, (exists e, lookup s m = Some e) <-> In s (keys m).
Proof.
  induction m as [|(k, x) m IH]; cbn [lookup keys map fst In].
  - split; [intros (e & E); discriminate|intros []].
  - fold (keys m). destruct (Z.eqb_spec s k).
    + subst. split; [now left|]. intros _. eauto.
    + rewrite IH. split; [now right|]. intros [X|X]; [congruence|exact X].
Qed.
Lemma lookup_insert over s e k : forall m, in_order m ->
  lookup k (insert over s e m) = if (k =? s)%Z then Some (if over then e else match lookup s m with Some x => x | None => e end) else lookup k m.
Proof.
  unfold in_order. induction m as [|(k', x) m IH]; intros H.
  - cbn [insert lookup]. destruct (k =? s)%Z; [now destruct over|reflexivity].
  - cbn [keys map fst] in H. inversion H as [|? ? H1 H2]; subst. cbn [insert]. destruct (Z.ltb_spec s k').
    + cbn [lookup]. destruct (Z.eqb_spec k s); [|reflexivity]. destruct (Z.eqb_spec s k'); [lia|].
      rewrite (lookup_low s m); [now destruct over|]. eapply Forall_impl; [|exact H2]. cbn. lia.
    + destruct (Z.eqb_spec s k').
      * subst. cbn [lookup]. rewrite Z.eqb_refl. destruct (Z.eqb_spec k k'); [|reflexivity]. now destruct over.
      * cbn [lookup]. rewrite IH by assumption. destruct (Z.eqb_spec s k'); [lia|]. destruct (Z.eqb_spec k k'), (Z.eqb_spec k s); try reflexivity; lia.
Qed.
Lemma merge_ok : forall other m, in_order m -> in_order other ->
  in_order (merge m other) /\ forall k, lookup k (merge m other) = match lookup k m with Some x => Some x | None => lookup k other end.
Proof.
  induction other as [|(s, e) other IH]; intros m Hm Ho; cbn [merge].
  - split; [exact Hm|]. intros k. now destruct (lookup k m).
  - unfold in_order in Ho. cbn [keys map fst] in Ho. inversion Ho as [|? ? H1 H2]; subst.
    destruct (IH (insert false s e m) (insert_order _ _ _ _ Hm) H1) as [A B]. split; [exact A|]. intros k. rewrite B, (lookup_insert _ _ _ _ _ Hm). cbn [lookup].
    destruct (Z.eqb_spec k s); [|reflexivity]. subst. now destruct (lookup s m).
Qed.
Lemma fill_ok p f : forall spids i m, in_order m -> NoDup spids ->
  in_order (fill_map p f i spids m) /\
  forall k, lookup k (fill_map p f i spids m) = lookup k m /\ ~ In k spids \/
            exists j, nth_error spids j = Some k /\ lookup k (fill_map p f i spids m) = Some (describe p f (i + j)).
Proof.
  induction spids as [|s spids IH]; intros i m Hm N; cbn [fill_map].
  - split; [exact Hm|]. intros k. left. split; [reflexivity|intros []].
  - inversion N as [|? ? N1 N2]; subst. destruct (IH (S i) (insert true s (describe p f i) m) (insert_order _ _ _ _ Hm) N2) as [A B]. split; [exact A|].
    intros k. destruct (B k) as [[E Hn]|(j & Hj & E)].
    + rewrite E, (lookup_insert _ _ _ _ _ Hm). destruct (Z.eqb_spec k s) as [->|Ne].
      * right. exists 0. split; [reflexivity|]. rewrite Nat.add_0_r. reflexivity.
      * left. split; [reflexivity|]. intros [X|X]; [congruence|contradiction].
    + right. exists (S j). split; [exact Hj|]. rewrite E. do 2 f_equal. lia.
Qed.

(** the map in an answer *)
Definition map_of (a : answer) : smap := match a with Some (Some m) => m | _ => [] end.
Lemma node_ok : forall children ref, in_order (map_of ref) -> Forall (fun a => in_order (map_of a)) children ->
  in_order (map_of (discover_node ref children)) /\
  (forall s, In s (keys (map_of (discover_node ref children))) <-> In s (keys (map_of ref)) \/ exists a, In a children /\ In s (keys (map_of a))) /\
  (forall s e, lookup s (map_of (discover_node ref children)) = Some e -> lookup s (map_of ref) = Some e \/ exists a, In a children /\ lookup s (map_of a) = Some e).
Proof.
  induction children as [|c children IH]; intros ref Hr Hc.
  - cbn [discover_node]. split; [exact Hr|]. split; [intros s; firstorder|]. intros s e H. now left.
  - inversion Hc as [|? ? Hc1 Hc2]; subst.
    assert (Skip : map_of c = [] -> discover_node ref (c :: children) = discover_node ref children \/ c = Some (Some [])).
    { destruct c as [[m|]|]; cbn [map_of]; intros E; [subst; now right|now left|now left]. }
    destruct c as [[m|]|].
    + clear Skip. cbn [discover_node]. set (ref' := match ref with None => _ | Some _ => _ end).
      assert (R : in_order (map_of ref') /\ (forall s, lookup s (map_of ref') = match lookup s (map_of ref) with Some x => Some x | None => lookup s m end)).
      { unfold ref'. destruct ref as [[r|]|]; cbn [map_of] in *; [exact (merge_ok m r Hr Hc1)| |]; (split; [exact Hc1|reflexivity]). }
      destruct R as [R1 R2]. destruct (IH ref' R1 Hc2) as (A & B & C). split; [exact A|]. split.
      * intros s. rewrite B, <- !lookup_In, R2. split.
        -- intros [(e & E)|(a & I & X)]; [|right; exists a; split; [now right|exact X]]. destruct (lookup s (map_of ref)) as [e'|] eqn:El; [left; eauto|].
           right. exists (Some (Some m)). split; [now left|]. cbn [map_of]. apply lookup_In. eauto.
        -- intros [(e & E)|(a & [<-|I] & X)]; [left; rewrite E; eauto| |right; eauto]. left. cbn [map_of] in X. apply lookup_In in X as (e & E). rewrite E. destruct (lookup s (map_of ref)); eauto.
      * intros s e H. destruct (C s e H) as [X|(a & I & X)]; [|right; exists a; split; [now right|exact X]]. rewrite R2 in X. destruct (lookup s (map_of ref)) as [e'|]; [left; exact X|].
        right. exists (Some (Some m)). split; [now left|exact X].
    + cbn [discover_node]. destruct (IH ref Hr Hc2) as (A & B & C). split; [exact A|]. split.
      * intros s. rewrite B. split; [intros [X|(a & I & X)]; [now left|right; exists a; split; [now right|exact X]]|]. intros [X|(a & [<-|I] & X)]; [now left|destruct X|right; eauto].
      * intros s e H. destruct (C s e H) as [X|(a & I & X)]; [now left|right; exists a; split; [now right|exact X]].
    + cbn [discover_node]. destruct (IH ref Hr Hc2) as (A & B & C). split; [exact A|]. split.
      * intros s. rewrite B. split; [intros [X|(a & I & X)]; [now left|right; exists a; split; [now right|exact X]]|]. intros [X|(a & [<-|I] & X)]; [now left|destruct X|right; eauto].
      * intros s e H. destruct (C s e H) as [X|(a & I & X)]; [now left|right; exists a; split; [now right|exact X]].
Qed.

(** discovery of a list of children, named *)
Fixpoint discover_all (l : list (option tree)) : res (list answer) :=
  match l with
  | [] => Ok []
  | None :: l => bind (discover_all l) (fun r => Ok (None :: r))
  | Some t :: l => bind (discover t) (fun a => bind (discover_all l) (fun r => Ok (a :: r)))
  end.
Lemma discover_Node l : discover (Node l) = bind (discover_all l) (fun children => Ok (discover_node None children)).
Proof. reflexivity. Qed.
Lemma discover_Pick : forall l k, discover (Pick k l) = match nth_error l k with Some (Some t) => discover t | Some None => Ok None | None => UB end.
Proof. induction l as [|c l IH]; intros [|k]; try reflexivity. exact (IH k). Qed.
Definition child_answer (c : option tree) (a : answer) : Prop := match c with Some t => discover t = Ok a | None => a = None end.
Lemma discover_all_ok : forall l r, discover_all l = Ok r -> Forall2 child_answer l r.
Proof.
  induction l as [|[t|] l IH]; intros r H; cbn [discover_all] in H.
  - injection H as <-. constructor.
  - destruct (discover t) as [a| |] eqn:E; try discriminate. cbn [bind] in H. destruct (discover_all l) as [r'| |]; try discriminate. cbn [bind] in H. injection H as <-. constructor; [exact E|now apply IH].
  - destruct (discover_all l) as [r'| |]; try discriminate. cbn [bind] in H. injection H as <-. constructor; [reflexivity|now apply IH].
Qed.
Lemma Forall2_left {A B} (R : A -> B -> Prop) l l' : Forall2 R l l' -> forall x, In x l -> exists y, In y l' /\ R x y.
Proof. induction 1 as [|x y l l' Hxy _ IH]; intros z I; [destruct I|]. destruct I as [<-|I]; [eexists; split; [now left|assumption]|]. destruct (IH z I) as (y0 & I' & H'). exists y0. split; [now right|exact H']. Qed.
Lemma Forall2_right {A B} (R : A -> B -> Prop) l l' : Forall2 R l l' -> forall y, In y l' -> exists x, In x l /\ R x y.
Proof. induction 1 as [|x y l l' Hxy _ IH]; intros z I; [destruct I|]. destruct I as [<-|I]; [eexists; split; [now left|assumption]|]. destruct (IH z I) as (y0 & I' & H'). exists y0. split; [now right|exact H']. Qed.
(** induction over trees *)
Lemma tree_ind' (P : tree -> Prop) (HP : forall p, P (Parm p)) (HN : forall l, (forall t, In (Some t) l -> P t) -> P (Node l))
  (HK : forall k l, (forall t, In (Some t) l -> P t) -> P (Pick k l)) (HS : forall l, P (SolverNode l)) : forall t, P t.
Proof.
  fix IH 1. assert (L : forall l : list (option tree), forall t, In (Some t) l -> P t).
  { fix L 1. intros [|c l] t H; [destruct H|]. destruct H as [E|H]; [|exact (L l t H)]. destruct c as [t0|]; [|discriminate]. injection E as <-. apply IH. }
  intros [p|l|k l|l]; [apply HP|apply HN|apply HK|apply HS]; apply L.
Qed.

Lemma below_Parm p q : below (Parm p) q -> q = p.
Proof. intros H. now inversion H. Qed.
Lemma below_Node l p : below (Node l) p -> exists t, In (Some t) l /\ below t p.
Proof. intros H. inversion H; subst. eauto. Qed.
Lemma below_Pick k l p : below (Pick k l) p -> exists t, nth_error l k = Some (Some t) /\ below t p.
Proof. intros H. inversion H; subst. eauto. Qed.
Section Disc.
Notation distinct_spids t := (forall p f, below t p -> p_solvable p = true -> ready p = Ok f -> NoDup (f_spids f)).
Theorem discover_ok : forall t a, distinct_spids t -> discover t = Ok a ->
  in_order (map_of a) /\
  (forall s, In s (keys (map_of a)) <-> exists p i, below t p /\ unknown_of p i s) /\
  (forall s e, lookup s (map_of a) = Some e -> exists p i f, below t p /\ unknown_of p i s /\ ready p = Ok f /\ e = describe p f i).
Proof.
  induction t as [p|l IH|k l IH|l] using tree_ind'; intros a D H.
  - cbn [discover] in H. unfold discover_parm in H. destruct (p_solvable p) eqn:Es.
    + destruct (ready p) as [f| |] eqn:Ef; try discriminate. cbn [bind] in H. injection H as <-. cbn [map_of].
      destruct (fill_ok p f (f_spids f) 0 [] ltac:(constructor) (D p f (below_parm p) Es Ef)) as [A B]. split; [exact A|].
      assert (L : forall s e, lookup s (fill_map p f 0 (f_spids f) []) = Some e -> exists i, nth_error (f_spids f) i = Some s /\ e = describe p f i).
      { intros s e E. destruct (B s) as [[X _]|(j & Hj & X)]; [rewrite X in E; discriminate|]. exists j. split; [exact Hj|]. rewrite X in E. now injection E as <-. }
      split.
      * intros s. rewrite <- lookup_In. split.
        -- intros (e & E). destruct (L s e E) as (i & Hi & _). exists p, i. split; [constructor|]. split; [exact Es|]. eauto.
        -- intros (q & i & Hb & _ & f' & Ef' & Hi). apply below_Parm in Hb. subst q. rewrite Ef in Ef'. injection Ef' as <-.
           destruct (B s) as [[_ X]|(j & Hj & X)]; [|eauto]. destruct X. eapply nth_error_In. exact Hi.
      * intros s e E. destruct (L s e E) as (i & Hi & He). exists p, i, f. split; [constructor|]. split; [split; [exact Es|eauto]|]. now split.
    + injection H as <-. cbn [map_of]. split; [constructor|]. split.
      * intros s. split; [intros []|]. intros (q & i & Hb & X & _). apply below_Parm in Hb. subst q. congruence.
      * intros s e E. discriminate.
  - rewrite discover_Node in H. destruct (discover_all l) as [r| |] eqn:Er; try discriminate. cbn [bind] in H. injection H as <-.
    pose proof (discover_all_ok l r Er) as F.
    assert (Each : forall t b, In (Some t) l -> discover t = Ok b -> in_order (map_of b) /\
      (forall s, In s (keys (map_of b)) <-> exists p i, below t p /\ unknown_of p i s) /\
      (forall s e, lookup s (map_of b) = Some e -> exists p i f, below t p /\ unknown_of p i s /\ ready p = Ok f /\ e = describe p f i)).
    { intros t b I E. apply (IH t I b); [|exact E]. intros p f Hb. apply D. econstructor; eassumption. }
    destruct (node_ok r None) as (A & B & C); [constructor| |].
    { apply Forall_forall. intros b I. destruct (Forall2_right _ _ _ F b I) as ([t|] & It & Eb); cbn [child_answer] in Eb; [apply (Each t b It Eb)|subst; constructor]. }
    split; [exact A|]. split.
    + intros s. rewrite B. cbn [map_of keys map In]. split.
      * intros [[]|(b & I & X)]. destruct (Forall2_right _ _ _ F b I) as ([t|] & It & Eb); cbn [child_answer] in Eb; [|subst; destruct X].
        destruct (Each t b It Eb) as (_ & X1 & _). destruct (proj1 (X1 s) X) as (p & i & Hb & U). exists p, i. split; [econstructor; eassumption|exact U].
      * intros (p & i & Hb & U). apply below_Node in Hb as (t & It & Hb'). right. destruct (Forall2_left _ _ _ F _ It) as (b & Ib & Eb). exists b. split; [exact Ib|].
        destruct (Each t b It Eb) as (_ & X1 & _). apply X1. eauto.
    + intros s e E. destruct (C s e E) as [X|(b & I & X)]; [discriminate|]. destruct (Forall2_right _ _ _ F b I) as ([t|] & It & Eb); cbn [child_answer] in Eb; [|subst; discriminate].
      destruct (Each t b It Eb) as (_ & _ & X1). destruct (X1 s e X) as (p & i & f & Hb & U). exists p, i, f. split; [econstructor; eassumption|exact U].
  - rewrite discover_Pick in H. destruct (nth_error l k) as [[t|]|] eqn:E; try discriminate.
    + destruct (IH t (nth_error_In _ _ E) a) as (A & B & C); [intros p f Hb; apply D; econstructor; eassumption|exact H|]. split; [exact A|]. split.
      * intros s. rewrite B. split; intros (p & i & Hb & U); exists p, i; (split; [|exact U]); [econstructor; eassumption|]. apply below_Pick in Hb as (t' & E' & Hb'). rewrite E in E'. injection E' as <-. exact Hb'.
      * intros s e X. destruct (C s e X) as (p & i & f & Hb & U). exists p, i, f. split; [econstructor; eassumption|exact U].
    + injection H as <-. split; [constructor|]. split; [|discriminate]. intros s. split; [intros []|]. intros (p & i & Hb & _). apply below_Pick in Hb as (t' & E' & Hb'). rewrite E in E'. discriminate.
  - cbn [discover] in H. injection H as <-. split; [constructor|]. split; [|discriminate]. intros s. split; [intros []|]. intros (p & i & Hb & _). inversion Hb.
Qed.
End Disc.
