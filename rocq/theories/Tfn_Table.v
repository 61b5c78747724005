(** The table of pointers of TensorFunctionPert. *)
From Coq Require Import Sorted.
From Verif Require Import Base Poll_Model Vel_Model Vel_Spec Fun_Model Fun_Spec Fun_Proofs Fun_Pert Fun_Flags Tfn_Model Tfn_Spec Tfn_Proofs Tfn_Perts.
Local Open Scope Z_scope.

Lemma store_ok {A} : forall (l : list A) i x, (i < length l)%nat -> exists l', store l i x = Ok l' /\ length l' = length l /\
  forall j, nth_error l' j = if Nat.eqb j i then Some x else nth_error l j.
Proof.
  induction l as [|y l IH]; intros i x Hi; [cbn in Hi; lia|]. destruct i as [|i]; cbn [store].
  - exists (x :: l). split; [reflexivity|]. split; [reflexivity|]. intros [|j]; reflexivity.
  - destruct (IH i x) as (l' & E & L & N); [cbn in Hi; lia|]. rewrite E. cbn [bind]. exists (y :: l'). split; [reflexivity|]. split; [cbn; now rewrite L|]. intros [|j]; [reflexivity|]. exact (N j).
Qed.
Lemma IPTR_inj N M c p i c' p' i' : (p <= N)%nat -> (p' <= N)%nat -> (i < M)%nat -> (i' < M)%nat -> IPTR N M c p i = IPTR N M c' p' i' -> c = c' /\ p = p' /\ i = i'.
Proof.
  unfold IPTR. intros Hp Hp' Hi Hi' H.
  assert (E1 : (c * (N + 1) + p = c' * (N + 1) + p')%nat) by nia. assert (i = i') by nia. assert (c = c') by nia. nia.
Qed.
Lemma IPTR_bound N M n c p i : (c < n)%nat -> (p <= N)%nat -> (i < M)%nat -> (IPTR N M c p i < n * M * (1 + N))%nat.
Proof. unfold IPTR. intros. assert (c * (N + 1) + p < n * (1 + N))%nat by nia. nia. Qed.
Lemma advance_ok spid : forall l i, increasing l -> In spid l -> exists k, advance l spid i = Ok (i + k)%nat /\ nth_error l k = Some spid.
Proof.
  induction l as [|s l IH]; intros i Inc H; [contradiction|]. cbn [advance]. inversion Inc as [|? ? Inc' Fl]; subst. rewrite Forall_forall in Fl.
  destruct (Z.ltb_spec s spid) as [L|L].
  - destruct H as [->|H]; [lia|]. destruct (IH (S i) Inc' H) as (k & E & Nk). exists (S k). split; [rewrite E; f_equal; lia|exact Nk].
  - destruct H as [->|H]; [|specialize (Fl spid H); lia]. exists 0%nat. split; [f_equal; lia|reflexivity].
Qed.
Lemma increasing_nodup : forall l, increasing l -> NoDup l.
Proof. induction 1 as [|a l Hl IH Ha]; constructor; [intro X; rewrite Forall_forall in Ha; specialize (Ha a X); lia|exact IH]. Qed.
Lemma increasing_skipn k : forall l, increasing l -> increasing (skipn k l).
Proof. induction k as [|k IH]; intros [|x l] H; try exact H. cbn [skipn]. inversion H; subst. now apply IH. Qed.
Lemma firstn_lt k : forall l s y, increasing l -> nth_error l k = Some s -> In y (firstn k l) -> y < s.
Proof.
  induction k as [|k IH]; intros [|x l] s y Inc Hs Hy; cbn in *; try contradiction; try discriminate. inversion Inc as [|? ? Inc' Fl]; subst. rewrite Forall_forall in Fl.
  destruct Hy as [<-|Hy]; [apply Fl; now apply nth_error_In in Hs|exact (IH l s y Inc' Hs Hy)].
Qed.

Section Table.
Context {V P F C E : Type}.
Variable clean : Prop.
Variable pert_eqb : P -> P -> bool.
Variable perturb : E -> Z -> P -> E.
Variable delta : nat -> Z -> P.
Variable e : E.
Hypothesis Ce : clean -> forall p, pert_eqb p p = true.
Variable all : list Z.
Variable M nchild : nat.
Notation N := (length all).
Hypothesis Inc : increasing all.
Notation dl := (delta 0%nat).
Notation look vp c p i := (nth_error vp (IPTR N M c p i)).
Definition perts_ok (perts : list (option P)) : Prop := length perts = N /\ forall k s, nth_error all k = Some s -> nth_error perts k = Some None \/ nth_error perts k = Some (Some (dl s)).
Definition more (perts perts' : list (option P)) : Prop := forall k p, nth_error perts k = Some (Some p) -> nth_error perts' k = Some (Some p).
Definition room (vp : list (option V)) : Prop := (nchild * M * (1 + N) <= length vp)%nat.

Lemma fill_spids_ok (d : vdata V P) f ich ivs : tells perturb delta 1 e d f -> d_value d <> None -> (ich < nchild)%nat -> (ivs < M)%nat ->
  forall todo past ispid vp perts, d_spids d = past ++ todo -> (forall s, In s todo -> In s all) -> (forall x y, In x todo -> In y (firstn ispid all) -> y < x) ->
  perts_ok perts -> room vp ->
  spec clean False (fill_spids pert_eqb all M ich ivs (d_psets d) todo (length past) ispid (vp, perts))
    (fun '(vp', perts') => length vp' = length vp /\ perts_ok perts' /\ more perts perts' /\
       (forall k s, nth_error all k = Some s -> In s todo -> nth_error perts' k = Some (Some (dl s)) /\ look vp' ich (S k) ivs = Some (f (perturb e s (dl s)))) /\
       forall c p i, (p <= N)%nat -> (i < M)%nat -> (c <> ich \/ i <> ivs \/ p = 0%nat \/ forall s, nth_error all (pred p) = Some s -> ~ In s todo) -> look vp' c p i = look vp c p i).
Proof.
  intros T Nv Hc Hi. destruct T as (Tv & Tinc & Tpos & Tle & Tlen & Tps & Tind).
  induction todo as [|s todo IH]; intros past ispid vp perts Ed Hin Hlt Po Ro; cbn [fill_spids].
  - cbn [spec]. split; [reflexivity|]. split; [exact Po|]. split; [intros k p H; exact H|]. split; [easy|reflexivity].
  - assert (Sin : In s (skipn ispid all)).
    { specialize (Hin s (or_introl eq_refl)). rewrite <- (firstn_skipn ispid all) in Hin. apply in_app_or in Hin as [H|H]; [|exact H]. specialize (Hlt s s (or_introl eq_refl) H). lia. }
    destruct (advance_ok s (skipn ispid all) ispid (increasing_skipn _ _ Inc) Sin) as (k0 & Ea & Nk). rewrite Ea. cbn [bind]. set (k := (ispid + k0)%nat) in *.
    assert (Nk' : nth_error all k = Some s).
    { rewrite <- (firstn_skipn ispid all). assert (L : (ispid <= N)%nat) by (destruct (Nat.le_gt_cases ispid N) as [|X]; [assumption|rewrite skipn_all2 in Sin by lia; contradiction]).
      rewrite nth_error_app2 by (rewrite firstn_length_le by exact L; unfold k; lia). rewrite firstn_length_le by exact L. replace (k - ispid)%nat with k0 by (unfold k; lia). exact Nk. }
    assert (Lk : (k < N)%nat) by (apply nth_error_Some; congruence).
    rewrite (nth_error_nth all k 0 Nk'), Z.eqb_refl.
    assert (Ns : d_spids d <> []) by (rewrite Ed; destruct past; discriminate). destruct (Tlen Ns) as [Lp _].
    destruct (d_psets d) as [|ps [|? ?]] eqn:Ep; cbn in Lp; try lia. destruct (Tps 0%nat ps eq_refl) as [Pp Pv].
    assert (Nj : nth_error (d_spids d) (length past) = Some s) by (rewrite Ed, nth_error_app2 by lia; now rewrite Nat.sub_diag).
    destruct (nth_map_some (fun s => f (perturb e s (dl s))) _ _ _ _ Pv Nj) as (v & Ev & Fv). rewrite Ev.
    assert (Ep' : nth_error (ps_pert ps) (length past) = Some (dl s)) by (rewrite Pp, nth_error_map, Nj; reflexivity). rewrite Ep'. cbn [fst snd].
    destruct (store_ok vp (IPTR N M ich (k + 1) ivs) (Some v)) as (vp1 & Es & Ls & Ns1).
    { pose proof (IPTR_bound N M nchild ich (k + 1) ivs Hc ltac:(lia) Hi). unfold room in Ro. lia. }
    rewrite Es. cbn [bind].
    (* the rest, given the perturbations *)
    assert (Rest : forall perts1, perts_ok perts1 -> more perts perts1 -> nth_error perts1 k = Some (Some (dl s)) ->
      spec clean False (fill_spids pert_eqb all M ich ivs [ps] todo (S (length past)) k (vp1, perts1))
        (fun '(vp', perts') => length vp' = length vp /\ perts_ok perts' /\ more perts perts' /\
          (forall k s', nth_error all k = Some s' -> In s' (s :: todo) -> nth_error perts' k = Some (Some (dl s')) /\ look vp' ich (S k) ivs = Some (f (perturb e s' (dl s')))) /\
          forall c p i, (p <= N)%nat -> (i < M)%nat -> (c <> ich \/ i <> ivs \/ p = 0%nat \/ forall s', nth_error all (pred p) = Some s' -> ~ In s' (s :: todo)) -> look vp' c p i = look vp c p i)).
    { intros perts1 Po1 Mo1 Pk1. specialize (IH (past ++ [s]) k vp1 perts1). rewrite app_length in IH. cbn [length] in IH. rewrite Nat.add_1_r in IH.
      assert (Snt : ~ In s todo).
      { rewrite Ed in Tinc. apply sorted_app in Tinc as [_ Tinc]. inversion Tinc as [|? ? _ Ft]; subst. rewrite Forall_forall in Ft. intro X. specialize (Ft s X). lia. }
      eapply spec_imp; [apply IH|].
      - rewrite <- app_assoc. exact Ed.
      - intros s' H. apply Hin. now right.
      - intros x y Hx Hy. rewrite Ed in Tinc. apply sorted_app in Tinc as [_ Tinc]. inversion Tinc as [|? ? _ Ft]; subst. rewrite Forall_forall in Ft. specialize (Ft x Hx).
        pose proof (firstn_lt k all s y Inc Nk' Hy). lia.
      - exact Po1.
      - unfold room in *. now rewrite Ls.
      - intros [vp' perts'] (I1 & I2 & I3 & I4 & I5). split; [congruence|]. split; [exact I2|]. split; [intros k1 p1 H1; apply I3, Mo1, H1|]. split.
        + intros k1 s1 H1 H2. destruct H2 as [<-|H2]; [|exact (I4 k1 s1 H1 H2)].
          assert (k1 = k) as ->.
          { pose proof (increasing_nodup all Inc) as ND.
            rewrite NoDup_nth_error in ND. apply ND; [apply nth_error_Some; congruence|congruence]. }
          split; [apply I3; exact Pk1|]. rewrite I5; [|lia|exact Hi|].
          * rewrite Ns1. replace (k + 1)%nat with (S k) by lia. rewrite Nat.eqb_refl. now rewrite Fv.
          * right; right; right. cbn [pred]. intros s' X. rewrite Nk' in X. injection X as <-. exact Snt.
        + intros c p i H1 H2 H3. rewrite I5; [|exact H1|exact H2|].
          * rewrite Ns1. destruct (Nat.eqb_spec (IPTR N M c p i) (IPTR N M ich (k + 1) ivs)) as [X|X]; [|reflexivity].
            apply IPTR_inj in X as (-> & -> & ->); [|exact H1|lia|exact H2|exact Hi]. exfalso. destruct H3 as [X|[X|[X|X]]]; [congruence|congruence|lia|].
            apply (X s); [replace (pred (k + 1)) with k by lia; exact Nk'|now left].
          * destruct H3 as [X|[X|[X|X]]]; [now left|now (right; left)|now (right; right; left)|]. right; right; right. intros s' Hs' Hin'. apply (X s' Hs'). now right. }
    destruct Po as [Lpo Hpo]. destruct (Hpo k s Nk') as [X|X]; rewrite X.
    + destruct (store_ok perts k (Some (dl s)) ltac:(lia)) as (perts1 & Ep1 & Lp1 & Np1). rewrite Ep1. cbn [bind]. apply Rest.
      * split; [congruence|]. intros k1 s1 H1. rewrite Np1. destruct (Nat.eqb_spec k1 k) as [->|]; [right; congruence|exact (Hpo k1 s1 H1)].
      * intros k1 p1 H1. rewrite Np1. destruct (Nat.eqb_spec k1 k) as [->|]; [congruence|exact H1].
      * rewrite Np1, Nat.eqb_refl. reflexivity.
    + destruct (pert_eqb (dl s) (dl s)) eqn:Eq; [|intro Cl; rewrite (Ce Cl) in Eq; discriminate]. apply Rest; [split; assumption|intros k1 p1 H1; exact H1|exact X].
Qed.

(** what a cell of the table holds for a child value that is function [g] *)
Definition cell_ok (vp : list (option V)) (c i : nat) (g : E -> option V) : Prop :=
  g e <> None /\ look vp c 0 i = Some (g e) /\
  forall k s, nth_error all k = Some s -> look vp c (S k) i = Some (g (perturb e s (dl s))) /\ g (perturb e s (dl s)) <> None \/ look vp c (S k) i = Some None /\ g (perturb e s (dl s)) = g e.
Lemma cell_same vp vp' c i g : (i < M)%nat -> (forall p, (p <= N)%nat -> look vp' c p i = look vp c p i) -> cell_ok vp c i g -> cell_ok vp' c i g.
Proof.
  intros Hi H (H0 & H1 & H2). split; [exact H0|]. split; [rewrite H by lia; exact H1|]. intros k s Hk. assert (k < N)%nat by (apply nth_error_Some; congruence). rewrite H by lia. exact (H2 k s Hk).
Qed.
Definition blank (vp : list (option V)) (c i : nat) : Prop := forall p, (p <= N)%nat -> look vp c p i = Some None.
Lemma fill_child_ok ich : (ich < nchild)%nat -> forall (vs : list (vset V P F)) gs,
  Forall2 (fun v g => exists d, v = VData d /\ tells perturb delta 1 e d g /\ d_value d <> None) vs gs -> forall ivs vp perts,
  (forall d s, In (VData d) vs -> In s (d_spids d) -> In s all) -> (ivs + length vs <= M)%nat -> perts_ok perts -> room vp -> (forall i, (ivs <= i < M)%nat -> blank vp ich i) ->
  spec clean False (fill_child pert_eqb all M ich ivs vs (vp, perts))
    (fun '(vp', perts') => length vp' = length vp /\ perts_ok perts' /\ more perts perts' /\
      (forall d k s, In (VData d) vs -> In s (d_spids d) -> nth_error all k = Some s -> nth_error perts' k = Some (Some (dl s))) /\
      (forall j g, nth_error gs j = Some g -> cell_ok vp' ich (ivs + j) g) /\
      forall c p i, (p <= N)%nat -> (i < M)%nat -> (c <> ich \/ (i < ivs)%nat) -> look vp' c p i = look vp c p i).
Proof.
  intros Hc. induction 1 as [|v g vs gs (d & -> & T & Nv) H IH]; intros ivs vp perts Hin Hl Po Ro Bl; cbn [fill_child].
  - cbn [spec]. split; [reflexivity|]. split; [exact Po|]. split; [intros k p X; exact X|]. split; [easy|]. split; [intros [|j] g X; discriminate|reflexivity].
  - cbn [length] in Hl. destruct (d_value d) as [v|] eqn:Ev; [|contradiction]. cbn [fst snd].
    destruct (store_ok vp (IPTR N M ich 0 ivs) (Some v)) as (vp1 & Es & Ls & Ns1).
    { pose proof (IPTR_bound N M nchild ich 0 ivs Hc ltac:(lia) ltac:(lia)). unfold room in Ro. lia. }
    rewrite Es. cbn [bind]. assert (Nv' : d_value d <> None) by congruence. assert (Hi : (ivs < M)%nat) by lia.
    assert (Ge : g e = Some v) by (destruct T as (T & _); congruence).
    eapply spec_bind.
    { apply (fill_spids_ok d g ich ivs T Nv' Hc Hi (d_spids d) [] 0%nat vp1 perts); [reflexivity| |easy|exact Po|unfold room in *; now rewrite Ls].
      intros s Hs. exact (Hin d s (or_introl eq_refl) Hs). }
    intros [vp2 perts2] (J1 & J2 & J3 & J4 & J5).
    assert (Cell : cell_ok vp2 ich ivs g).
    { split; [congruence|]. split; [rewrite J5 by (try lia; right; right; now left); rewrite Ns1, Nat.eqb_refl; congruence|]. intros k s Hk. assert (Lk : (k < N)%nat) by (apply nth_error_Some; congruence).
      destruct (in_dec Z.eq_dec s (d_spids d)) as [Hs|Hs].
      - left. destruct (J4 k s Hk Hs) as [_ X]. split; [exact X|]. destruct T as (Tv & _ & _ & _ & Tlen & Tps & _). assert (Nn : d_spids d <> []) by (intro Y; rewrite Y in Hs; contradiction). destruct (Tlen Nn) as [Lp _].
        destruct (nth_error (d_psets d) 0) as [ps|] eqn:Ep; [|apply nth_error_None in Ep; lia]. destruct (Tps 0%nat ps Ep) as [_ Pv]. apply In_nth_error in Hs as (i0 & Hs). destruct (nth_map_some (fun s => g (perturb e s (dl s))) _ _ _ _ Pv Hs) as (y & _ & Y). congruence.
      - right. split; [|destruct T as (_ & _ & _ & _ & _ & _ & Tind); apply Tind; [lia|exact Hs]]. rewrite J5; [|lia|exact Hi|].
        + rewrite Ns1. destruct (Nat.eqb_spec (IPTR N M ich (S k) ivs) (IPTR N M ich 0 ivs)) as [X|X]; [apply IPTR_inj in X; lia|]. apply (Bl ivs); lia.
        + right; right; right. cbn [pred]. intros s' X. rewrite Hk in X. injection X as <-. exact Hs. }
    eapply spec_imp.
    { apply (IH (S ivs) vp2 perts2); [intros d' s' H1 H2; apply (Hin d' s'); [now right|exact H2]|lia|exact J2|unfold room in *; lia|].
      intros i Hi2 p Hp. rewrite J5; [|exact Hp|lia|right; left; lia]. rewrite Ns1. destruct (Nat.eqb_spec (IPTR N M ich p i) (IPTR N M ich 0 ivs)) as [X|X]; [apply IPTR_inj in X; lia|]. apply (Bl i); lia. }
    intros [vp3 perts3] (K1 & K2 & K3 & K4 & K5 & K6). split; [congruence|]. split; [exact K2|]. split; [intros k p X; apply K3, J3, X|]. split.
    + intros d' k s [X|X] H1 H2; [injection X as <-; apply K3; exact (proj1 (J4 k s H2 H1))|exact (K4 d' k s X H1 H2)].
    + split.
      * intros [|j] g' X; cbn in X.
        -- injection X as <-. rewrite Nat.add_0_r. apply (cell_same vp2); [exact Hi| |exact Cell]. intros p Hp. apply K6; [exact Hp|exact Hi|right; lia].
        -- specialize (K5 j g' X). now rewrite Nat.add_succ_comm in K5.
      * intros c p i H1 H2 H3. rewrite K6; [|exact H1|exact H2|destruct H3; [now left|right; lia]]. rewrite J5; [|exact H1|exact H2|destruct H3; [now left|right; left; lia]].
        rewrite Ns1. destruct (Nat.eqb_spec (IPTR N M c p i) (IPTR N M ich 0 ivs)) as [X|X]; [apply IPTR_inj in X; lia|]. reflexivity.
Qed.
Lemma fill_ok : forall (cs : list (tresult V P F C)) fs, Forall2 (stands_for perturb delta 1 e) cs fs -> forall ich vp perts,
  (forall d s, among cs d -> In s (d_spids d) -> In s all) -> (ich + length cs <= nchild)%nat -> (forall c, In c cs -> (length (r_vs (t_res c)) <= M)%nat) -> perts_ok perts -> room vp -> (forall c i, (ich <= c < nchild)%nat -> (i < M)%nat -> blank vp c i) ->
  spec clean False (fill pert_eqb all M ich cs (vp, perts))
    (fun '(vp', perts') => perts_ok perts' /\ more perts perts' /\
      (forall d k s, among cs d -> In s (d_spids d) -> nth_error all k = Some s -> nth_error perts' k = Some (Some (dl s))) /\
      (forall c gs i g, nth_error fs c = Some gs -> nth_error gs i = Some g -> cell_ok vp' (ich + c) i g) /\
      forall c p i, (p <= N)%nat -> (i < M)%nat -> (c < ich)%nat -> look vp' c p i = look vp c p i).
Proof.
  induction 1 as [|c f cs fs Hc H IH]; intros ich vp perts Hin Hl Hm Po Ro Bl; cbn [fill].
  - cbn [spec]. split; [exact Po|]. split; [intros k p X; exact X|]. split; [intros d k s (c & [] & _)|]. split; [intros [|c] gs i g X; discriminate|reflexivity].
  - cbn [length] in Hl. eapply spec_bind.
    { apply (fill_child_ok ich ltac:(lia) _ _ Hc 0%nat vp perts); [|apply Hm; now left|exact Po|exact Ro|intros i Hi; apply Bl; lia].
      intros d s H1 H2. apply (Hin d s); [exists c; split; [now left|exact H1]|exact H2]. }
    intros [vp1 perts1] (J1 & J2 & J3 & J4 & J5 & J6). eapply spec_imp.
    { apply (IH (S ich) vp1 perts1); [|lia|intros c' Hc'; apply Hm; now right|exact J2|unfold room in *; lia|].
      - intros d s (c' & H1 & H2) H3. apply (Hin d s); [exists c'; split; [now right|exact H2]|exact H3].
      - intros c' i H1 H2 p Hp. rewrite J6; [|exact Hp|exact H2|left; lia]. apply Bl; lia. }
    intros [vp2 perts2] (K2 & K3 & K4 & K5 & K6). split; [exact K2|]. split; [intros k p X; apply K3, J3, X|]. split; [|split].
    + intros d k s (c' & [<-|H1] & H2) H3 H4; [apply K3; exact (J4 d k s H2 H3 H4)|]. apply (K4 d k s); [exists c'; auto|exact H3|exact H4].
    + intros [|c'] gs i g H1 H2; cbn in H1.
      * injection H1 as <-. rewrite Nat.add_0_r.
        assert (Hi : (i < M)%nat). { assert (i < length f)%nat by (apply nth_error_Some; congruence). pose proof (Forall2_len _ _ _ Hc). specialize (Hm c (or_introl eq_refl)). lia. }
        apply (cell_same vp1); [exact Hi| |exact (J5 i g H2)]. intros p Hp. apply K6; [exact Hp|exact Hi|lia].
      * specialize (K5 c' gs i g H1 H2). now rewrite Nat.add_succ_comm in K5.
    + intros c' p i H1 H2 H3. rewrite K6; [|exact H1|exact H2|lia]. apply J6; [exact H1|exact H2|left; lia].
Qed.
(** what the node class reads *)
Lemma getChildValue_ok vp c i g : cell_ok vp c i g -> getChildValue vp N M c 0 i = Ok (g e) /\ forall k s, nth_error all k = Some s -> getChildValue vp N M c (S k) i = Ok (g (perturb e s (dl s))).
Proof.
  intros (H0 & H1 & H2). unfold getChildValue. split; [rewrite H1; destruct (g e); reflexivity|]. intros k s Hk. destruct (H2 k s Hk) as [[X Y]|[X Y]]; rewrite X.
  - destruct (g (perturb e s (dl s))); [reflexivity|contradiction].
  - rewrite H1. now rewrite Y.
Qed.
End Table.

Lemma spec_ub {A} clean ub (r : res A) Q : spec clean False r Q -> spec clean ub r Q.
Proof. destruct r; cbn; [exact (fun H => H)|exact (fun H => H)|contradiction]. Qed.
Lemma each_map {A B} (F : nat -> res B) (h : A -> B) : forall gs i0, (forall i g, nth_error gs i = Some g -> F (i0 + i)%nat = Ok (h g)) -> each F (seq i0 (length gs)) = Ok (map h gs).
Proof.
  induction gs as [|g gs IH]; intros i0 H; [reflexivity|]. cbn [length seq each]. rewrite <- (Nat.add_0_r i0) at 1. rewrite (H 0%nat g eq_refl). cbn [bind].
  rewrite (IH (S i0)); [reflexivity|]. intros i g' Hi. rewrite Nat.add_succ_comm. exact (H (S i) g' Hi).
Qed.
Lemma each_spec {A B} clean ub (F : A -> res B) : forall l, (forall x, In x l -> spec clean ub (F x) (fun _ => True)) -> spec clean ub (each F l) (Forall2 (fun x y => F x = Ok y) l).
Proof.
  induction l as [|x l IH]; intro H; [constructor|]. cbn [each]. pose proof (H x (or_introl eq_refl)) as Hx. destruct (F x) as [y| |] eqn:Ex; cbn [bind]; [|exact Hx|exact Hx].
  eapply spec_bind; [apply IH; intros x' Hx'; apply H; now right|]. intros r Hr. cbn [spec]. constructor; assumption.
Qed.
Lemma max_all : forall l a, (a <= fold_left Nat.max l a)%nat /\ forall x, In x l -> (x <= fold_left Nat.max l a)%nat.
Proof.
  induction l as [|y l IH]; intro a; cbn [fold_left]; [split; [lia|easy]|]. destruct (IH (Nat.max a y)) as [I1 I2]. split; [lia|]. intros x [<-|H]; [lia|now apply I2].
Qed.

Section PertNode.
Context {V P F C E : Type}.
Variable clean ub : Prop.
Variable isNull : V -> bool.
Variable accepts : option (vells Z) -> list V -> V -> bool.
Variable pert_eqb : P -> P -> bool.
Variable getResultDims : list (list nat) -> res (list nat).
Variable evaluateTensors : list (list (option V)) -> res (list V).
Variable pzero : P.
Variable perturb : E -> Z -> P -> E.
Variable delta : nat -> Z -> P.
Variable e : E.
Hypothesis Ce : clean -> forall p, pert_eqb p p = true.
Hypothesis Ca : clean -> forall f l v, accepts f l v = true.
Notation dl := (delta 0%nat).

Lemma arguments_ok vp N M ip e' (fs : list (list (E -> option V))) : (forall c gs i g, nth_error fs c = Some gs -> nth_error gs i = Some g -> getChildValue vp N M c ip i = Ok (g e')) ->
  arguments vp N M (map (@length _) fs) ip = Ok (map (map (fun g => g e')) fs).
Proof.
  unfold arguments. rewrite map_length. intro H.
  assert (G : forall fs c0, (forall c gs i g, nth_error fs c = Some gs -> nth_error gs i = Some g -> getChildValue vp N M (c0 + c) ip i = Ok (g e')) ->
    each (fun '(ichild, n) => each (getChildValue vp N M ichild ip) (seq 0 n)) (combine (seq c0 (length fs)) (map (@length _) fs)) = Ok (map (map (fun g => g e')) fs)).
  { clear H. induction fs0 as [|gs fs0 IH]; intros c0 H; [reflexivity|]. cbn [length seq map combine each].
    rewrite (each_map _ (fun g => g e') gs 0%nat); [|intros i g Hi; rewrite <- (Nat.add_0_r c0); exact (H 0%nat gs i g eq_refl Hi)]. cbn [bind].
    rewrite (IH (S c0)); [reflexivity|]. intros c gs' i g H1 H2. rewrite Nat.add_succ_comm. exact (H (S c) gs' i g H1 H2). }
  apply G. exact H.
Qed.
Lemma flat_data (cs : list (tresult V P F C)) fs : Forall2 (stands_for perturb delta 1 e) cs fs -> map vset_data (flat_map (fun c => r_vs (t_res c)) cs) = map Some (concat (all_of cs)) /\ map (fun c => length (r_vs (t_res c))) cs = map (@length _) fs.
Proof.
  induction 1 as [|c f cs fs Hc H [IH1 IH2]]; [split; reflexivity|]. cbn [flat_map all_of map concat]. rewrite !map_app, IH1, IH2. unfold stands_for in Hc.
  assert (X : map vset_data (r_vs (t_res c)) = map Some (flat_map (fun v => match v with VData d => [d] | VFail _ => [] end) (r_vs (t_res c)))).
  { clear - Hc. induction Hc as [|v g vs gs (d & -> & _) H IH]; [reflexivity|]. cbn [map flat_map app vset_data]. now rewrite IH. }
  rewrite X, (Forall2_len _ _ _ Hc). split; reflexivity.
Qed.
Lemma accept_each_clean flags : clean -> forall rows held, accept_each accepts flags held rows = true.
Proof. intro Cl. induction rows as [|r rows IH]; intro held; [reflexivity|]. cbn [accept_each]. rewrite (accept_all_clean clean accepts Ca) by exact Cl. apply IH. Qed.

Lemma compute_pert_ok old flagmask cs fs dims flags :
  Forall2 (stands_for perturb delta 1 e) cs fs ->
  getResultDims (map (fun c : tresult V P F C => r_dims (t_res c)) cs) = Ok dims -> evaluateTensorFlags isNull flagmask (all_of cs) = Ok flags ->
  (forall e', e' = e \/ (exists s, e' = perturb e s (dl s)) -> spec clean ub (bind (evaluateTensors (map (map (fun f => f e')) fs)) (outputs (num_planes dims))) (fun _ => True)) ->
  spec clean ub (computeTensorResultPert isNull accepts pert_eqb getResultDims evaluateTensors pzero old flagmask cs)
    (fun r => r_dims r = kept_dims dims /\ length (r_vs r) = num_planes dims /\
       forall j vs, nth_error (r_vs r) j = Some vs -> exists d, vs = VData d /\ tells perturb delta 1 e d (element evaluateTensors fs j) /\ d_value d <> None /\ d_flags d = flags).
Proof.
  intros St Gd Gf Cv. destruct (collect_stands perturb delta 1 e cs fs St) as [Ec Rc]. pose proof (rel_concat perturb delta 1 e _ _ Rc) as R.
  destruct (flat_data cs fs St) as [Fd Fl]. unfold computeTensorResultPert. rewrite Fd, Fl. set (M := fold_left Nat.max (map (@length _) fs) 0%nat).
  destruct (findSpids (map Some (concat (all_of cs)))) as [npert merged] eqn:Ef.
  destruct (findSpids_ok pert_eqb perturb delta 1 e _ _ _ _ R Ef) as (Minc & Min & Mpos & Mn & Mle).
  destruct (Nat.eqb_spec npert 2) as [X|_]; [lia|]. set (nres := num_planes dims) in *.
  assert (Sub : forall d s, among cs d -> In s (d_spids d) -> In s merged).
  { intros d s Hd Hs. apply Min. apply existsb_exists. exists (Some d). split; [|now apply has_spid_in]. apply in_map. now apply (among_concat cs _ d Ec). }
  eapply spec_bind.
  { apply spec_ub. apply (fill_ok clean pert_eqb perturb delta e Ce merged M (length cs) Minc cs fs St 0%nat); [exact Sub|lia| | | |].
    - intros c Hc. apply (proj2 (max_all (map (@length _) fs) 0%nat)). rewrite <- Fl. apply in_map_iff. exists c. auto.
    - split; [apply repeat_length|]. intros k s Hk. left. rewrite (nth_error_nth' _ None) by (rewrite repeat_length; apply nth_error_Some; congruence). f_equal. apply nth_repeat.
    - unfold room. rewrite repeat_length. lia.
    - intros c i Hc Hi p Hp. pose proof (IPTR_bound (length merged) M (length cs) c p i ltac:(lia) Hp Hi) as B. rewrite (nth_error_nth' _ None) by (rewrite repeat_length; lia). f_equal. apply nth_repeat. }
  intros [vp perts] (K1 & K2 & K3 & K4 & _). rewrite Gd. cbn [bind]. fold nres.
  (* the arguments of each evaluation *)
  set (point := fun ip => match ip with O => e | S k => match nth_error merged k with Some s => perturb e s (dl s) | None => e end end).
  assert (Args : forall ip, (ip <= length merged)%nat -> arguments vp (length merged) M (map (@length _) fs) ip = Ok (map (map (fun g => g (point ip))) fs)).
  { intros ip Hip. apply arguments_ok. intros c gs i g H1 H2. destruct (getChildValue_ok perturb delta e merged M vp c i g (K4 c gs i g H1 H2)) as [G1 G2].
    destruct ip as [|k]; [exact G1|]. unfold point. destruct (nth_error merged k) as [s|] eqn:Es; [exact (G2 k s Es)|apply nth_error_None in Es; lia]. }
  eapply spec_bind.
  { apply each_spec. intros ip Hip. apply in_seq in Hip. rewrite Args by lia. cbn [bind]. apply Cv. destruct ip as [|k]; [now left|]. unfold point. destruct (nth_error merged k) as [s|]; [right; eauto|now left]. }
  intros rows Hr. rewrite Ec. cbn [bind]. rewrite Gf. cbn [bind].
  destruct (accept_each accepts flags (repeat [] nres) rows) eqn:Ac; [|intro Cl; rewrite accept_each_clean in Ac by exact Cl; discriminate].
  cbn [spec r_dims r_vs]. split; [reflexivity|]. split; [rewrite map_length; apply seq_length|]. intros j vs Hj.
  assert (Hlt : (j < nres)%nat) by (rewrite <- (seq_length nres 0), <- (map_length (fun j => VData {| d_value := match rows with r :: _ => nth_error r j | [] => None end; d_flags := flags; d_spids := merged; d_psets := [{| ps_pert := map (fun p => match p with Some p => p | None => pzero end) perts; ps_val := flat_map (fun r => match nth_error r j with Some v => [v] | None => [] end) (tl rows) |}] |} : vset V P F)); apply nth_error_Some; congruence).
  rewrite nth_error_map, (nth_error_nth' _ 0%nat) in Hj by (rewrite seq_length; exact Hlt). rewrite seq_nth in Hj by exact Hlt. cbn [option_map plus] in Hj. injection Hj as <-.
  (* the rows *)
  assert (Row : forall ip vs, (ip <= length merged)%nat -> bind (arguments vp (length merged) M (map (@length _) fs) ip) (fun args => bind (evaluateTensors args) (outputs nres)) = Ok vs ->
    exists v, nth_error vs j = Some v /\ element evaluateTensors fs j (point ip) = Some v).
  { intros ip vs Hip H. rewrite Args in H by exact Hip. cbn [bind] in H. unfold element. destruct (evaluateTensors _) as [out| |]; cbn [bind] in H; try discriminate. apply outputs_len in H as [L Nn].
    rewrite <- Nn by exact Hlt. destruct (nth_error vs j) as [v|] eqn:Ev; [eauto|apply nth_error_None in Ev; lia]. }
  cbn [plus seq] in Hr. inversion Hr as [|? r0 ? rest H0 Hrest]; subst. destruct (Row 0%nat r0 ltac:(lia) H0) as (v0 & Ev0 & El0). cbn [point] in El0.
  eexists. split; [reflexivity|]. rewrite Ev0. split; [|split; [discriminate|reflexivity]]. cbn [tl].
  split; [cbn [d_value]; now rewrite El0|]. cbn [d_spids d_psets d_value length]. split; [exact Minc|]. split; [apply Forall_forall; exact Mpos|]. split; [lia|]. split; [split; [reflexivity|discriminate]|]. split.
  - intros k ps Hps. destruct k as [|[|k]]; cbn in Hps; try discriminate. injection Hps as <-. cbn [ps_pert ps_val]. split.
    + destruct K1 as [L1 _]. assert (All : forall k s, nth_error merged k = Some s -> nth_error perts k = Some (Some (dl s))).
      { intros k s Hk. pose proof (nth_error_In _ _ Hk) as Hs. apply Min in Hs. apply existsb_exists in Hs as ([d|] & Hd & Hs); [|discriminate]. apply has_spid_in in Hs.
        apply in_map_iff in Hd as (d' & Ed & Hd). injection Ed as ->. apply (K3 d k s); [apply (among_concat cs _ d Ec); exact Hd|exact Hs|exact Hk]. }
      clear - L1 All. revert perts L1 All. induction merged as [|s l IH]; intros [|p perts] L1 All; try discriminate; [reflexivity|]. cbn [map]. specialize (All 0%nat s eq_refl) as A0. cbn in A0. injection A0 as ->. f_equal.
      apply IH; [cbn in L1; lia|]. intros k s' Hk. exact (All (S k) s' Hk).
    + assert (G : forall l k0 rest0, (forall k s, nth_error l k = Some s -> nth_error merged (k0 + k) = Some s) -> (k0 + length l <= length merged)%nat ->
        Forall2 (fun ip vs => bind (arguments vp (length merged) M (map (@length _) fs) ip) (fun args => bind (evaluateTensors args) (outputs nres)) = Ok vs) (seq (S k0) (length l)) rest0 ->
        map Some (flat_map (fun r => match nth_error r j with Some v => [v] | None => [] end) rest0) = map (fun s => element evaluateTensors fs j (perturb e s (dl s))) l).
      { induction l as [|s l IH]; intros k0 rest0 Hn Hl Hf; cbn [length seq] in Hf; inversion Hf as [|? vs ? rest1 Hv Hf']; subst; [reflexivity|]. cbn [flat_map map]. cbn [length] in Hl.
        destruct (Row (S k0) vs ltac:(lia) Hv) as (v & Ev & El). unfold point in El. pose proof (Hn 0%nat s eq_refl) as Hs. rewrite Nat.add_0_r in Hs. rewrite Hs in El. rewrite Ev, El. cbn [app map]. f_equal.
        apply (IH (S k0)); [|lia|exact Hf']. intros k s' Hk. rewrite Nat.add_succ_comm. exact (Hn (S k) s' Hk). }
      apply (G merged 0%nat rest); [intros k s Hk; exact Hk|lia|exact Hrest].
  - intros k s Hk Hs. assert (k = 0%nat) as -> by lia. unfold element. rewrite (same_args perturb delta 1 e _ _ 0%nat s Hk Rc); [reflexivity|]. destruct (existsb (has_spid s) _) eqn:X; [|reflexivity]. apply Min in X. contradiction.
Qed.
End PertNode.
