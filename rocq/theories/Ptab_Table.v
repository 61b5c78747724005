(** The table of parameter values holds what its history says. *)
From Coq Require Import QArith Qcanon Sorted.
From Verif Require Import Base Bytes_Model Bytes_Proofs Ptab_Model Ptab_Spec Ptab_Proofs.
Close Scope Q_scope. Close Scope Qc_scope. Local Open Scope nat_scope.
Notation domain := (list (option (num * num))) (only parsing).
Notation bytes := (list Z) (only parsing).

(** ** Finding the entry of a domain *)
Lemma search_some d es : forall i j, search d i es = Some j ->
  i <= j /\ exists e, nth_error es (j - i) = Some e /\ match_ e d = true.
Proof.
  induction es as [|e es IH]; intros i j H; cbn [search] in H; [discriminate|].
  destruct (search d (S i) es) as [k|] eqn:E.
  - assert (j = k) by congruence. subst k. apply IH in E as [L [e' [N M]]]. split; [lia|].
    exists e'. split; [|exact M]. replace (j - i) with (S (j - S i)) by lia. exact N.
  - destruct (match_ e d) eqn:M; [|discriminate]. assert (i = j) by congruence. subst j.
    split; [lia|]. exists e. rewrite Nat.sub_diag. split; [reflexivity|exact M].
Qed.
Lemma search_none d es : forall i, search d i es = None -> forall e, In e es -> match_ e d = false.
Proof.
  induction es as [|e es IH]; intros i H x Hx; [destruct Hx|]. cbn [search] in H.
  destruct (search d (S i) es) as [k|] eqn:E; [discriminate|].
  destruct (match_ e d) eqn:M; [discriminate|]. destruct Hx as [<-|Hx]; [exact M|]. eapply IH; eassumption.
Qed.
Lemma match_refl d : match_ d d = true.
Proof. apply match_near, near_refl. Qed.
Lemma find_some es d id i : find_domain es d id = Some i ->
  exists e, nth_error es i = Some e /\ match_ e d = true.
Proof.
  unfold find_domain. intros H.
  destruct ((0 <=? id) && (id <? Z.of_nat (length es)))%Z.
  - destruct (nth_error es (Z.to_nat id)) as [e|] eqn:N.
    + destruct (match_ e d) eqn:M.
      * assert (i = Z.to_nat id) by congruence. subst i. exists e. split; assumption.
      * apply search_some in H as [_ [e' [N' M']]]. rewrite Nat.sub_0_r in N'. exists e'. split; assumption.
    + apply search_some in H as [_ [e' [N' M']]]. rewrite Nat.sub_0_r in N'. exists e'. split; assumption.
  - apply search_some in H as [_ [e' [N' M']]]. rewrite Nat.sub_0_r in N'. exists e'. split; assumption.
Qed.
Lemma find_none es d id : find_domain es d id = None -> forall e, In e es -> match_ e d = false.
Proof.
  unfold find_domain. intros H.
  assert (S : search d 0 es = None).
  { destruct ((0 <=? id) && (id <? Z.of_nat (length es)))%Z; [|exact H].
    destruct (nth_error es (Z.to_nat id)) as [e|]; [|exact H].
    destruct (match_ e d); [discriminate|exact H]. }
  eapply search_none; eassumption.
Qed.

Lemma place_some d ds i : place d ds = Some i -> nth_error ds i = Some d.
Proof.
  revert i. induction ds as [|e ds IH]; intros i H; cbn [place] in H; [discriminate|].
  destruct (dom_dec e d) as [->|N]; [assert (i = 0) by congruence; subst; reflexivity|].
  destruct (place d ds) as [j|]; [|discriminate]. cbn in H.
  assert (i = S j) by congruence. subst i. cbn. apply IH. reflexivity.
Qed.
Lemma place_in d ds : In d ds -> exists i, place d ds = Some i.
Proof.
  induction ds as [|e ds IH]; intros H; [destruct H|]. cbn [place].
  destruct (dom_dec e d) as [E|N]; [exists 0; reflexivity|].
  destruct H as [H|H]; [contradiction|]. destruct (IH H) as [i ->]. exists (S i). reflexivity.
Qed.

Section Hist.
Context {rest : Type}.
Notation history := (history rest).
(** ** Histories *)
Lemma domains_snoc (h : history) e : domains_of (h ++ [e]) = add_domain (domains_of h) e.
Proof. unfold domains_of. rewrite fold_left_app. reflexivity. Qed.
Lemma kept_snoc (h : history) e n d : kept (h ++ [e]) n d = keep n d (kept h n d) e.
Proof. unfold kept. rewrite fold_left_app. reflexivity. Qed.

Lemma domains_nodup (h : history) : NoDup (domains_of h).
Proof.
  induction h as [|e h IH] using rev_ind; [constructor|]. rewrite domains_snoc.
  destruct e as [n f| | |]; cbn [add_domain]; try exact IH.
  destruct (in_dec dom_dec (f_dom f) (domains_of h)) as [I|I]; [exact IH|].
  clear - IH I. induction (domains_of h) as [|d ds IHd]; cbn; [constructor; [tauto|constructor]|].
  apply NoDup_cons_iff in IH as [A B]. constructor.
  - rewrite in_app_iff. intros [C|[C|[]]]; [tauto|]. apply I. left. congruence.
  - apply IHd; [exact B|]. intros C. apply I. right. exact C.
Qed.
Lemma domains_in (h : history) d : In d (domains_of h) <-> exists n f, In (Saved n f) h /\ f_dom f = d.
Proof.
  induction h as [|e h IH] using rev_ind.
  - cbn. split; [tauto|]. intros [n [f [[] _]]].
  - rewrite domains_snoc. setoid_rewrite in_app_iff.
    destruct e as [n f|n d'|n|]; cbn [add_domain].
    + destruct (in_dec dom_dec (f_dom f) (domains_of h)) as [I|I].
      * rewrite IH. split.
        -- intros [m [g [A B]]]. exists m, g. tauto.
        -- intros [m [g [[A|[A|[]]] B]]]; [exists m, g; tauto|].
           assert (f = g) by congruence. subst g. rewrite B in I. apply IH. exact I.
      * rewrite in_app_iff, IH. split.
        -- intros [[m [g [A B]]]|[A|[]]]; [exists m, g; tauto|]. exists n, f. split; [right; left; reflexivity|exact A].
        -- intros [m [g [[A|[A|[]]] B]]]; [left; exists m, g; tauto|].
           assert (f = g) by congruence. subst g. right. left. exact B.
    + rewrite IH. split; intros [m [g [A B]]]; exists m, g; [tauto|].
      destruct A as [A|[A|[]]]; [tauto|discriminate].
    + rewrite IH. split; intros [m [g [A B]]]; exists m, g; [tauto|].
      destruct A as [A|[A|[]]]; [tauto|discriminate].
    + rewrite IH. split; intros [m [g [A B]]]; exists m, g; [tauto|].
      destruct A as [A|[A|[]]]; [tauto|discriminate].
Qed.
Lemma kept_saved (h : history) n d f : kept h n d = Some f -> In (Saved n f) h /\ f_dom f = d.
Proof.
  revert f. induction h as [|e h IH] using rev_ind; intros f H; [discriminate|].
  rewrite kept_snoc in H. rewrite in_app_iff.
  destruct e as [n' f'|n' d'|n'|]; cbn [keep] in H.
  - destruct (name_dec n' n) as [->|N]; [|apply IH in H; tauto].
    destruct (dom_dec (f_dom f') d) as [E|N]; [|apply IH in H; tauto].
    assert (f' = f) by congruence. subst f'. cbn. tauto.
  - destruct (name_dec n' n); [destruct (dom_dec d' d)|]; try discriminate; apply IH in H; tauto.
  - destruct (name_dec n' n); try discriminate; apply IH in H; tauto.
  - apply IH in H; tauto.
Qed.
Lemma kept_in (h : history) n d f : kept h n d = Some f -> In d (domains_of h).
Proof. intros H. apply kept_saved in H as [A B]. apply domains_in. exists n, f. tauto. Qed.
Lemma domains_mono (h : history) e d : In d (domains_of h) -> In d (domains_of (h ++ [e])).
Proof. rewrite !domains_in. setoid_rewrite in_app_iff. intros [n [f [A B]]]. exists n, f. tauto. Qed.

Lemma told_before (h : history) e : told_apart (h ++ [e]) -> told_apart h.
Proof. intros T d d' A B. apply T; apply domains_mono; assumption. Qed.
Lemma domains_len_mono (h : history) e : length (domains_of h) <= length (domains_of (h ++ [e])).
Proof.
  rewrite domains_snoc. destruct e as [n f| | |]; cbn [add_domain]; try lia.
  destruct (in_dec _ _ _); [lia|]. rewrite app_length. lia.
Qed.
End Hist.

Section Table.
Variable as_num : list bool -> num.
Variable as_flags : num -> list bool.
Variable rest : Type.
Variable tp : Z.
Variable pert weight : bytes.
Variable r0 : rest.
Variable enc : funk rest -> list bytes.
Variable dec : list bytes -> res (funk rest).
Notation value_of := (value_of rest enc).
Notation putCoeff := (putCoeff rest enc).
Notation step := (step as_num as_flags rest enc).
Notation run_from := (run_from as_num as_flags rest enc).
Notation run := (run as_num as_flags rest enc).
Notation getFunklet := (getFunklet rest tp pert weight r0 dec).
Notation getFunklets := (getFunklets rest tp pert weight r0 dec).
Notation storable := (storable enc dec).
Notation all_storable := (all_storable enc dec).
Notation restored := (restored tp pert weight r0).
Notation history := (history rest).
Notation event := (event rest).

(** ** Values *)
Lemma value_ok f : storable f -> exists v, value_of f = Ok v.
Proof.
  intros [_ [C _]]. unfold Ptab_Model.value_of.
  destruct (f_polc f && (length (f_coeff f) <=? 1)) eqn:E; [|eexists; reflexivity].
  apply andb_true_iff in E as [E1 E2]. apply Nat.leb_le in E2.
  destruct (C (conj E1 E2)) as [c [-> _]]. eexists; reflexivity.
Qed.
Lemma constant_test (f : funk rest) : f_polc f && (length (f_coeff f) <=? 1) = true <-> constant f.
Proof. unfold constant. rewrite andb_true_iff, Nat.leb_le. reflexivity. Qed.

Definition val (f : funk rest) : option bytes := match value_of f with Ok v => Some v | _ => None end.

(** ** The invariant *)
Record good (t : table) (h : history) : Prop := {
  g_list : t_list t = domains_of h;
  g_file : k_file (t_disk t) = flat_map entry_chunks (domains_of h);
  g_db : forall n i, (Z.of_nat i < 2 ^ 31)%Z ->
         db_get (k_db (t_disk t)) (makeKey n i) =
         match nth_error (domains_of h) i with
         | Some d => match kept h n d with Some f => val f | None => None end
         | None => None
         end }.

Lemma good_new : good (open_table as_num as_flags new_disk) [].
Proof.
  constructor; try reflexivity. intros n i _. cbn. destruct i; reflexivity.
Qed.

Lemma nodup_place {A} (l : list A) i j x : NoDup l -> nth_error l i = Some x -> nth_error l j = Some x -> i = j.
Proof.
  intros N Hi Hj. apply (proj1 (NoDup_nth_error l) N); [|congruence].
  apply nth_error_Some. congruence.
Qed.

Lemma storable_before (h : history) e : all_storable (h ++ [e]) -> all_storable h.
Proof.
  clear weight pert tp r0.
  intros [S L]. split; [intros n f I; apply (S n f), in_app_iff; tauto|].
  pose proof (domains_len_mono h e). lia.
Qed.

(** saving: the entry found *)
Lemma find_domain_spec (h : history) n f id : told_apart (h ++ [Saved n f]) ->
  match find_domain (domains_of h) (f_dom f) id with
  | Some i => nth_error (domains_of h) i = Some (f_dom f)
  | None => ~ In (f_dom f) (domains_of h)
  end.
Proof.
  intros T. destruct (find_domain (domains_of h) (f_dom f) id) as [i|] eqn:F.
  - apply find_some in F as [e [N M]]. rewrite N. f_equal. apply T.
    + apply domains_mono. eapply nth_error_In; eassumption.
    + apply domains_in. exists n, f. split; [apply in_app_iff; right; left; reflexivity|reflexivity].
    + apply match_near, M.
  - intros I. pose proof (find_none _ _ _ F _ I) as M. rewrite match_refl in M. discriminate.
Qed.

Lemma step_saved t h n f : good t h -> all_storable (h ++ [Saved n f]) -> told_apart (h ++ [Saved n f]) ->
  exists t' i, putCoeff t n f = Ok (t', i) /\ good t' (h ++ [Saved n f])
             /\ nth_error (domains_of (h ++ [Saved n f])) i = Some (f_dom f).
Proof.
  clear tp pert weight r0.
  intros G S T. destruct S as [S L].
  assert (Sf : storable f) by (apply (S n), in_app_iff; right; left; reflexivity).
  destruct (value_ok f Sf) as [v V]. unfold Ptab_Model.putCoeff.
  pose proof (find_domain_spec h n f (f_id f) T) as F. rewrite (g_list _ _ G).
  destruct (find_domain (domains_of h) (f_dom f) (f_id f)) as [i|].
  - rewrite V. cbn [bind]. eexists. exists i. split; [reflexivity|].
    assert (D : domains_of (h ++ [Saved n f]) = domains_of h).
    { rewrite domains_snoc. cbn [add_domain]. destruct (in_dec dom_dec (f_dom f) (domains_of h)) as [I|I]; [reflexivity|].
      exfalso. apply I. eapply nth_error_In; eassumption. }
    rewrite D. split; [|exact F]. constructor; rewrite D; cbn [t_list t_disk k_file k_db].
    + apply (g_list _ _ G).
    + apply (g_file _ _ G).
    + intros m j Hj.
      assert (Hi : (Z.of_nat i < 2 ^ 31)%Z).
      { rewrite D in L. assert (i < length (domains_of h)) by (apply nth_error_Some; congruence). lia. }
      destruct (nth_error (domains_of h) j) as [d|] eqn:Nj.
      * rewrite kept_snoc. cbn [keep]. destruct (name_dec n m) as [->|Nn].
        -- destruct (dom_dec (f_dom f) d) as [E|Nd].
           ++ assert (i = j) by (apply (nodup_place (domains_of h) i j (f_dom f)); [apply domains_nodup|exact F|congruence]).
              subst j. rewrite get_put_same. unfold val. rewrite V. reflexivity.
           ++ rewrite get_put_other. 2:{ intros E. apply makeKey_inj in E as [_ E]; [|assumption..]. subst j. congruence. }
              rewrite (g_db _ _ G) by exact Hj. rewrite Nj. reflexivity.
        -- rewrite get_put_other. 2:{ intros E. apply makeKey_inj in E as [E _]; [|assumption..]. congruence. }
           rewrite (g_db _ _ G) by exact Hj. rewrite Nj. reflexivity.
      * rewrite get_put_other. 2:{ intros E. apply makeKey_inj in E as [_ E]; [|assumption..]. subst j. congruence. }
        rewrite (g_db _ _ G) by exact Hj. rewrite Nj. reflexivity.
  - rewrite V. cbn [bind]. eexists. exists (length (domains_of h)). split; [reflexivity|].
    assert (D : domains_of (h ++ [Saved n f]) = domains_of h ++ [f_dom f]).
    { rewrite domains_snoc. cbn [add_domain]. destruct (in_dec dom_dec (f_dom f) (domains_of h)) as [I|I]; [contradiction|reflexivity]. }
    rewrite D. rewrite D, app_length in L. cbn [length] in L.
    assert (Nn : nth_error (domains_of h ++ [f_dom f]) (length (domains_of h)) = Some (f_dom f)).
    { rewrite nth_error_app2 by lia. rewrite Nat.sub_diag. reflexivity. }
    split; [|exact Nn]. constructor; rewrite D; cbn [t_list t_disk k_file k_db].
    + reflexivity.
    + rewrite (g_file _ _ G), flat_map_app. cbn [flat_map]. rewrite app_nil_r. reflexivity.
    + intros m j Hj.
      destruct (Nat.lt_trichotomy j (length (domains_of h))) as [Lj|[Ej|Lj]].
      * rewrite nth_error_app1 by exact Lj.
        rewrite get_put_other. 2:{ intros E. apply makeKey_inj in E as [_ E]; [|lia|assumption]. lia. }
        rewrite (g_db _ _ G) by exact Hj.
        destruct (nth_error (domains_of h) j) as [d|] eqn:Nj; [|reflexivity].
        rewrite kept_snoc. cbn [keep]. destruct (name_dec n m); [|reflexivity].
        destruct (dom_dec (f_dom f) d) as [E|_]; [|reflexivity].
        exfalso. apply F. rewrite E. eapply nth_error_In; eassumption.
      * subst j. rewrite Nn. rewrite kept_snoc. cbn [keep].
        destruct (name_dec n m) as [->|Nm].
        -- rewrite get_put_same. destruct (dom_dec (f_dom f) (f_dom f)); [|congruence].
           unfold val. rewrite V. reflexivity.
        -- rewrite get_put_other. 2:{ intros E. apply makeKey_inj in E as [E _]; [congruence|assumption..]. }
           rewrite (g_db _ _ G) by exact Hj.
           assert (NN : nth_error (domains_of h) (length (domains_of h)) = None) by (apply nth_error_None; lia).
           rewrite NN. destruct (kept h m (f_dom f)) as [g|] eqn:K; [|reflexivity].
           exfalso. apply F. eapply kept_in; eassumption.
      * assert (NN : nth_error (domains_of h ++ [f_dom f]) j = None)
          by (apply nth_error_None; rewrite app_length; cbn; lia).
        rewrite NN. rewrite get_put_other. 2:{ intros E. apply makeKey_inj in E as [_ E]; [|lia|assumption]. lia. }
        rewrite (g_db _ _ G) by exact Hj.
        assert (NN' : nth_error (domains_of h) j = None) by (apply nth_error_None; lia).
        rewrite NN'. reflexivity.
Qed.

Lemma get_out_all db n is k :
  db_get (fold_left (fun b i => db_out b (makeKey n i)) is db) k =
  if in_dec (list_eq_dec Z.eq_dec) k (map (makeKey n) is) then None else db_get db k.
Proof.
  revert db. induction is as [|i is IH]; intros db; cbn [fold_left map]; [reflexivity|].
  rewrite IH. destruct (in_dec _ k (map (makeKey n) is)) as [A|A].
  - destruct (in_dec _ k (makeKey n i :: map (makeKey n) is)) as [B|B]; [reflexivity|].
    exfalso. apply B. right. exact A.
  - destruct (in_dec _ k (makeKey n i :: map (makeKey n) is)) as [B|B].
    + destruct B as [<-|B]; [apply get_out_same|contradiction].
    + apply get_out_other. intros E. apply B. left. exact E.
Qed.

Lemma step_ok t h e : good t h -> all_storable (h ++ [e]) -> told_apart (h ++ [e]) ->
  (forall n d, e = Erased n d -> kept h n d <> None) ->
  exists t', step t e = Ok t' /\ good t' (h ++ [e]).
Proof.
  clear tp pert weight r0.
  intros G S T E. destruct e as [n f|n d|n|]; cbn [Ptab_Spec.step].
  - destruct (step_saved t h n f G S T) as [t' [i [-> [G' _]]]]. exists t'. split; [reflexivity|exact G'].
  - specialize (E n d eq_refl). destruct (kept h n d) as [f|] eqn:K; [|congruence].
    assert (D : domains_of (h ++ [Erased n d]) = domains_of h) by (rewrite domains_snoc; reflexivity).
    destruct S as [S L]. rewrite D in L.
    rewrite (g_list _ _ G). destruct (place_in d (domains_of h) (kept_in _ _ _ _ K)) as [i P]. rewrite P.
    pose proof (place_some _ _ _ P) as Ni.
    assert (Hi : (Z.of_nat i < 2 ^ 31)%Z).
    { assert (i < length (domains_of h)) by (apply nth_error_Some; congruence). lia. }
    assert (Sf : storable f).
    { apply kept_saved in K as [K _]. apply (S n), in_app_iff. left. exact K. }
    destruct (value_ok f Sf) as [v V].
    unfold deleteFunklet. rewrite (g_db _ _ G) by exact Hi. rewrite Ni, K. unfold val. rewrite V.
    eexists. split; [reflexivity|]. constructor; rewrite D; cbn [with_db t_list t_disk k_file k_db].
    + apply (g_list _ _ G).
    + apply (g_file _ _ G).
    + intros m j Hj. destruct (nth_error (domains_of h) j) as [d'|] eqn:Nj.
      * rewrite kept_snoc. cbn [keep]. destruct (name_dec n m) as [->|Nn].
        -- destruct (dom_dec d d') as [<-|Nd].
           ++ assert (i = j) by (eapply nodup_place; [apply (domains_nodup h)|exact Ni|exact Nj]).
              subst j. apply get_out_same.
           ++ rewrite get_out_other. 2:{ intros X. apply makeKey_inj in X as [_ X]; [|assumption..]. subst j. congruence. }
              rewrite (g_db _ _ G) by exact Hj. rewrite Nj. reflexivity.
        -- rewrite get_out_other. 2:{ intros X. apply makeKey_inj in X as [X _]; [|assumption..]. congruence. }
           rewrite (g_db _ _ G) by exact Hj. rewrite Nj. reflexivity.
      * rewrite get_out_other. 2:{ intros X. apply makeKey_inj in X as [_ X]; [|assumption..]. subst j. congruence. }
        rewrite (g_db _ _ G) by exact Hj. rewrite Nj. reflexivity.
  - assert (D : domains_of (h ++ [ErasedAll n]) = domains_of h) by (rewrite domains_snoc; reflexivity).
    destruct S as [S L]. rewrite D in L.
    eexists. split; [reflexivity|]. unfold deleteAllFunklets.
    constructor; rewrite D; cbn [with_db t_list t_disk k_file k_db].
    + apply (g_list _ _ G).
    + apply (g_file _ _ G).
    + intros m j Hj. rewrite get_out_all, (g_list _ _ G).
      destruct (nth_error (domains_of h) j) as [d'|] eqn:Nj.
      * assert (Lj : j < length (domains_of h)) by (apply nth_error_Some; congruence).
        rewrite kept_snoc. cbn [keep].
        destruct (in_dec (list_eq_dec Z.eq_dec) (makeKey m j) (map (makeKey n) (seq 0 (length (domains_of h))))) as [A|A].
        -- apply in_map_iff in A as [i [A Hi]]. apply in_seq in Hi.
           apply makeKey_inj in A as [A _]; [|lia|assumption]. subst m.
           destruct (name_dec n n); [reflexivity|congruence].
        -- destruct (name_dec n m) as [->|Nn].
           ++ exfalso. apply A, in_map, in_seq. lia.
           ++ rewrite (g_db _ _ G) by exact Hj. rewrite Nj. reflexivity.
      * destruct (in_dec (list_eq_dec Z.eq_dec) (makeKey m j) (map (makeKey n) (seq 0 (length (domains_of h))))) as [A|A]; [reflexivity|].
        rewrite (g_db _ _ G) by exact Hj. rewrite Nj. reflexivity.
  - assert (D : domains_of (h ++ [Reopened]) = domains_of h) by (rewrite domains_snoc; reflexivity).
    eexists. split; [reflexivity|]. constructor; rewrite D; unfold open_table; cbn [t_list t_disk].
    + rewrite (g_file _ _ G), <- (app_nil_r (flat_map entry_chunks (domains_of h))). apply read_file_chunks.
      * apply Forall_forall. intros d I. apply domains_in in I as [n [f [I <-]]].
        destruct S as [S _]. destruct (S n f) as [[P _] _]; [apply in_app_iff; left; exact I|exact P].
      * unfold entry_size. cbn. lia.
    + apply (g_file _ _ G).
    + intros m j Hj. rewrite (g_db _ _ G) by exact Hj.
      destruct (nth_error (domains_of h) j); [|reflexivity]. rewrite kept_snoc. reflexivity.
Qed.

Lemma run_from_app t a b : run_from t (a ++ b) = bind (run_from t a) (fun t' => run_from t' b).
Proof.
  revert t. induction a as [|e a IH]; intros t; cbn [app Ptab_Spec.run_from bind]; [reflexivity|].
  destruct (step t e); cbn [bind]; [apply IH|reflexivity..].
Qed.
Lemma legal_before (h : history) e : legal (h ++ [e]) -> legal h.
Proof. intros L b n d a ->. apply (L b n d (a ++ [e])). rewrite <- app_assoc. reflexivity. Qed.

Lemma run_good h : all_storable h -> told_apart h -> legal h -> exists t, run h = Ok t /\ good t h.
Proof.
  induction h as [|e h IH] using rev_ind; intros S T L.
  - eexists. split; [reflexivity|apply good_new].
  - destruct (IH (storable_before _ _ S) (told_before _ _ T) (legal_before _ _ L)) as [t [R G]].
    destruct (step_ok t h e G S T) as [t' [St G']].
    { intros n d ->. apply (L h n d []). reflexivity. }
    exists t'. split; [|exact G']. unfold Ptab_Spec.run in *. rewrite run_from_app, R. cbn [bind Ptab_Spec.run_from].
    rewrite St. reflexivity.
Qed.

(** ** Reading *)
Lemma get_value_ok t h i d f v : good t h -> storable f -> nth_error (domains_of h) i = Some d ->
  f_dom f = d -> value_of f = Ok v ->
  exists g, get_value rest tp pert weight r0 dec t i v = Ok g /\ restored i f g.
Proof.
  intros G [P [C B]] N Hd V. unfold get_value, Ptab_Model.value_of in *. rewrite (g_list _ _ G), N.
  destruct (f_polc f && (length (f_coeff f) <=? 1)) eqn:E.
  - apply constant_test in E. destruct (C E) as [c [Ec L]]. rewrite Ec in V.
    assert (c = v) by congruence. subst c. rewrite L. cbn [Nat.eqb].
    rewrite makeDomain_proper by (rewrite <- Hd; exact P).
    eexists. split; [reflexivity|]. split; [|tauto].
    intros _. cbn [new_polc f_polc f_class f_coeff f_pert f_weight f_rest f_dom f_id]. rewrite Ec, Hd.
    repeat split; reflexivity.
  - assert (NC : ~ constant f) by (intros X; apply constant_test in X; congruence).
    destruct (B NC) as [De [Ne Sz]]. assert (v = flatten (enc f)) by congruence. subst v.
    replace (length (flatten (enc f)) =? 8) with false.
    2:{ symmetry. apply Nat.eqb_neq. rewrite flatten_length. destruct (enc f); [congruence|]. cbn [length]. lia. }
    rewrite unflatten_flatten by exact Sz. cbn [bind]. exists f. split; [exact De|]. split; tauto.
Qed.

Lemma getFunklet_good t h n i : good t h -> all_storable h -> (Z.of_nat i < 2 ^ 31)%Z ->
  match nth_error (domains_of h) i with
  | Some d => match kept h n d with
              | Some f => exists g, getFunklet t n i = Ok (Some g) /\ restored i f g
              | None => getFunklet t n i = Ok None
              end
  | None => getFunklet t n i = Ok None
  end.
Proof.
  intros G [S L] Hi. unfold Ptab_Model.getFunklet. rewrite (g_db _ _ G) by exact Hi.
  destruct (nth_error (domains_of h) i) as [d|] eqn:N; [|reflexivity].
  destruct (kept h n d) as [f|] eqn:K; [|reflexivity].
  apply kept_saved in K as [K Kd]. specialize (S _ _ K).
  destruct (value_ok f S) as [v V]. unfold val. rewrite V.
  destruct (get_value_ok t h i d f v G S N Kd V) as [g [-> R]]. exists g. split; [reflexivity|exact R].
Qed.

Definition chosen (h : history) (n : bytes) (dom : domain) (x : nat * funk rest) : Prop :=
  exists d, nth_error (domains_of h) (fst x) = Some d /\ kept h n d = Some (snd x) /\ overlaps d dom = true.

Lemma get_from_good t h n dom : good t h -> all_storable h -> forall ds i,
  (forall k, nth_error ds k = nth_error (domains_of h) (i + k)) -> i + length ds = length (domains_of h) ->
  exists sel gs, get_from rest tp pert weight r0 dec t n dom i ds = Ok gs
    /\ Forall2 (fun x g => restored (fst x) (snd x) g) sel gs
    /\ StronglySorted lt (map fst sel)
    /\ (forall x, In x sel <-> i <= fst x /\ chosen h n dom x).
Proof.
  intros G S ds. induction ds as [|d ds IH]; intros i Hk Hl.
  - exists [], []. split; [reflexivity|]. split; [constructor|]. split; [constructor|].
    intros x. split; [intros []|]. intros [A [d [B _]]]. exfalso.
    assert (fst x < length (domains_of h)) by (apply nth_error_Some; congruence). cbn in Hl. lia.
  - cbn [get_from]. cbn [length] in Hl.
    assert (N : nth_error (domains_of h) i = Some d) by (rewrite <- (Nat.add_0_r i), <- Hk; reflexivity).
    destruct (IH (Datatypes.S i)) as [sel [gs [E [F [O I]]]]].
    { intros k. specialize (Hk (Datatypes.S k)). cbn in Hk. rewrite Hk. f_equal. lia. }
    { lia. }
    assert (Hi : (Z.of_nat i < 2 ^ 31)%Z).
    { destruct S as [_ L]. assert (i < length (domains_of h)) by (apply nth_error_Some; congruence). lia. }
    destruct (overlaps d dom) eqn:Ov.
    + pose proof (getFunklet_good t h n i G S Hi) as Gf. rewrite N in Gf.
      destruct (kept h n d) as [f|] eqn:K.
      * destruct Gf as [g [-> R]]. cbn [bind]. rewrite E. cbn [bind].
        exists ((i, f) :: sel), (g :: gs). split; [reflexivity|]. split; [constructor; [exact R|exact F]|].
        split.
        -- cbn [map fst]. constructor; [exact O|]. apply Forall_forall. intros j Hj.
           apply in_map_iff in Hj as [x [<- Hx]]. apply I in Hx. lia.
        -- intros x. split.
           ++ intros [<-|Hx]; [split; [cbn; lia|exists d; cbn; tauto]|]. apply I in Hx. split; [lia|tauto].
           ++ intros [A B]. destruct (Nat.eq_dec (fst x) i) as [Ei|Ni].
              ** left. destruct B as [d' [B1 [B2 _]]]. rewrite Ei, N in B1. destruct x as [j f'].
                 cbn in *. congruence.
              ** right. apply I. split; [lia|exact B].
      * rewrite Gf. cbn [bind]. rewrite E. cbn [bind]. exists sel, gs. split; [reflexivity|].
        split; [exact F|]. split; [exact O|]. intros x. rewrite I. split; [intros [A B]; split; [lia|exact B]|].
        intros [A B]. split; [|exact B]. destruct (Nat.eq_dec (fst x) i) as [Ei|Ni]; [|lia].
        destruct B as [d' [B1 [B2 _]]]. rewrite Ei, N in B1. congruence.
    + rewrite E. exists sel, gs. split; [reflexivity|].
      split; [exact F|]. split; [exact O|]. intros x. rewrite I. split; [intros [A B]; split; [lia|exact B]|].
      intros [A B]. split; [|exact B]. destruct (Nat.eq_dec (fst x) i) as [Ei|Ni]; [|lia].
      destruct B as [d' [B1 [_ B2]]]. rewrite Ei, N in B1. congruence.
Qed.

Lemma getFunklets_good t h n dom : good t h -> all_storable h ->
  exists sel gs, getFunklets t n dom = Ok gs
    /\ Forall2 (fun x g => restored (fst x) (snd x) g) sel gs
    /\ StronglySorted lt (map fst sel)
    /\ (forall x, In x sel <-> chosen h n dom x).
Proof.
  intros G S. unfold Ptab_Model.getFunklets. rewrite (g_list _ _ G).
  destruct (get_from_good t h n dom G S (domains_of h) 0) as [sel [gs [E [F [O I]]]]].
  { intros k. reflexivity. } { reflexivity. }
  exists sel, gs. split; [exact E|]. split; [exact F|]. split; [exact O|].
  intros x. rewrite I. split; [tauto|]. intros B. split; [lia|exact B].
Qed.
End Table.
