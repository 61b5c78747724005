(** C34, C35: the node registry of a forest. *)
From Coq Require Import String Sorted.
From Verif Require Import Base Forest_Model Forest_Spec Forest_Proofs.
Local Open Scope Z_scope.

Lemma get_seen f i n : inv f -> get f i = Ok n <-> seen f i = Some n.
Proof.
  intro I. unfold get, seen, valid. destruct (Z.leb_spec i 0); destruct (Z.ltb_spec 0 i); try lia; cbn [orb andb]; [split; discriminate|].
  destruct (Z.ltb_spec (fsize f) i); destruct (Z.ltb_spec i (fsize f)); try lia; cbn [andb]; [split; discriminate|destruct (Z.eqb_spec i (fsize f)); [lia|]; destruct (fslot f i); split; congruence|].
  destruct (Z.eqb_spec i (fsize f)); [split; discriminate|lia].
Qed.
Lemma node_list_seen f : inv f -> exists l, getNodeList f = Ok l /\ lists (seen f) l /\ Z.of_nat (length l) = f_num f.
Proof.
  intro I. destruct (inv_head f I) as (l & E). pose proof (inv_num f I) as N. rewrite E in N. cbn [live_count] in N.
  unfold getNodeList. destruct (list_of_nodes l (f_num f) 0 1) as (r & Er & L & In1 & Srt); [lia|].
  assert (Q : forall i s, In (i, s) r <-> exists n, seen f i = Some n /\ n_name n = s).
  { intros i s. rewrite In1. split.
    - intros (P & n & Hn & Hs). exists n. split; [|exact Hs]. apply seen_slot; auto. split; [lia|]. unfold fslot. rewrite E. replace (Z.to_nat i) with (S (Z.to_nat (i - 1))) by lia. exact Hn.
    - intros (n & Hn & Hs). apply (seen_slot _ _ _ I) in Hn as [H0 Hn]. pose proof (slot_pos _ _ _ I H0 Hn). split; [lia|]. exists n. split; [|exact Hs]. unfold fslot in Hn. rewrite E in Hn. replace (Z.to_nat i) with (S (Z.to_nat (i - 1))) in Hn by lia. exact Hn. }
  exists r. split; [|split; [split; [exact Srt|exact Q]|lia]]. destruct (Z.eqb_spec (f_num f) 0) as [Z0|_]; [|rewrite E; exact Er].
  destruct r; [reflexivity|cbn [length] in L; lia].
Qed.

Lemma run_steps ops : forall f v g, inv f -> same v (seen f) -> run f ops = Some g -> inv g /\ exists w, steps v ops w /\ same w (seen g).
Proof.
  induction ops as [|o ops IH]; intros f v g I Sv R; cbn [run] in R.
  - injection R as <-. split; [exact I|]. exists v. split; [constructor; intro; reflexivity|exact Sv].
  - assert (ADM : forall r, admissible v r <-> admissible (seen f) r).
    { intro r. unfold admissible. assert (EQ : forall i, v i = seen f i) by exact Sv. split; intros (A1 & A2 & A3 & A4); (split; [exact A1|split; [exact A2|split]]).
      - intros Ne j n. rewrite <- EQ. now apply A3. - rewrite <- EQ. exact A4. - intros Ne j n. rewrite EQ. now apply A3. - rewrite EQ. exact A4. }
    assert (Q : (match o with ORemove i => snd (remove f i) <> UB | _ => True end) -> exists w, step v o w /\ same w (seen (do_op f o))).
    { intro U. destruct o as [r|i|]; cbn [do_op].
      - destruct (create_cases f r I) as [(A & id & M & ->)|(A & ->)]; cbn [fst].
        + pose proof (created_inv f r id I A) as I'. pose proof (size_pos f I) as SP. exists (upd v (new_index f r) (Some {| n_name := i_name r; n_index := new_index f r; n_id := id |})). split.
          * constructor; [now apply ADM|exact M| | |]; unfold new_index.
            -- destruct (Z.ltb_spec 0 (i_index r)); lia.
            -- intro P. destruct (Z.ltb_spec 0 (i_index r)); [reflexivity|lia].
            -- intros P j n. rewrite Sv. intro S. destruct (Z.ltb_spec 0 (i_index r)); [lia|]. apply (seen_slot _ _ _ I) in S as [H0 S]. exact (slot_lt _ _ _ H0 S).
          * intro j. unfold upd. destruct (Z.lt_ge_cases j 0) as [Neg|Pos].
            -- destruct (Z.eqb_spec j (new_index f r)) as [Ej|_]; [unfold new_index in Ej; destruct (Z.ltb_spec 0 (i_index r)); lia|]. rewrite Sv, !seen_neg by lia. reflexivity.
            -- pose proof (created_slot f r id j I Pos) as CS. destruct (Z.eqb_spec j (new_index f r)) as [Ej|Nj].
               ++ symmetry. apply seen_slot; auto.
               ++ rewrite Sv. destruct (seen f j) as [n|] eqn:S.
                  ** symmetry. apply seen_slot; auto. split; [exact Pos|]. rewrite CS. apply (seen_slot _ _ _ I) in S. apply S.
                  ** symmetry. apply seen_none_slot; auto. rewrite CS. now apply seen_none_slot in S.
        + exists v. split; [constructor; rewrite ADM; exact A|]. exact Sv.
      - exists (upd v i None). split; [constructor|]. intro j. unfold upd. destruct (seen f i) as [n|] eqn:S.
        + rewrite (remove_live f i n I S). cbn [fst]. pose proof (removed_inv f i n I S) as I'. destruct (Z.lt_ge_cases j 0) as [Neg|Pos].
          * rewrite seen_neg by lia. destruct (j =? i); [reflexivity|]. rewrite Sv. now apply seen_neg; lia.
          * pose proof (removed_slot f i n j I S Pos) as RS. destruct (Z.eqb_spec j i) as [Ej|Nj].
            -- symmetry. apply seen_none_slot; auto.
            -- rewrite Sv. destruct (seen f j) as [m|] eqn:Sj; symmetry.
               ++ apply seen_slot; auto. split; [exact Pos|]. rewrite RS. apply (seen_slot _ _ _ I) in Sj. apply Sj.
               ++ apply seen_none_slot; auto. rewrite RS. now apply seen_none_slot in Sj.
        + destruct (Z.eq_dec i (fsize f)) as [->|N].
          * exfalso. apply U. unfold remove. pose proof (size_pos f I). destruct (Z.leb_spec (fsize f) 0); [lia|]. rewrite Z.ltb_irrefl. cbn [orb]. rewrite Z.eqb_refl. reflexivity.
          * rewrite remove_dead by auto. cbn [fst]. destruct (Z.eqb_spec j i) as [->|_]; [now rewrite S|apply Sv].
      - exists empty_view. split; [constructor|]. intro j. symmetry. now apply clear_seen. }
    assert (R2 : run (do_op f o) ops = Some g /\ (match o with ORemove i => snd (remove f i) <> UB | _ => True end)).
    { destruct o as [r|i|]; auto. destruct (snd (remove f i)); try discriminate; split; auto; discriminate. }
    destruct R2 as [R2 U]. destruct (Q U) as (w & St & Sw). destruct (IH _ w g (do_op_inv f o I) Sw R2) as (Ig & x & Sx & Sgx). split; [exact Ig|]. exists x. split; [econstructor; eauto|exact Sgx].
Qed.

(** C34: after any sequence of calls the forest shows what the calls that succeeded made: each
    creation adds one node under a fresh index, each removal takes one away, failing calls
    change nothing.  Looking up by index, by name, counting and listing all agree with it. *)
Theorem forest_registry : forall ops f, run forest0 ops = Some f ->
  exists v, steps empty_view ops v /\
    (forall i n, get f i = Ok n <-> v i = Some n) /\
    (forall i, valid f i = true <-> v i <> None) /\
    (forall i n, v i = Some n -> 0 < i /\ n_index n = i) /\
    (forall i j n m, v i = Some n -> v j = Some m -> n_name n = n_name m -> n_name n <> EmptyString -> i = j) /\
    (forall s, s <> EmptyString -> forall i n, (findNode f s = Ok n /\ findIndex f s = i) <-> (v i = Some n /\ n_name n = s)) /\
    (forall s, findIndex f s = -1 <-> s = EmptyString \/ forall i n, v i = Some n -> n_name n <> s) /\
    (exists l, getNodeList f = Ok l /\ lists v l /\ Z.of_nat (length l) = f_num f).
Proof.
  intros ops f R. destruct (run_steps ops forest0 empty_view f inv0) as (I & v & St & Sv); [|exact R|].
  { intro i. destruct (seen forest0 i) as [n|] eqn:E; [|reflexivity]. apply (seen_slot _ _ _ inv0) in E as [_ E]. unfold fslot in E. cbn in E. destruct (Z.to_nat i) as [|[|k]]; discriminate. }
  exists v. split; [exact St|]. assert (EQ : forall i, v i = seen f i) by exact Sv.
  split; [|split; [|split; [|split; [|split; [|split]]]]].
  - intros i n. rewrite EQ. now apply get_seen.
  - intro i. rewrite EQ. unfold seen. destruct (valid f i) eqn:V; [|split; congruence]. split; auto. intros _. unfold valid in V. destruct (fslot f i); [discriminate|]. rewrite andb_false_r in V. discriminate.
  - intros i n. rewrite EQ. intro S. apply (seen_slot _ _ _ I) in S as [H0 S]. split; [exact (slot_pos _ _ _ I H0 S)|]. now apply (inv_index f I).
  - intros i j n m. rewrite !EQ. intros Si Sj E Ne. assert (F1 : nm_find (n_name n) (f_names f) = Some i) by (apply find_seen; eauto). assert (F2 : nm_find (n_name n) (f_names f) = Some j) by (apply find_seen; auto; split; [exact Ne|]; eauto). congruence.
  - intros s Ne i n. rewrite EQ. unfold findNode, findIndex. split.
    + destruct (nm_find s (f_names f)) as [k|] eqn:F; [|intros [? _]; discriminate]. intros [H <-]. apply (find_seen _ _ _ I) in F as (_ & m & S & E).
      pose proof S as S0. apply (seen_slot _ _ _ I) in S0 as [H0 S0]. pose proof (slot_lt _ _ _ H0 S0). destruct (Z.ltb_spec k 0); [lia|]. destruct (Z.leb_spec (fsize f) k); [lia|]. cbn [orb] in H. rewrite S0 in H. injection H as <-. auto.
    + intros [S E]. assert (F : nm_find s (f_names f) = Some i) by (apply find_seen; eauto). rewrite F. split; [|reflexivity].
      apply (seen_slot _ _ _ I) in S as [H0 S]. pose proof (slot_lt _ _ _ H0 S). destruct (Z.ltb_spec i 0); [lia|]. destruct (Z.leb_spec (fsize f) i); [lia|]. cbn [orb]. now rewrite S.
  - intro s. unfold findIndex. destruct (nm_find s (f_names f)) as [k|] eqn:F.
    + apply (find_seen _ _ _ I) in F as (Ne & m & S & E). split.
      * intros ->. rewrite seen_neg in S by lia. discriminate.
      * intros [H|H]; [contradiction|]. exfalso. apply (H k m); [now rewrite EQ|exact E].
    + split; [|reflexivity]. intros _. destruct (String.eqb_spec s "") as [->|Ne]; [now left|right]. intros i n. rewrite EQ. now apply find_none.
  - destruct (node_list_seen f I) as (l & E & L & C). exists l. split; [exact E|]. split; [|exact C]. destruct L as [L1 L2]. split; [exact L1|]. intros i s. rewrite L2. split; intros (n & H & E2); exists n; (split; [|exact E2]); [rewrite EQ|rewrite <- EQ]; exact H.
Qed.
Print Assumptions forest_registry.

(** when a creation succeeds, and that a failing one changes only the error counter *)
Theorem forest_create : forall ops f r, run forest0 ops = Some f ->
  let v := fun i => match get f i with Ok n => Some n | _ => None end in
  (admissible v r -> exists id g ni, i_made r = Made id /\ create f r = (g, Ok ni) /\ valid f ni = false /\
      get g ni = Ok {| n_name := i_name r; n_index := ni; n_id := id |} /\ f_num g = f_num f + 1 /\ f_errors g = f_errors f) /\
  (~ admissible v r -> create f r = ({| f_nodes := f_nodes f; f_names := f_names f; f_num := f_num f; f_errors := f_errors f + 1 |}, Err)).
Proof.
  intros ops f r R v. destruct (run_steps ops forest0 (seen forest0) f inv0) as (I & _); [intro; reflexivity|exact R|].
  assert (EQ : forall i, v i = seen f i).
  { intro i. unfold v. destruct (get f i) as [n| |] eqn:G; [symmetry; now apply get_seen| |]; (destruct (seen f i) as [n|] eqn:S; [apply get_seen in S; [congruence|exact I]|reflexivity]). }
  assert (ADM : admissible v r <-> admissible (seen f) r).
  { unfold admissible. split; intros (A1 & A2 & A3 & A4); (split; [exact A1|split; [exact A2|split]]).
    - intros Ne j n. rewrite <- EQ. now apply A3. - rewrite <- EQ. exact A4. - intros Ne j n. rewrite EQ. now apply A3. - rewrite EQ. exact A4. }
  pose proof (size_pos f I) as SP.
  rewrite ADM. destruct (create_cases f r I) as [(A & id & M & E)|(A & E)].
  - split; [intros _|contradiction]. exists id, (created f r id), (new_index f r). split; [exact M|]. split; [exact E|]. split; [|split; [|split; reflexivity]].
    + destruct A as (_ & _ & _ & A4). unfold new_index. destruct (Z.ltb_spec 0 (i_index r)) as [P|P].
      * specialize (A4 P). unfold seen in A4. destruct (valid f (i_index r)) eqn:V; [|reflexivity]. unfold valid in V. rewrite A4, andb_false_r in V. discriminate.
      * unfold valid. rewrite Z.ltb_irrefl, andb_false_r. reflexivity.
    + pose proof (created_inv f r id I A) as I'. apply get_seen; [exact I'|]. apply seen_slot; [exact I'|].
      assert (0 < new_index f r) by (unfold new_index; destruct (Z.ltb_spec 0 (i_index r)); lia). split; [lia|]. rewrite created_slot by (auto; lia). now rewrite Z.eqb_refl.
  - split; [contradiction|intros _; exact E].
Qed.
Print Assumptions forest_create.

(** C35: an index that is not that of a node is refused, except the one just past the last *)
Theorem forest_index_checks_partial : forall ops f i, run forest0 ops = Some f -> valid f i = false -> i <> fsize f ->
  get f i = Err /\ remove f i = (f, Err) /\ (getRef f i = Err \/ getRef f i = Ok None).
Proof.
  intros ops f i R V N. destruct (run_steps ops forest0 (seen forest0) f inv0) as (I & _); [intro; reflexivity|exact R|].
  assert (S : seen f i = None) by (unfold seen; now rewrite V). split; [|split; [now apply remove_dead|]].
  - destruct (get f i) as [n| |] eqn:G; [apply get_seen in G; [congruence|exact I]|reflexivity|]. exfalso. unfold get in G. destruct (_ || _); [discriminate|]. destruct (Z.eqb_spec i (fsize f)); [contradiction|]. destruct (fslot f i); discriminate.
  - unfold getRef. destruct (Z.leb_spec i 0); [auto|]. destruct (Z.ltb_spec (fsize f) i); [auto|]. cbn [orb]. destruct (Z.eqb_spec i (fsize f)); [contradiction|]. right. f_equal. apply seen_none_slot; auto. lia.
Qed.
Print Assumptions forest_index_checks_partial.
(** that one (maxNodeIndex()+1) is never that of a node, yet passes the check: the repository is
    read beyond its end, in every state *)
Theorem forest_index_checks_refuted : forall ops f, run forest0 ops = Some f ->
  valid f (fsize f) = false /\ get f (fsize f) = UB /\ remove f (fsize f) = (f, UB) /\ getRef f (fsize f) = UB.
Proof.
  intros ops f R. destruct (run_steps ops forest0 (seen forest0) f inv0) as (I & _); [intro; reflexivity|exact R|]. pose proof (size_pos f I) as SP.
  unfold valid, get, remove, getRef. destruct (Z.leb_spec (fsize f) 0); [lia|]. rewrite Z.ltb_irrefl, Z.eqb_refl, andb_false_r. auto.
Qed.
Print Assumptions forest_index_checks_refuted.

Definition mk (c n : string) (i : Z) (id : nat) : op := OCreate {| i_class := c; i_name := n; i_index := i; i_made := Made id |}.
Example ex_forest : exists f, run forest0 [mk "MeqConstant" "a" (-1) 1; mk "MeqAdd" "b" 5 2; mk "MeqAdd" "a" (-1) 3; mk "MeqAdd" "" (-1) 4; ORemove 1; mk "MeqAdd" "a" (-1) 5; ORemove 3; ORemove 7; mk "MeqAdd" "c" 0 6] = Some f /\
  getNodeList f = Ok [(5, "b"%string); (6, ""%string); (7, "c"%string)] /\ f_errors f = 1 /\ findIndex f "a" = -1 /\ findIndex f "c" = 7.
Proof. eexists. split; [vm_compute; reflexivity|]. repeat split. Qed.
(** the index of a node removed from the end is given out again *)
Example ex_index_reused : exists f, run forest0 [mk "MeqConstant" "a" (-1) 1; ORemove 1; mk "MeqConstant" "b" (-1) 2] = Some f /\ findIndex f "b" = 1.
Proof. eexists. split; [vm_compute; reflexivity|]. reflexivity. Qed.
