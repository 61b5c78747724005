(** Proofs for the node registry. *)
From Coq Require Import String Sorted.
From Verif Require Import Base Forest_Model Forest_Spec.
Local Open Scope Z_scope.

Lemma set_slot_len n x l : length (set_slot n x l) = length l.
Proof. revert n; induction l as [|y l IH]; intros [|n]; cbn; auto. Qed.
Lemma set_slot_nth n x l m : nth m (set_slot n x l) None = if Nat.eqb m n && Nat.ltb n (length l) then x else nth m l None.
Proof.
  revert n m; induction l as [|y l IH]; intros [|n] [|m]; cbn; auto.
  - now rewrite andb_false_r.
  - rewrite IH. reflexivity.
Qed.
Lemma resize_len n l : length (resize n l) = n.
Proof. unfold resize. rewrite app_length, firstn_length, repeat_length. lia. Qed.
Lemma nth_none_repeat m k : nth m (repeat (@None node) k) None = None.
Proof. revert m; induction k; intros [|m]; cbn; auto. Qed.
Lemma resize_nth n l m : nth m (resize n l) None = if Nat.ltb m n then nth m l None else None.
Proof.
  unfold resize. destruct (Nat.ltb_spec m n) as [H|H].
  - destruct (Nat.lt_ge_cases m (length l)) as [H1|H1].
    + rewrite app_nth1 by (rewrite firstn_length; lia).
      transitivity (nth m (firstn n l ++ skipn n l) None); [rewrite app_nth1 by (rewrite firstn_length; lia); reflexivity|now rewrite firstn_skipn].
    + rewrite app_nth2 by (rewrite firstn_length; lia). rewrite nth_none_repeat, nth_overflow by lia. reflexivity.
  - apply nth_overflow. rewrite app_length, firstn_length, repeat_length. lia.
Qed.

(** number of nodes present *)
Fixpoint live_count (l : list (option node)) : Z := match l with [] => 0 | Some _ :: l' => 1 + live_count l' | None :: l' => live_count l' end.
Lemma live_count_nonneg l : 0 <= live_count l. Proof. induction l as [|[n|] l IH]; cbn [live_count]; lia. Qed.
Definition one (x : option node) : Z := if x then 1 else 0.
Lemma live_count_set n x l : (n < length l)%nat -> live_count (set_slot n x l) = live_count l - one (nth n l None) + one x.
Proof.
  revert n; induction l as [|y l IH]; intros [|n] H; cbn [length] in H; try lia; cbn [set_slot nth].
  - destruct x, y; cbn [live_count one]; lia.
  - destruct y; cbn [live_count]; rewrite IH by lia; lia.
Qed.
Lemma live_count_app l k : live_count (l ++ k) = live_count l + live_count k.
Proof. induction l as [|[n|] l IH]; cbn [app live_count]; lia. Qed.
Lemma live_count_repeat k : live_count (repeat None k) = 0. Proof. induction k; auto. Qed.
Lemma live_count_grow n l : (length l <= n)%nat -> live_count (resize n l) = live_count l.
Proof. intro H. unfold resize. rewrite live_count_app, live_count_repeat, firstn_all2 by lia. lia. Qed.
Lemma live_count_shrink n l : length l = S n -> nth n l None = None -> live_count (resize n l) = live_count l.
Proof.
  intros H E. unfold resize. replace (n - length l)%nat with O by lia. cbn [repeat]. rewrite app_nil_r.
  transitivity (live_count (firstn n l ++ skipn n l)); [|now rewrite firstn_skipn]. rewrite live_count_app.
  assert (skipn n l = [None]) as ->.
  { clear - H E. revert n H E. induction l as [|y l IH]; intros n H E; cbn in H; [lia|]. destruct n; cbn in *; [destruct l; [congruence|cbn in *; lia]|apply IH; [lia|exact E]]. }
  cbn [live_count]. lia.
Qed.

(** the name map *)
Lemma nm_find_set s v m t : nm_find t (nm_set s v m) = if String.eqb s t then Some v else nm_find t m.
Proof.
  unfold nm_set. cbn [nm_find]. destruct (String.eqb_spec s t) as [->|N]; [reflexivity|].
  induction m as [|[k w] m IH]; [reflexivity|]. cbn [nm_erase nm_find]. destruct (String.eqb_spec k s) as [->|N2].
  - destruct (String.eqb_spec s t); [contradiction|reflexivity].
  - cbn [nm_find]. destruct (String.eqb k t); auto.
Qed.
Lemma nm_find_in s m i : NoDup (map fst m) -> nm_find s m = Some i <-> In (s, i) m.
Proof.
  intro N. induction m as [|[k w] m IH]; cbn [nm_find In]; [split; [discriminate|tauto]|].
  cbn in N. apply NoDup_cons_iff in N as [N1 N2]. specialize (IH N2). destruct (String.eqb_spec k s) as [->|Ne].
  - split; [intros [= ->]; auto|]. intros [[= ->]|H]; [reflexivity|]. exfalso. apply N1. change s with (fst (s, i)). now apply in_map.
  - rewrite IH. split; [auto|]. intros [[= -> ->]|H]; [contradiction|exact H].
Qed.
Lemma nm_erase_in s m p : NoDup (map fst m) -> In p (nm_erase s m) <-> In p m /\ fst p <> s.
Proof.
  intro N. induction m as [|[k w] m IH]; cbn [nm_erase In]; [tauto|]. cbn in N. apply NoDup_cons_iff in N as [N1 N2]. specialize (IH N2).
  destruct (String.eqb_spec k s) as [->|Ne].
  - split; [|intros [[<-|H] H2]; [cbn in H2; contradiction|exact H]]. intro H. split; [auto|]. intro E. apply N1. rewrite <- E. now apply in_map.
  - cbn [In]. rewrite IH. split; [intros [<-|[H1 H2]]; auto|]. intros [[<-|H1] H2]; auto.
Qed.
Lemma nm_erase_nodup s m : NoDup (map fst m) -> NoDup (map fst (nm_erase s m)).
Proof.
  intro N. induction m as [|[k w] m IH]; cbn [nm_erase]; [exact N|]. cbn in N. apply NoDup_cons_iff in N as [N1 N2].
  destruct (String.eqb_spec k s); [exact N2|]. cbn [map fst]. constructor; [|auto].
  intro H. apply in_map_iff in H as ([k2 w2] & E & H). apply (nm_erase_in _ _ _ N2) in H as [H _]. apply N1. rewrite <- E. now apply in_map.
Qed.

(** what a user sees *)
Definition seen (f : forest) : view := fun i => if valid f i then fslot f i else None.

(** the invariant *)
Record inv (f : forest) : Prop := {
  inv_head : exists l, f_nodes f = None :: l;
  inv_index : forall i n, 0 <= i -> fslot f i = Some n -> n_index n = i;
  inv_keys : NoDup (map fst (f_names f));
  inv_names : forall s i, In (s, i) (f_names f) <-> s <> EmptyString /\ 0 <= i /\ exists n, fslot f i = Some n /\ n_name n = s;
  inv_num : f_num f = live_count (f_nodes f)
}.

Lemma inv0 : inv forest0.
Proof.
  constructor; cbn.
  - eexists; reflexivity.
  - intros i n H. unfold fslot. cbn. destruct (Z.to_nat i) as [|[|k]]; discriminate.
  - constructor.
  - intros s i. split; [tauto|]. intros (_ & _ & n & H & _). unfold fslot in H. cbn in H. destruct (Z.to_nat i) as [|[|k]]; discriminate.
  - reflexivity.
Qed.
Lemma slot_lt f i n : 0 <= i -> fslot f i = Some n -> i < fsize f.
Proof. unfold fslot, fsize. intros H0 H. destruct (Z.lt_ge_cases i (Z.of_nat (length (f_nodes f)))) as [L|L]; [exact L|]. rewrite nth_overflow in H by lia. discriminate. Qed.
Lemma slot_pos f i n : inv f -> 0 <= i -> fslot f i = Some n -> 0 < i.
Proof. intros I H0 H. destruct (inv_head f I) as (l & E). destruct (Z.eq_dec i 0) as [->|]; [|lia]. unfold fslot in H. rewrite E in H. discriminate. Qed.
Lemma seen_slot f i n : inv f -> seen f i = Some n <-> 0 <= i /\ fslot f i = Some n.
Proof.
  intro I. unfold seen, valid. split.
  - destruct (fslot f i) as [m|] eqn:E; rewrite ?andb_false_r; [|discriminate]. rewrite andb_true_r. destruct (Z.ltb_spec 0 i); cbn [andb]; [|discriminate]. destruct (i <? fsize f); [|discriminate]. intros [= ->]. split; [lia|reflexivity].
  - intros [H0 H]. pose proof (slot_lt _ _ _ H0 H). pose proof (slot_pos _ _ _ I H0 H). rewrite H.
    destruct (Z.ltb_spec 0 i); [|lia]. destruct (Z.ltb_spec i (fsize f)); [|lia]. reflexivity.
Qed.
Lemma size_pos f : inv f -> 0 < fsize f.
Proof. intro I. destruct (inv_head f I) as (l & E). unfold fsize. rewrite E. cbn. lia. Qed.
Lemma seen_none_slot f i : inv f -> 0 <= i -> seen f i = None <-> fslot f i = None.
Proof.
  intros I H0. split; intro H.
  - destruct (fslot f i) as [n|] eqn:E; [|reflexivity]. rewrite (proj2 (seen_slot f i n I)) in H; [discriminate|auto].
  - destruct (seen f i) as [n|] eqn:E; [|reflexivity]. apply (seen_slot _ _ _ I) in E as [_ E]. congruence.
Qed.
Lemma seen_neg f i : i <= 0 -> seen f i = None.
Proof. intro H. unfold seen, valid. destruct (Z.ltb_spec 0 i); [lia|reflexivity]. Qed.

(** name lookup in a consistent forest *)
Lemma find_seen f s i : inv f -> nm_find s (f_names f) = Some i <-> s <> EmptyString /\ exists n, seen f i = Some n /\ n_name n = s.
Proof.
  intro I. rewrite nm_find_in by apply (inv_keys f I). rewrite (inv_names f I). split.
  - intros (H1 & H2 & n & H3 & H4). split; [exact H1|]. exists n. split; [|exact H4]. apply seen_slot; auto.
  - intros (H1 & n & H2 & H3). apply (seen_slot _ _ _ I) in H2 as [H4 H5]. eauto.
Qed.
Lemma find_none f s : inv f -> s <> EmptyString -> nm_find s (f_names f) = None <-> forall j n, seen f j = Some n -> n_name n <> s.
Proof.
  intros I Ne. split.
  - intros H j n S E. assert (nm_find s (f_names f) = Some j); [|congruence]. apply find_seen; eauto.
  - intro H. destruct (nm_find s (f_names f)) as [i|] eqn:E; [|reflexivity]. apply (find_seen _ _ _ I) in E as (_ & n & S & En). exfalso. exact (H _ _ S En).
Qed.

(** creation *)
Definition new_index (f : forest) (r : initrec) : Z := if 0 <? i_index r then i_index r else fsize f.
Definition created (f : forest) (r : initrec) (id : nat) : forest :=
  let ni := new_index f r in
  {| f_nodes := set_slot (Z.to_nat ni) (Some {| n_name := i_name r; n_index := ni; n_id := id |}) (if fsize f <=? ni then resize (Z.to_nat (ni + 1)) (f_nodes f) else f_nodes f);
     f_names := if String.eqb (i_name r) "" then f_names f else nm_set (i_name r) ni (f_names f);
     f_num := f_num f + 1; f_errors := f_errors f |}.
Lemma create_cases f r : inv f ->
  (admissible (seen f) r /\ exists id, i_made r = Made id /\ create f r = (created f r id, Ok (new_index f r))) \/
  (~ admissible (seen f) r /\ create f r = create_fails f).
Proof.
  intro I. unfold create. destruct (String.eqb_spec (i_name r) "") as [En|Nn]; cbn [negb andb].
  2: destruct (nm_find (i_name r) (f_names f)) as [j|] eqn:F.
  2: { right. split; [|reflexivity]. intros (_ & _ & A & _). apply (find_seen _ _ _ I) in F as (_ & n & S & E). exact (A Nn _ _ S E). }
  all: destruct (String.eqb_spec (i_class r) "") as [Ec|Nc]; [right; split; [intros (A & _); contradiction|reflexivity]|].
  all: destruct (i_made r) as [| | |id] eqn:M; try (right; split; [intros (_ & (id & A) & _); congruence|];
         try reflexivity; destruct (_ && _); reflexivity).
  all: destruct (Z.ltb_spec 0 (i_index r)) as [P|P]; cbn [andb].
  all: try (left; split; [|exists id; split; [reflexivity|]; unfold created, new_index; destruct (Z.ltb_spec 0 (i_index r)) as [Hq|Hq]; try (exfalso; lia);
         try (destruct (String.eqb_spec (i_name r) "") as [Es|Es]; try contradiction); reflexivity];
         split; [exact Nc|split; [eauto|split; [|lia]]]; try contradiction; intros _; now apply find_none).
  all: destruct (Z.ltb_spec (i_index r) (fsize f)) as [L|L]; cbn [andb].
  all: try (destruct (fslot f (i_index r)) as [n|] eqn:E; [right; split; [|reflexivity]; intros (_ & _ & _ & A); assert (S : seen f (i_index r) = Some n) by (apply seen_slot; auto; split; [lia|exact E]); rewrite A in S by lia; discriminate|]).
  all: left; split; [|exists id; split; [reflexivity|]; unfold created, new_index; destruct (Z.ltb_spec 0 (i_index r)) as [Hq|Hq]; try (exfalso; lia);
         try (destruct (String.eqb_spec (i_name r) "") as [Es|Es]; try contradiction); reflexivity].
  all: split; [exact Nc|split; [eauto|split; [try contradiction; intros _; now apply find_none|]]].
  all: intros _; apply seen_none_slot; auto; try lia.
  all: unfold fslot; apply nth_overflow; unfold fsize in *; lia.
Qed.
Lemma created_slot f r id j : inv f -> 0 <= j -> fslot (created f r id) j = if j =? new_index f r then Some {| n_name := i_name r; n_index := new_index f r; n_id := id |} else fslot f j.
Proof.
  intros I H0. pose proof (size_pos f I) as SP.
  assert (P : 0 < new_index f r) by (unfold new_index; destruct (Z.ltb_spec 0 (i_index r)); lia).
  unfold fslot, created. cbn [f_nodes]. set (ni := new_index f r) in *. rewrite set_slot_nth.
  destruct (Z.eqb_spec j ni) as [->|N].
  - rewrite Nat.eqb_refl. destruct (Z.leb_spec (fsize f) ni); cbn [andb].
    + rewrite resize_len. destruct (Nat.ltb_spec (Z.to_nat ni) (Z.to_nat (ni + 1))); [reflexivity|lia].
    + unfold fsize in *. destruct (Nat.ltb_spec (Z.to_nat ni) (length (f_nodes f))); [reflexivity|lia].
  - destruct (Nat.eqb_spec (Z.to_nat j) (Z.to_nat ni)); [lia|]. cbn [andb]. destruct (Z.leb_spec (fsize f) ni); [|reflexivity].
    rewrite resize_nth. destruct (Nat.ltb_spec (Z.to_nat j) (Z.to_nat (ni + 1))); [reflexivity|]. symmetry. apply nth_overflow. unfold fsize in *. lia.
Qed.
Lemma created_inv f r id : inv f -> admissible (seen f) r -> inv (created f r id).
Proof.
  intros I A. pose proof (size_pos f I) as SP. destruct A as (A1 & A2 & A3 & A4).
  assert (P : 0 < new_index f r) by (unfold new_index; destruct (Z.ltb_spec 0 (i_index r)); lia).
  assert (Free : fslot f (new_index f r) = None).
  { unfold new_index in *. destruct (Z.ltb_spec 0 (i_index r)); [apply seen_none_slot; auto; lia|]. apply nth_overflow. unfold fsize. lia. }
  constructor.
  - destruct (inv_head f I) as (l & E). unfold created. cbn [f_nodes]. destruct (Z.to_nat (new_index f r)) as [|k] eqn:K; [lia|].
    destruct (fsize f <=? new_index f r); [|rewrite E; cbn; eauto]. rewrite E. unfold resize. replace (Z.to_nat (new_index f r + 1)) with (S (S k)) by lia. cbn. eauto.
  - intros i n H0. rewrite created_slot by auto. destruct (Z.eqb_spec i (new_index f r)) as [->|N]; [intros [= <-]; reflexivity|]. apply (inv_index f I i n H0).
  - unfold created. cbn [f_names]. destruct (String.eqb_spec (i_name r) ""); [apply (inv_keys f I)|]. unfold nm_set. cbn [map fst]. constructor; [|apply nm_erase_nodup, (inv_keys f I)].
    intro H. apply in_map_iff in H as ([k w] & Ek & H). apply (nm_erase_in _ _ _ (inv_keys f I)) in H as [_ H]. contradiction.
  - intros s i.
    assert (Other : i <> new_index f r -> (s <> EmptyString /\ 0 <= i /\ (exists n, fslot (created f r id) i = Some n /\ n_name n = s)) <-> In (s, i) (f_names f)).
    { intro N. rewrite (inv_names f I). split; intros (H1 & H2 & n & H3 & H4); repeat split; auto; exists n; split; auto; rewrite created_slot in * by auto; destruct (Z.eqb_spec i (new_index f r)); congruence. }
    assert (New : In (s, new_index f r) (f_names f) -> False).
    { intro H. apply (inv_names f I) in H as (_ & _ & n & H & _). congruence. }
    unfold created at 1. cbn [f_names]. destruct (Z.eq_dec i (new_index f r)) as [->|N].
    + split.
      * destruct (String.eqb_spec (i_name r) "") as [En|Nn]; [intro H; destruct (New H)|]. unfold nm_set. cbn [In]. intros [[= <-]|H]; [|apply (nm_erase_in _ _ _ (inv_keys f I)) in H as [H _]; destruct (New H)].
        split; [exact Nn|split; [lia|]]. eexists. rewrite created_slot by (auto; lia). rewrite Z.eqb_refl. split; reflexivity.
      * intros (H1 & H2 & n & H3 & H4). rewrite created_slot in H3 by (auto; lia). rewrite Z.eqb_refl in H3. injection H3 as <-. cbn in H4. subst s.
        destruct (String.eqb_spec (i_name r) ""); [contradiction|]. left. reflexivity.
    + rewrite Other by exact N. destruct (String.eqb_spec (i_name r) "") as [En|Nn]; [tauto|]. unfold nm_set. cbn [In]. rewrite (nm_erase_in _ _ _ (inv_keys f I)). cbn [fst].
      split; [intros [[= <- <-]|[H _]]; [contradiction|exact H]|]. intro H. right. split; [exact H|]. intros ->.
      apply (inv_names f I) in H as (_ & H0 & n & H & En). apply (A3 Nn i n); [apply seen_slot; auto|exact En].
  - unfold created. cbn [f_nodes f_num]. rewrite (inv_num f I). destruct (Z.leb_spec (fsize f) (new_index f r)) as [G|G].
    + rewrite live_count_set by (rewrite resize_len; lia). rewrite live_count_grow by (unfold fsize in *; lia). rewrite resize_nth.
      destruct (Nat.ltb_spec (Z.to_nat (new_index f r)) (Z.to_nat (new_index f r + 1))); [|lia]. fold (fslot f (new_index f r)). rewrite Free. cbn [one]. lia.
    + rewrite live_count_set by (unfold fsize in *; lia). fold (fslot f (new_index f r)). rewrite Free. cbn [one]. lia.
Qed.

Lemma inv_errors f e : inv f -> inv {| f_nodes := f_nodes f; f_names := f_names f; f_num := f_num f; f_errors := e |}.
Proof. intros [H1 H2 H3 H4 H5]. constructor; auto. Qed.

(** removal *)
Definition removed (f : forest) (i : Z) (n : node) : forest :=
  let ns := set_slot (Z.to_nat i) None (f_nodes f) in
  {| f_nodes := if i =? fsize f - 1 then resize (Z.to_nat i) ns else ns;
     f_names := if String.eqb (n_name n) "" then f_names f else nm_erase (n_name n) (f_names f);
     f_num := f_num f - 1; f_errors := f_errors f |}.
Lemma remove_live f i n : inv f -> seen f i = Some n -> remove f i = (removed f i n, Ok tt).
Proof.
  intros I S. pose proof S as S0. apply (seen_slot _ _ _ I) in S as [H0 S]. pose proof (slot_lt _ _ _ H0 S). pose proof (slot_pos _ _ _ I H0 S).
  unfold remove. destruct (Z.leb_spec i 0); [lia|]. destruct (Z.ltb_spec (fsize f) i); [lia|]. cbn [orb]. destruct (Z.eqb_spec i (fsize f)); [lia|]. rewrite S. reflexivity.
Qed.
Lemma remove_dead f i : inv f -> seen f i = None -> i <> fsize f -> remove f i = (f, Err).
Proof.
  intros I S N. unfold remove. destruct (Z.leb_spec i 0) as [|P]; [reflexivity|]. destruct (fsize f <? i); [reflexivity|]. cbn [orb]. destruct (Z.eqb_spec i (fsize f)); [contradiction|].
  apply seen_none_slot in S; auto; [|lia]. now rewrite S.
Qed.
Lemma removed_slot f i n j : inv f -> seen f i = Some n -> 0 <= j -> fslot (removed f i n) j = if j =? i then None else fslot f j.
Proof.
  intros I S H0. apply (seen_slot _ _ _ I) in S as [Hi S]. pose proof (slot_lt _ _ _ Hi S) as L.
  assert (E : nth (Z.to_nat j) (set_slot (Z.to_nat i) None (f_nodes f)) None = if j =? i then None else fslot f j).
  { rewrite set_slot_nth. unfold fsize in L. destruct (Z.eqb_spec j i) as [->|N].
    - rewrite Nat.eqb_refl. destruct (Nat.ltb_spec (Z.to_nat i) (length (f_nodes f))); [reflexivity|lia].
    - destruct (Nat.eqb_spec (Z.to_nat j) (Z.to_nat i)); [lia|]. reflexivity. }
  unfold removed, fslot at 1. cbn [f_nodes]. destruct (Z.eqb_spec i (fsize f - 1)) as [El|Nl]; [|exact E].
  rewrite resize_nth, E. destruct (Nat.ltb_spec (Z.to_nat j) (Z.to_nat i)) as [Lt|Ge]; [reflexivity|].
  destruct (Z.eqb_spec j i); [reflexivity|]. symmetry. apply nth_overflow. unfold fsize in *. lia.
Qed.
Lemma removed_inv f i n : inv f -> seen f i = Some n -> inv (removed f i n).
Proof.
  intros I S. pose proof S as S0. apply (seen_slot _ _ _ I) in S0 as [Hi S0]. pose proof (slot_lt _ _ _ Hi S0) as L. pose proof (slot_pos _ _ _ I Hi S0) as P.
  constructor.
  - destruct (inv_head f I) as (l & E). unfold removed. cbn [f_nodes]. rewrite E. destruct (Z.to_nat i) as [|k] eqn:K; [lia|]. cbn [set_slot]. destruct (i =? fsize f - 1); [|eauto]. unfold resize. cbn. eauto.
  - intros j m H0. rewrite (removed_slot f i n j I S H0). destruct (j =? i); [discriminate|]. apply (inv_index f I j m H0).
  - unfold removed. cbn [f_names]. destruct (String.eqb _ _); [|apply nm_erase_nodup]; apply (inv_keys f I).
  - intros s j.
    assert (Sl : 0 <= j -> (exists m, fslot (removed f i n) j = Some m /\ n_name m = s) <-> j <> i /\ exists m, fslot f j = Some m /\ n_name m = s).
    { intro H0. split.
      - intros (m & H & E). rewrite (removed_slot f i n j I S H0) in H. destruct (Z.eqb_spec j i); [discriminate|]. eauto.
      - intros (N & m & H & E). exists m. rewrite (removed_slot f i n j I S H0). destruct (Z.eqb_spec j i); [contradiction|]. auto. }
    assert (G : (s <> EmptyString /\ 0 <= j /\ exists m, fslot (removed f i n) j = Some m /\ n_name m = s) <-> In (s, j) (f_names f) /\ j <> i).
    { rewrite (inv_names f I). split.
      - intros (H1 & H2 & H3). apply Sl in H3 as [H3 H4]; auto.
      - intros ((H1 & H2 & H3) & H4). repeat split; auto. apply Sl; auto. }
    rewrite G. unfold removed. cbn [f_names]. destruct (String.eqb_spec (n_name n) "") as [En|Nn].
    + split; [|tauto]. intro H. split; [exact H|]. intros ->. apply (inv_names f I) in H as (H1 & _ & m & H2 & H3). rewrite S0 in H2. injection H2 as <-. congruence.
    + rewrite (nm_erase_in _ _ _ (inv_keys f I)). cbn [fst]. split; intros [H1 H2]; split; auto.
      * intros ->. apply (inv_names f I) in H1 as (_ & _ & m & H3 & H4). rewrite S0 in H3. injection H3 as <-. congruence.
      * intros ->. apply H2. assert (Q : In (n_name n, i) (f_names f)) by (apply (inv_names f I); repeat split; eauto).
        apply (nm_find_in _ _ _ (inv_keys f I)) in Q. apply (nm_find_in _ _ _ (inv_keys f I)) in H1. congruence.
  - unfold removed. cbn [f_nodes f_num]. rewrite (inv_num f I). unfold fsize in *.
    assert (C : live_count (set_slot (Z.to_nat i) None (f_nodes f)) = live_count (f_nodes f) - 1).
    { rewrite live_count_set by lia. fold (fslot f i). rewrite S0. cbn [one]. lia. }
    destruct (Z.eqb_spec i (Z.of_nat (length (f_nodes f)) - 1)) as [El|Nl]; [|lia]. rewrite live_count_shrink; [lia|rewrite set_slot_len; lia|].
    rewrite set_slot_nth, Nat.eqb_refl. destruct (Nat.ltb_spec (Z.to_nat i) (length (f_nodes f))); [reflexivity|lia].
Qed.

Lemma clear_inv f : inv f -> inv (clear f).
Proof.
  intro I. destruct (inv_head f I) as (l & E). assert (R : f_nodes (clear f) = [None]) by (cbn; rewrite E; reflexivity).
  assert (N : forall i, fslot (clear f) i = None) by (intro i; unfold fslot; rewrite R; destruct (Z.to_nat i) as [|[|k]]; reflexivity).
  constructor.
  - eauto.
  - intros i n _. rewrite N. discriminate.
  - constructor.
  - intros s i. cbn [clear f_names In]. split; [tauto|]. intros (_ & _ & n & H & _). rewrite N in H. discriminate.
  - rewrite R. reflexivity.
Qed.
Lemma clear_seen f i : inv f -> seen (clear f) i = None.
Proof.
  intro I. destruct (seen (clear f) i) as [n|] eqn:E; [|reflexivity]. apply (seen_slot _ _ _ (clear_inv f I)) in E as [_ E].
  destruct (inv_head f I) as (l & H). unfold fslot in E. cbn in E. rewrite H in E. cbn in E. destruct (Z.to_nat i) as [|[|k]]; discriminate.
Qed.

Lemma do_op_inv f o : inv f -> inv (do_op f o).
Proof.
  intro I. destruct o as [r|i|]; cbn [do_op].
  - destruct (create_cases f r I) as [(A & id & M & ->)|(A & ->)]; cbn [fst]; [now apply created_inv|now apply inv_errors].
  - destruct (seen f i) as [n|] eqn:S; [rewrite (remove_live f i n I S); now apply removed_inv|].
    destruct (Z.eq_dec i (fsize f)) as [->|N]; [|rewrite remove_dead by auto; exact I].
    unfold remove. destruct (_ || _); [exact I|]. rewrite Z.eqb_refl. exact I.
  - now apply clear_inv.
Qed.
Lemma reach_inv ops : inv (fold_left do_op ops forest0).
Proof.
  assert (G : forall f, inv f -> inv (fold_left do_op ops f)); [|apply G, inv0].
  induction ops as [|o ops IH]; intros f I; [exact I|]. cbn. apply IH. now apply do_op_inv.
Qed.

Lemma list_of_nodes l : forall num i0 i, i0 + live_count l = num -> exists r, node_list num i0 i l = Ok r /\ Z.of_nat (length r) = live_count l /\
  (forall j s, In (j, s) r <-> i <= j /\ exists n, nth (Z.to_nat (j - i)) l None = Some n /\ n_name n = s) /\ StronglySorted Z.lt (map fst r) .
Proof.
  induction l as [|[n|] l IH]; intros num i0 i H; cbn [live_count] in H; cbn [node_list].
  - destruct (Z.ltb_spec i0 num); [lia|]. exists []. split; [reflexivity|]. split; [reflexivity|]. split; [|constructor]. intros j s. split; [intros []|]. intros (_ & n & E & _). destruct (Z.to_nat (j - i)); discriminate.
  - pose proof (live_count_nonneg l). destruct (Z.leb_spec num i0); [lia|]. destruct (IH num (i0 + 1) (i + 1)) as (r & E & L & In1 & S1); [lia|]. rewrite E. cbn [bind]. eexists. split; [reflexivity|].
    split; [cbn [length live_count]; lia|]. split.
    + intros j s. cbn [In]. rewrite In1. split.
      * intros [[= <- <-]|(P & m & N & Nm)]; [split; [lia|]; exists n; replace (i - i) with 0 by lia; auto|].
        split; [lia|]. exists m. split; [|exact Nm]. replace (Z.to_nat (j - i)) with (S (Z.to_nat (j - (i + 1)))) by lia. exact N.
      * intros (P & m & N & Nm). destruct (Z.eq_dec i j) as [->|Ne]; [left; replace (j - j) with 0 in N by lia; cbn in N; congruence|right].
        split; [lia|]. exists m. split; [|exact Nm]. replace (Z.to_nat (j - i)) with (S (Z.to_nat (j - (i + 1)))) in N by lia. exact N.
    + cbn [map fst]. constructor; [exact S1|]. apply Forall_forall. intros j Hj. apply in_map_iff in Hj as ([j2 s] & <- & Hj). apply In1 in Hj as [Hj _]. cbn. lia.
  - destruct (IH num i0 (i + 1)) as (r & E & L & In1 & S1); [lia|]. exists r. split; [exact E|]. split; [exact L|]. split; [|exact S1].
    intros j s. rewrite In1. split.
    + intros (P & m & N & Nm). split; [lia|]. exists m. split; [|exact Nm]. replace (Z.to_nat (j - i)) with (S (Z.to_nat (j - (i + 1)))) by lia. exact N.
    + intros (P & m & N & Nm). destruct (Z.eq_dec i j) as [->|Ne]; [replace (j - j) with 0 in N by lia; discriminate|].
      split; [lia|]. exists m. split; [|exact Nm]. replace (Z.to_nat (j - i)) with (S (Z.to_nat (j - (i + 1)))) in N by lia. exact N.
Qed.
