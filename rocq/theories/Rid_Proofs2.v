(** Proofs for Rid_Thms: building riders. *)
From Coq Require Import String.
From Verif Require Import Base Hiid_Model Hiid_Proofs Rqid_Model Poll_Model Ncache_Model Rid_Model Rid_Spec Rid_Proofs.
Local Open Scope Z_scope.
Open Scope list_scope.

Lemma write_len h a r : length (write h a r) = length h.
Proof.
  unfold write. revert a. induction h as [|x h IH]; intros [|a]; cbn; try reflexivity. f_equal. apply IH.
Qed.
Lemma write_at h a r b : at_ (write h a r) b = if Nat.eqb a b then if Nat.ltb a (length h) then r else at_ h b else at_ h b.
Proof.
  unfold write, at_. revert a b. induction h as [|x h IH]; intros [|a] [|b]; cbn; try reflexivity.
  - destruct (Nat.eqb a b); reflexivity.
  - rewrite IH. reflexivity.
Qed.
Lemma write_same h a r : (a < length h)%nat -> at_ (write h a r) a = r.
Proof. intros H. rewrite write_at, Nat.eqb_refl. apply Nat.ltb_lt in H. rewrite H. reflexivity. Qed.
Lemma write_other h a r b : a <> b -> at_ (write h a r) b = at_ h b.
Proof. intros H. rewrite write_at. apply Nat.eqb_neq in H. rewrite H. reflexivity. Qed.
Lemma at_app_l h t a : (a < length h)%nat -> at_ (h ++ t) a = at_ h a.
Proof. intros H. unfold at_. apply app_nth1, H. Qed.
Lemma at_app_r h r : at_ (h ++ [r]) (length h) = r.
Proof. unfold at_. rewrite app_nth2, Nat.sub_diag; [reflexivity|lia]. Qed.
Lemma at_out h a : (length h <= a)%nat -> at_ h a = [].
Proof. apply nth_overflow. Qed.
Lemma at_new h a : at_ (h ++ [[]]) a = at_ h a.
Proof.
  destruct (Nat.lt_ge_cases a (length h)) as [H|H]; [apply at_app_l, H|]. rewrite (at_out h a H). unfold at_.
  rewrite app_nth2; [|exact H]. destruct (a - length h)%nat as [|[|k]]; reflexivity.
Qed.

Lemma look_nil f : look [] f = None. Proof. reflexivity. Qed.
Lemma look_cons g v r f : look ((g, v) :: r) f = if same g f then Some v else look r f.
Proof. unfold look. cbn [find fst]. destruct (same g f); reflexivity. Qed.
Lemma look_put r f v g : look (put_field r f v) g = if same f g then Some v else look r g.
Proof.
  induction r as [|[k w] r IH]; cbn [put_field].
  - rewrite look_cons, look_nil. reflexivity.
  - rewrite eqb_same. destruct (same k f) eqn:E.
    + apply same_iff in E. subst. rewrite !look_cons. destruct (same f g); reflexivity.
    + rewrite !look_cons, IH. destruct (same k g) eqn:E2; [|reflexivity].
      destruct (same f g) eqn:E3; [|reflexivity]. apply same_iff in E2, E3. subst. rewrite same_refl in E. discriminate.
Qed.
Lemma look_put_same r f v : look (put_field r f v) f = Some v.
Proof. rewrite look_put, same_refl. reflexivity. Qed.
Lemma look_put_other r f v g : f <> g -> look (put_field r f v) g = look r g.
Proof. intros H. rewrite look_put. destruct (same f g) eqn:E; [|reflexivity]. apply same_iff in E. contradiction. Qed.
Lemma put_keys r f v k : In k (map fst (put_field r f v)) -> k = f \/ In k (map fst r).
Proof.
  induction r as [|[g w] r IH]; cbn [put_field map fst].
  - intros [<-|[]]. left. reflexivity.
  - destruct (hiid_eqb g f); cbn [map fst In]; intros [<-|H]; auto. destruct (IH H); auto.
Qed.
Lemma put_keyed r f v : NoDup (map fst r) -> NoDup (map fst (put_field r f v)).
Proof.
  induction r as [|[g w] r IH]; cbn [put_field map fst].
  - intros _. constructor; [intros []|constructor].
  - intros N. apply NoDup_cons_iff in N as [N1 N2]. rewrite eqb_same. destruct (same g f) eqn:E; cbn [map fst].
    + constructor; assumption.
    + constructor; [|auto]. intros H. apply put_keys in H. destruct H as [->|H]; [|auto]. rewrite same_refl in E. discriminate.
Qed.
Lemma put_In r f v g w : In (g, w) (put_field r f v) -> (g = f /\ w = v) \/ In (g, w) r.
Proof.
  induction r as [|[k u] r IH]; cbn [put_field].
  - intros [[= <- <-]|[]]. left. auto.
  - rewrite eqb_same. destruct (same k f) eqn:E.
    + apply same_iff in E. subst. intros [[= <- <-]|H]; [left; auto|right; right; exact H].
    + intros [[= <- <-]|H]; [right; left; reflexivity|]. destruct (IH H) as [H'|H']; [left; exact H'|right; right; exact H'].
Qed.
Lemma keyed_iff h : keyed h <-> forall a, NoDup (map fst (at_ h a)).
Proof.
  split; [intros K a; apply keyed_at, K|]. intros H. apply Forall_forall. intros r Hr.
  destruct (In_nth h r [] Hr) as (n & _ & E). rewrite <- E. apply H.
Qed.

(** ** a new record in a field *)
Lemma put_new_len h a f : length (fst (put_new h a f)) = S (length h).
Proof. cbn. rewrite app_length, write_len. cbn. lia. Qed.
Lemma put_new_at h a f b : (a < length h)%nat -> at_ (fst (put_new h a f)) b = if Nat.eqb a b then put_field (at_ h a) f (VRec (length h)) else at_ h b.
Proof.
  intros H. cbn [put_new fst]. rewrite at_new, write_at. apply Nat.ltb_lt in H. rewrite H. reflexivity.
Qed.
Lemma put_new_self h a f : (a < length h)%nat -> at_ (fst (put_new h a f)) a = put_field (at_ h a) f (VRec (length h)).
Proof. intros H. rewrite put_new_at, Nat.eqb_refl; auto. Qed.
Lemma put_new_other h a f b : (a < length h)%nat -> a <> b -> at_ (fst (put_new h a f)) b = at_ h b.
Proof. intros H N. rewrite put_new_at; [|exact H]. apply Nat.eqb_neq in N. rewrite N. reflexivity. Qed.
Lemma put_new_sound h a f : (a < length h)%nat -> sound h -> sound (fst (put_new h a f)).
Proof.
  intros H S x g b. rewrite put_new_len, put_new_at; [|exact H]. destruct (Nat.eqb a x) eqn:E.
  - apply Nat.eqb_eq in E. subst. intros Hi. apply put_In in Hi. destruct Hi as [[_ [= ->]]|Hi]; [lia|]. destruct (S _ _ _ Hi). lia.
  - intros Hi. destruct (S _ _ _ Hi). lia.
Qed.
Lemma put_new_keyed h a f : (a < length h)%nat -> keyed h -> keyed (fst (put_new h a f)).
Proof.
  intros H K. apply keyed_iff. intros b. rewrite put_new_at; [|exact H]. destruct (Nat.eqb a b); [apply put_keyed|]; apply keyed_at, K.
Qed.
Lemma put_new_snd h a f : snd (put_new h a f) = length h.
Proof. reflexivity. Qed.

(** ** one step down *)
Lemma getOrInsert_ok h a f repl h' b : (a < length h)%nat -> sound h -> getOrInsert h a f repl = Ok (h', b) ->
  look (at_ h' a) f = Some (VRec b) /\ (b < length h')%nat /\ (length h <= length h')%nat /\ a <> b /\ sound h' /\ (keyed h -> keyed h') /\
  (forall x, x <> a -> at_ h' x = at_ h x) /\
  (forall g, g <> f -> look (at_ h' a) g = look (at_ h a) g) /\
  (repl = true -> at_ h' b = [] /\ (b = length h)%nat) /\
  (repl = false -> forall b0, look (at_ h a) f = Some (VRec b0) -> h' = h /\ b = b0) /\
  (look (at_ h a) f = None -> at_ h' b = [] /\ (b = length h)%nat).
Proof.
  intros H S. unfold getOrInsert. rewrite field_look. change (deref h a) with (at_ h a).
  assert (N : forall hb, Ok (put_new h a f) = Ok hb -> 
    look (at_ (fst hb) a) f = Some (VRec (snd hb)) /\ (snd hb < length (fst hb))%nat /\ (length h <= length (fst hb))%nat /\ a <> snd hb /\ sound (fst hb) /\ (keyed h -> keyed (fst hb)) /\
    (forall x, x <> a -> at_ (fst hb) x = at_ h x) /\ (forall g, g <> f -> look (at_ (fst hb) a) g = look (at_ h a) g) /\ at_ (fst hb) (snd hb) = [] /\ snd hb = length h).
  { intros hb [= <-]. rewrite put_new_self, put_new_len, put_new_snd; [|exact H]. rewrite look_put_same.
    split; [reflexivity|]. split; [lia|]. split; [lia|]. split; [lia|]. split; [apply put_new_sound; assumption|]. split; [apply put_new_keyed, H|].
    split; [intros x Hx; apply put_new_other; [exact H|congruence]|]. split; [intros g Hg; apply look_put_other; congruence|].
    split; [|reflexivity]. rewrite put_new_other; [apply at_out; lia|exact H|lia]. }
  destruct repl.
  - intros E. destruct (N (h', b) E) as (N1 & N2 & N3 & N4 & N5 & N6 & N7 & N8 & N9 & N10). cbn [fst snd] in *.
    repeat (split; [assumption|]). split; [auto|]. split; [discriminate|auto].
  - destruct (look (at_ h a) f) as [v|] eqn:El.
    + destruct v as [b'| | | |]; try discriminate. intros [= <- <-]. apply look_In in El as Hi. destruct (S _ _ _ Hi) as [S1 S2].
      split; [exact El|]. split; [exact S1|]. split; [lia|]. split; [exact S2|]. split; [exact S|]. split; [auto|]. split; [auto|]. split; [auto|].
      split; [discriminate|]. split; [|discriminate]. intros _ b0 Hb. split; [reflexivity|congruence].
    + intros E. destruct (N (h', b) E) as (N1 & N2 & N3 & N4 & N5 & N6 & N7 & N8 & N9 & N10). cbn [fst snd] in *.
      repeat (split; [assumption|]). split; [discriminate|]. split; [discriminate|auto].
Qed.

(** ** a record of commands *)
Definition getCmd (h : list (list (list Z * val))) (q : rq) (group f : list Z) (flags : Z) : res (list (list (list Z * val)) * rq * nat) :=
  bind (getGroupRec h q group flags) (fun '(h, q, a) =>
  bind (getOrInsert h a f (flagged flags NEW_ALL)) (fun '(h, b) => Ok (h, q, b))).
Lemma flagged_iff flags m : flagged flags m = true <-> Z.land flags m <> 0.
Proof. unfold flagged. rewrite negb_true_iff, Z.eqb_neq. reflexivity. Qed.
Lemma flagged_mono flags m n : Z.land n m = m -> flagged flags m = true -> flagged flags n = true.
Proof.
  rewrite !flagged_iff. intros E H H0. apply H. rewrite <- E, Z.land_assoc, H0. apply Z.land_0_l.
Qed.
Lemma sound_new h : sound h -> sound (h ++ [[]]).
Proof. intros S a f b. rewrite at_new. intros Hi. destruct (S _ _ _ Hi). rewrite app_length. cbn. lia. Qed.
Lemma keyed_new h : keyed h -> keyed (h ++ [[]]).
Proof. intros K. apply Forall_app. split; [exact K|]. constructor; [constructor|constructor]. Qed.
Lemma getRider_ok h q flags h' q' r : sound h -> (forall r, q_rider q = Some r -> (r < length h)%nat) -> getRider h q flags = Ok (h', q', r) ->
  q_rider q' = Some r /\ (r < length h')%nat /\ (length h <= length h')%nat /\ sound h' /\ (keyed h -> keyed h') /\ (forall x, at_ h' x = at_ h x) /\
  ((q_rider q = None \/ flagged flags NEW_RIDER = true) -> at_ h' r = [] /\ r = length h) /\
  (flagged flags NEW_RIDER = false -> forall r0, q_rider q = Some r0 -> r = r0 /\ h' = h /\ q' = q).
Proof.
  intros S Hr. unfold getRider.
  assert (F : forall x, Ok (h ++ [[]], {| q_rider := Some (length h); q_seen := false; q_shared := false |}, length h) = Ok (h', q', r) ->
    q_rider q' = Some r /\ (r < length h')%nat /\ (length h <= length h')%nat /\ sound h' /\ (keyed h -> keyed h') /\ (at_ h' x = at_ h x) /\ at_ h' r = [] /\ r = length h).
  { intros x [= <- <- <-]. cbn. rewrite app_length. cbn. split; [reflexivity|]. split; [lia|]. split; [lia|]. split; [apply sound_new, S|].
    split; [apply keyed_new|]. split; [apply at_new|]. split; [|reflexivity]. rewrite at_new. apply at_out. lia. }
  destruct (q_rider q) as [a|] eqn:Eq.
  - destruct (flagged flags NEW_RIDER) eqn:Ef.
    + destruct (q_seen q || q_shared q); [discriminate|]. intros E. destruct (F O E) as (F1 & F2 & F3 & F4 & F5 & _ & F6 & F7).
      repeat (split; [assumption|]). split; [intros x; apply (F x E)|]. split; [auto|discriminate].
    + destruct (q_shared q); [discriminate|]. intros [= <- <- <-]. split; [exact Eq|]. split; [exact (Hr a eq_refl)|]. split; [lia|]. split; [exact S|].
      split; [auto|]. split; [auto|]. split; [intros [H|H]; discriminate|]. intros _ r0 [= <-]. auto.
  - intros E. destruct (F O E) as (F1 & F2 & F3 & F4 & F5 & _ & F6 & F7).
    repeat (split; [assumption|]). split; [intros x; apply (F x E)|]. split; [auto|]. discriminate.
Qed.
Lemma getGroupRec_ok h q group flags h' q' g : sound h -> (forall r, q_rider q = Some r -> (r < length h)%nat) -> getGroupRec h q group flags = Ok (h', q', g) ->
  exists r, q_rider q' = Some r /\ look (at_ h' r) group = Some (VRec g) /\ (r < length h')%nat /\ (g < length h')%nat /\ (length h <= length h')%nat /\ r <> g /\ sound h' /\ (keyed h -> keyed h') /\
  (forall x, x <> r -> at_ h' x = at_ h x) /\ (q_rider q <> Some r -> r = length h) /\
  (flagged flags NEW_RIDER = false -> forall r0, q_rider q = Some r0 -> r = r0 /\ q' = q /\ forall k, k <> group -> look (at_ h' r) k = look (at_ h r) k) /\
  (flagged flags (NEW_GROUPREC + NEW_RIDER) = true -> at_ h' g = []) /\
  (flagged flags NEW_RIDER = true -> forall k, k <> group -> look (at_ h' r) k = None) /\
  (flagged flags (NEW_GROUPREC + NEW_RIDER) = false -> forall r0 g0, q_rider q = Some r0 -> look (at_ h r0) group = Some (VRec g0) -> h' = h /\ g = g0) /\
  (q_rider q = None -> forall k, k <> group -> look (at_ h' r) k = None) /\ (length h <= g \/ exists r0, q_rider q = Some r0 /\ look (at_ h r0) group = Some (VRec g))%nat.
Proof.
  intros S Hr. unfold getGroupRec. destruct (getRider h q flags) as [[[h1 q1] r]| |] eqn:E1; cbn [bind]; [|discriminate|discriminate].
  destruct (getRider_ok _ _ _ _ _ _ S Hr E1) as (R1 & R2 & R3 & R4 & R5 & R6 & R7 & R8).
  destruct (getOrInsert h1 r group _) as [[h2 g2]| |] eqn:E2; cbn [bind]; [|discriminate|discriminate]. intros [= <- <- <-].
  destruct (getOrInsert_ok _ _ _ _ _ _ R2 R4 E2) as (G1 & G2 & G3 & G4 & G5 & G6 & G7 & G8 & G9 & G10 & G11).
  exists r. split; [exact R1|]. split; [exact G1|]. split; [lia|]. split; [exact G2|]. split; [lia|]. split; [exact G4|]. split; [exact G5|]. split; [auto|].
  split; [intros x Hx; rewrite G7; [apply R6|exact Hx]|].
  assert (Rn : q_rider q <> Some r -> r = length h).
  { intros N. destruct (q_rider q) as [a|] eqn:Eq; [|apply R7; left; reflexivity].
    destruct (flagged flags NEW_RIDER) eqn:Ef; [apply R7; right; reflexivity|]. destruct (R8 eq_refl a eq_refl) as (-> & _). congruence. }
  split; [exact Rn|].
  split. { intros Ef r0 Er. destruct (R8 Ef r0 Er) as (-> & -> & ->). split; [reflexivity|]. split; [reflexivity|]. intros k Hk. apply G8, Hk. }
  split. { intros Ef. apply G9, Ef. }
  split. { intros Ef k Hk. rewrite G8; [|exact Hk]. destruct (R7 (or_intror Ef)) as [-> _]. reflexivity. }
  split. { intros Ef r0 g0 Er Eg. assert (Ef' : flagged flags NEW_RIDER = false).
    { destruct (flagged flags NEW_RIDER) eqn:X; [|reflexivity]. rewrite (flagged_mono flags NEW_RIDER (NEW_GROUPREC + NEW_RIDER)) in Ef; [discriminate|reflexivity|exact X]. }
    destruct (R8 Ef' r0 Er) as (-> & -> & ->). exact (G10 Ef g0 Eg). }
  split. { intros En k Hk. rewrite G8; [|exact Hk]. destruct (R7 (or_introl En)) as [-> _]. reflexivity. }
  destruct (flagged flags (NEW_GROUPREC + NEW_RIDER)) eqn:Ef.
  - left. destruct (G9 eq_refl). lia.
  - destruct (look (at_ h1 r) group) as [v|] eqn:El; [|left; destruct (G11 eq_refl); lia].
    unfold getOrInsert in E2. rewrite field_look in E2. change (deref h1 r) with (at_ h1 r) in E2. rewrite El in E2.
    destruct v as [b| | | |]; try discriminate. injection E2 as <- <-. right.
    destruct (q_rider q) as [a|] eqn:Eq.
    + assert (Ef' : flagged flags NEW_RIDER = false).
      { destruct (flagged flags NEW_RIDER) eqn:X; [|reflexivity]. rewrite (flagged_mono flags NEW_RIDER (NEW_GROUPREC + NEW_RIDER)) in Ef; [discriminate|reflexivity|exact X]. }
      destruct (R8 Ef' a eq_refl) as (-> & -> & _). exists a. auto.
    + destruct (R7 (or_introl eq_refl)) as [X _]. rewrite X in El. discriminate.
Qed.
Lemma getCmd_ok h q group f flags h' q' b : sound h -> (forall r, q_rider q = Some r -> (r < length h)%nat) -> getCmd h q group f flags = Ok (h', q', b) ->
  exists r g, q_rider q' = Some r /\ look (at_ h' r) group = Some (VRec g) /\ look (at_ h' g) f = Some (VRec b) /\
  (forall x, (x < length h)%nat -> at_ h' x <> at_ h x -> q_rider q = Some x \/ exists r0, q_rider q = Some r0 /\ look (at_ h r0) group = Some (VRec x)) /\
  (flagged flags NEW_ALL = true -> at_ h' b = []) /\
  (flagged flags NEW_ALL = false -> forall r0 g0 b0, q_rider q = Some r0 -> look (at_ h r0) group = Some (VRec g0) -> look (at_ h g0) f = Some (VRec b0) -> h' = h /\ q' = q /\ b = b0) /\
  (flagged flags NEW_RIDER = false -> forall r0, q_rider q = Some r0 -> r = r0 /\ forall k, k <> group -> look (at_ h' r) k = look (at_ h r) k) /\
  (flagged flags (NEW_GROUPREC + NEW_RIDER) = false -> forall r0 g0, q_rider q = Some r0 -> look (at_ h r0) group = Some (VRec g0) ->
     g = g0 /\ forall k, k <> f -> look (at_ h' g) k = look (at_ h g) k) /\
  sound h' /\ (keyed h -> keyed h').
Proof.
  intros S Hr. unfold getCmd. destruct (getGroupRec h q group flags) as [[[h1 q1] g]| |] eqn:E1; cbn [bind]; [|discriminate|discriminate].
  destruct (getGroupRec_ok _ _ _ _ _ _ _ S Hr E1) as (r & R1 & R2 & R3 & R4 & R5 & R6 & R7 & R8 & R9 & R10 & R11 & R12 & R13 & R14 & R15 & R16).
  destruct (getOrInsert h1 g f _) as [[h2 b2]| |] eqn:E2; cbn [bind]; [|discriminate|discriminate]. intros [= <- <- <-].
  destruct (getOrInsert_ok _ _ _ _ _ _ R4 R7 E2) as (G1 & G2 & G3 & G4 & G5 & G6 & G7 & G8 & G9 & G10 & G11).
  assert (Er : at_ h2 r = at_ h1 r) by (apply G7; exact R6).
  exists r, g. split; [exact R1|]. split; [rewrite Er; exact R2|]. split; [exact G1|].
  split. { intros x Hx N. destruct (Nat.eq_dec x g) as [->|Ng].
    - right. destruct R16 as [H|H]; [lia|exact H].
    - left. rewrite G7 in N; [|exact Ng]. destruct (Nat.eq_dec x r) as [->|Nr]; [|destruct N; apply R9, Nr].
      destruct (q_rider q) as [a|] eqn:Eq; [|rewrite R10 in Hx; [lia|discriminate]].
      destruct (Nat.eq_dec a r) as [->|Na]; [reflexivity|]. rewrite R10 in Hx; [lia|congruence]. }
  split. { intros Ef. apply G9, Ef. }
  split. { intros Ef r0 g0 b0 H1 H2 H3.
    assert (X : flagged flags NEW_RIDER = false /\ flagged flags (NEW_GROUPREC + NEW_RIDER) = false).
    { split.
      - destruct (flagged flags NEW_RIDER) eqn:X; [|reflexivity]. rewrite (flagged_mono flags NEW_RIDER NEW_ALL) in Ef; [discriminate|reflexivity|exact X].
      - destruct (flagged flags (NEW_GROUPREC + NEW_RIDER)) eqn:X; [|reflexivity]. rewrite (flagged_mono flags (NEW_GROUPREC + NEW_RIDER) NEW_ALL) in Ef; [discriminate|reflexivity|exact X]. }
    destruct X as [X1 X2]. destruct (R14 X2 r0 g0 H1 H2) as [-> ->]. destruct (R11 X1 r0 H1) as (_ & -> & _). destruct (G10 Ef b0 H3) as [-> ->]. auto. }
  split. { intros Ef r0 H1. destruct (R11 Ef r0 H1) as (-> & _ & H3). split; [reflexivity|]. intros k Hk. rewrite Er. apply H3, Hk. }
  split. { intros Ef r0 g0 H1 H2. destruct (R14 Ef r0 g0 H1 H2) as [-> ->]. split; [reflexivity|]. intros k Hk. apply G8, Hk. }
  split; [exact G5|]. auto.
Qed.
Lemma getCmd_succeeds h q group f flags : sound h -> (forall r, q_rider q = Some r -> (r < length h)%nat) ->
  (q_rider q = None \/ (q_shared q = false /\ (flagged flags NEW_RIDER = true -> q_seen q = false))) ->
  (forall r, q_rider q = Some r -> forall v, look (at_ h r) group = Some v -> exists g, v = VRec g /\ forall u, look (at_ h g) f = Some u -> exists b, u = VRec b) ->
  exists h' q' b, getCmd h q group f flags = Ok (h', q', b).
Proof.
  intros S Hr Hq Ht. unfold getCmd.
  assert (E1 : exists h1 q1 r, getRider h q flags = Ok (h1, q1, r)).
  { unfold getRider. destruct (q_rider q) as [a|]; [|eauto]. destruct Hq as [Hq|[Hq1 Hq2]]; [discriminate|]. rewrite Hq1.
    destruct (flagged flags NEW_RIDER); [rewrite (Hq2 eq_refl)|]; cbn; eauto. }
  destruct E1 as (h1 & q1 & r & E1). destruct (getRider_ok _ _ _ _ _ _ S Hr E1) as (R1 & R2 & R3 & R4 & R5 & R6 & R7 & R8).
  assert (E2 : exists h2 g, getOrInsert h1 r group (flagged flags (NEW_GROUPREC + NEW_RIDER)) = Ok (h2, g)).
  { unfold getOrInsert. rewrite field_look. change (deref h1 r) with (at_ h1 r). destruct (flagged flags (NEW_GROUPREC + NEW_RIDER)) eqn:Ef; [unfold put_new; eauto|].
    destruct (look (at_ h1 r) group) as [v|] eqn:El; [|unfold put_new; eauto]. 
    destruct (q_rider q) as [a|] eqn:Eq; [|destruct (R7 (or_introl eq_refl)) as [X _]; rewrite X in El; discriminate].
    assert (X1 : flagged flags NEW_RIDER = false).
    { destruct (flagged flags NEW_RIDER) eqn:X; [|reflexivity]. rewrite (flagged_mono flags NEW_RIDER (NEW_GROUPREC + NEW_RIDER)) in Ef; [discriminate|reflexivity|exact X]. }
    destruct (R8 X1 a eq_refl) as (-> & -> & ->). destruct (Ht a eq_refl v El) as (g & -> & _). eauto. }
  destruct E2 as (h2 & g & E2).
  assert (EG : getGroupRec h q group flags = Ok (h2, q1, g)) by (unfold getGroupRec; rewrite E1; cbn [bind]; rewrite E2; reflexivity).
  rewrite EG. cbn [bind].
  destruct (getGroupRec_ok _ _ _ _ _ _ _ S Hr EG) as (r' & S1 & S2 & S3 & S4 & S5 & S6 & S7 & S8 & S9 & S10 & S11 & S12 & S13 & S14 & S15 & S16).
  assert (E3 : exists h3 b, getOrInsert h2 g f (flagged flags NEW_ALL) = Ok (h3, b)).
  { unfold getOrInsert. rewrite field_look. change (deref h2 g) with (at_ h2 g). destruct (flagged flags NEW_ALL) eqn:Ef; [unfold put_new; eauto|].
    destruct (look (at_ h2 g) f) as [u|] eqn:El; [|unfold put_new; eauto].
    destruct S16 as [X|(r0 & X1 & X2)].
    - rewrite S9 in El; [|]. 2:{ intros ->. apply S6. rewrite S1 in *. congruence. }
      rewrite at_out in El; [discriminate|exact X].
    - destruct (Ht r0 X1 _ X2) as (g' & [= <-] & Hu). rewrite S9 in El; [|congruence]. destruct (Hu u El) as (b & ->). eauto. }
  destruct E3 as (h3 & b & E3). rewrite E3. cbn [bind]. eauto.
Qed.

(** ** the Solver's rider *)
Section Solver.
Variable W : vocab.
Lemma add_parm_spec h cmds p : (cmds < length h)%nat ->
  let H := add_parm W h cmds p in
  length H = S (S (length h)) /\ at_ H cmds = put_field (at_ h cmds) [fst p] (VRec (length h)) /\
  at_ H (length h) = [(FUpdateParm W, VRec (S (length h)))] /\ at_ H (S (length h)) = snd p /\
  (forall x, (x < length h)%nat -> x <> cmds -> at_ H x = at_ h x).
Proof.
  intros Hc. cbv zeta. unfold add_parm.
  rewrite (surjective_pairing (put_new h cmds [fst p])), put_new_snd.
  set (h1 := fst (put_new h cmds [fst p])). assert (L1 : length h1 = S (length h)) by apply put_new_len.
  rewrite (surjective_pairing (put_new h1 (length h) (FUpdateParm W))), put_new_snd, L1.
  set (h2 := fst (put_new h1 (length h) (FUpdateParm W))). assert (L2 : length h2 = S (S (length h))) by (unfold h2; rewrite put_new_len, L1; reflexivity).
  assert (A2 : forall x, x <> length h -> at_ h2 x = at_ h1 x) by (intros x Hx; apply put_new_other; lia).
  assert (A1 : forall x, x <> cmds -> at_ h1 x = at_ h x) by (intros x Hx; apply put_new_other; lia).
  split; [rewrite write_len; exact L2|].
  split. { rewrite write_other; [|lia]. rewrite A2; [|lia]. apply put_new_self, Hc. }
  split. { rewrite write_other; [|lia]. unfold h2. rewrite put_new_self; [|lia]. rewrite A1; [|lia]. rewrite at_out; [|lia]. rewrite L1. reflexivity. }
  split. { apply write_same. lia. }
  intros x Hx Nx. rewrite write_other; [|lia]. rewrite A2; [|lia]. apply A1. exact Nx.
Qed.
Definition filled (H : list (list (list Z * val))) (cmds n : nat) (ps : list (Z * list (list Z * val))) : Prop :=
  (forall p, In p ps -> exists t c, (cmds < t < length H /\ cmds < c < length H)%nat /\ look (at_ H cmds) [fst p] = Some (VRec t) /\
     at_ H t = [(FUpdateParm W, VRec c)] /\ at_ H c = snd p) /\
  (forall i, ~ In i (map fst ps) -> look (at_ H cmds) [i] = None).
Lemma fill_spec ps : forall done H cmds, (cmds < length H)%nat -> NoDup (map fst (done ++ ps)) -> filled H cmds 0 done ->
  let H' := fold_left (fun h p => add_parm W h cmds p) ps H in
  filled H' cmds 0 (done ++ ps) /\ (length H <= length H')%nat /\ (forall x, (x < length H)%nat -> x <> cmds -> at_ H' x = at_ H x).
Proof.
  induction ps as [|p ps IH]; intros done H cmds Hc N F; cbv zeta; cbn [fold_left].
  - rewrite app_nil_r. split; [exact F|]. split; [lia|auto].
  - destruct (add_parm_spec H cmds p Hc) as (L & A1 & A2 & A3 & A4). set (H1 := add_parm W H cmds p) in *.
    replace (done ++ p :: ps) with ((done ++ [p]) ++ ps) in * by (rewrite <- app_assoc; reflexivity).
    assert (F1 : filled H1 cmds 0 (done ++ [p])).
    { destruct F as [F1 F2]. split.
      - intros x Hx. apply in_app_or in Hx. destruct Hx as [Hx|[<-|[]]].
        + destruct (F1 x Hx) as (t & c & [Ht Hcc] & E1 & E2 & E3). exists t, c. split; [lia|].
          rewrite A1, look_put_other.
          * split; [exact E1|]. rewrite !A4; try lia. auto.
          * intros [= E]. rewrite map_app, map_app in N. cbn in N. rewrite <- app_assoc in N. apply NoDup_remove_2 in N. apply N.
            apply in_or_app. left. rewrite E. apply in_map, Hx.
        + exists (length H), (S (length H)). split; [lia|]. rewrite A1, look_put_same. auto.
      - intros i Hi. rewrite map_app in Hi. rewrite A1, look_put_other.
        + apply F2. intros X. apply Hi. apply in_or_app. left. exact X.
        + intros [= E]. apply Hi. apply in_or_app. right. left. exact E. }
    destruct (IH (done ++ [p]) H1 cmds) as (G1 & G2 & G3); [lia|exact N|exact F1|].
    split; [exact G1|]. split; [lia|]. intros x Hx Nx. rewrite G3; [|lia|exact Nx]. apply A4; assumption.
Qed.
Lemma fillRider_spec h q group parms : NoDup (map fst parms) ->
  exists H Q r g b, fillRider W h q group parms = Ok (H, Q) /\ q_rider Q = Some r /\ q_seen Q = true /\ (length h <= r)%nat /\
  at_ H r = [(group, VRec g)] /\ at_ H g = [([AidCommand W; AidBy W; AidNodeIndex W], VRec b)] /\ filled H b 0 parms /\
  (forall x, (x < length h)%nat -> at_ H x = at_ h x).
Proof.
  intros N. unfold fillRider, getCmdRec_ByNodeIndex, getGroupRec, getRider. cbn [clearRider q_rider bind]. unfold getOrInsert.
  change (flagged NEW_GROUPREC (NEW_GROUPREC + NEW_RIDER)) with true. change (flagged NEW_GROUPREC NEW_ALL) with true. cbv iota.
  set (n := length h). set (h0 := h ++ [[]]). assert (L0 : length h0 = S n) by (unfold h0; rewrite app_length; cbn; lia).
  rewrite (surjective_pairing (put_new h0 n group)), put_new_snd. cbn [bind]. set (h1 := fst (put_new h0 n group)).
  assert (L1 : length h1 = S (S n)) by (unfold h1; rewrite put_new_len, L0; reflexivity). rewrite L0.
  set (BI := FCommandByNodeIndex W).
  rewrite (surjective_pairing (put_new h1 (S n) BI)), put_new_snd. cbn [bind]. set (h2 := fst (put_new h1 (S n) BI)). rewrite L1.
  assert (L2 : length h2 = S (S (S n))) by (unfold h2; rewrite put_new_len, L1; reflexivity).
  assert (B2 : at_ h2 (S n) = [(BI, VRec (S (S n)))]).
  { unfold h2. rewrite put_new_self; [|lia]. unfold h1. rewrite put_new_other; [|lia|lia]. rewrite at_out; [|lia]. fold h1. rewrite L1. reflexivity. }
  assert (B1 : at_ h2 n = [(group, VRec (S n))]).
  { unfold h2. rewrite put_new_other; [|lia|lia]. unfold h1. rewrite put_new_self; [|lia]. unfold h0 at 1. rewrite at_new. rewrite at_out; [|unfold n; lia]. rewrite L0. reflexivity. }
  assert (B0 : forall x, (x < n)%nat -> at_ h2 x = at_ h x).
  { intros x Hx. unfold h2. rewrite put_new_other; [|lia|lia]. unfold h1. rewrite put_new_other; [|lia|lia]. apply at_new. }
  destruct (fill_spec parms [] h2 (S (S n))) as (G1 & G2 & G3).
  - lia.
  - exact N.
  - split; [intros p []|]. intros i _.
    assert (E : at_ h2 (S (S n)) = []) by (unfold h2; rewrite put_new_other; [apply at_out; lia|lia|lia]).
    rewrite E. reflexivity.
  - eexists. eexists. exists n, (S n), (S (S n)). split; [reflexivity|]. split; [reflexivity|]. split; [reflexivity|]. split; [unfold n; lia|].
    split; [rewrite G3; [exact B1|lia|lia]|]. split; [rewrite G3; [exact B2|lia|lia]|]. split; [exact G1|].
    intros x Hx. rewrite G3; [apply B0; unfold n; exact Hx|unfold n in *; lia|unfold n in *; lia].
Qed.
End Solver.
