From Verif Require Import Base Rqid_Spec Rqid_Model Rqid_Proofs Poll_Model Ncache_Model Ncache_Spec.
Local Open Scope Z_scope.

(** ** bits *)
Lemma has_bit c k : 0 <= k -> has c (2 ^ k) = Z.testbit c k.
Proof. intros H. exact (bit_on_pow c k H). Qed.
Lemma FLAGS_bit k : Z.testbit FLAGS k = (18 <=? k) && (k <=? 23).
Proof.
  destruct (Z.ltb_spec k 0) as [N|P]; [now rewrite Z.testbit_neg_r by lia; symmetry; apply andb_false_iff; left; apply Z.leb_gt; lia|].
  destruct (Z.leb_spec k 23) as [L|L].
  - assert (K : k = 0 \/ k = 1 \/ k = 2 \/ k = 3 \/ k = 4 \/ k = 5 \/ k = 6 \/ k = 7 \/ k = 8 \/ k = 9 \/ k = 10 \/ k = 11 \/ k = 12 \/ k = 13 \/ k = 14 \/ k = 15 \/ k = 16 \/ k = 17 \/ k = 18 \/ k = 19 \/ k = 20 \/ k = 21 \/ k = 22 \/ k = 23) by lia.
    repeat (destruct K as [->|K]; [reflexivity|]). now subst.
  - rewrite andb_false_r. apply Z.bits_above_log2; [easy|]. change (Z.log2 FLAGS) with 23. lia.
Qed.
Lemma flags_bit c k : Z.testbit (flags c) k = Z.testbit c k && ((18 <=? k) && (k <=? 23)).
Proof. unfold flags. now rewrite Z.land_spec, FLAGS_bit. Qed.
Lemma flags_lor a b : flags (Z.lor a b) = Z.lor (flags a) (flags b).
Proof. unfold flags. apply Z.land_lor_distr_l. Qed.
Lemma flags_ldiff a b : flags (Z.ldiff a b) = Z.ldiff (flags a) b.
Proof. apply Z.bits_inj'; intros k _. rewrite flags_bit, !Z.ldiff_spec, flags_bit. now destruct (Z.testbit a k), (Z.testbit b k), ((18 <=? k) && (k <=? 23)). Qed.
Lemma has_flags c k : 18 <= k <= 23 -> has (flags c) (2 ^ k) = has c (2 ^ k).
Proof. intros H. rewrite !has_bit, flags_bit by lia. replace (18 <=? k) with true by (symmetry; apply Z.leb_le; lia). replace (k <=? 23) with true by (symmetry; apply Z.leb_le; lia). now rewrite andb_true_r. Qed.
Lemma flag_FAIL c : has (flags c) RES_FAIL = has c RES_FAIL.
Proof. change RES_FAIL with (2 ^ 23). apply has_flags; lia. Qed.
Lemma flag_ABORT c : has (flags c) RES_ABORT = has c RES_ABORT.
Proof. change RES_ABORT with (2 ^ 22). apply has_flags; lia. Qed.
Lemma flag_WAIT c : has (flags c) RES_WAIT = has c RES_WAIT.
Proof. change RES_WAIT with (2 ^ 21). apply has_flags; lia. Qed.
Lemma flag_MISSING c : has (flags c) RES_MISSING = has c RES_MISSING.
Proof. change RES_MISSING with (2 ^ 18). apply has_flags; lia. Qed.
Lemma has_lor a b k : 0 <= k -> has (Z.lor a b) (2 ^ k) = has a (2 ^ k) || has b (2 ^ k).
Proof. intros H. now rewrite !has_bit, Z.lor_spec by lia. Qed.
Lemma has_ldiff a b k : 0 <= k -> has (Z.ldiff a b) (2 ^ k) = has a (2 ^ k) && negb (has b (2 ^ k)).
Proof. intros H. now rewrite !has_bit, Z.ldiff_spec by lia. Qed.

(** ** masks *)
Lemma agree_lor a b x y : agree_under (Z.lor a b) x y <-> agree_under a x y /\ agree_under b x y.
Proof.
  unfold agree_under, selected. split.
  - intros H. split; intros i Hi; apply H; apply andb_true_iff in Hi as [-> Hi]; rewrite Z.lor_spec, Hi; [easy|apply orb_true_r].
  - intros [H1 H2] i Hi. apply andb_true_iff in Hi as [Hi Hb]. rewrite Z.lor_spec in Hb. apply orb_true_iff in Hb as [Hb|Hb]; [apply H1|apply H2]; now rewrite Hi, Hb.
Qed.
Lemma agree_sel m m' x y : (forall i, selected m' i = true -> selected m i = true) -> agree_under m x y -> agree_under m' x y.
Proof. intros S H i Hi. apply H, S, Hi. Qed.
Lemma sel_ldiff_high m h i : (forall k, 0 <= k < 16 -> Z.testbit h k = false) -> selected (Z.ldiff m h) i = selected m i.
Proof.
  intros H. unfold selected. destruct (Nat.ltb_spec i 16); [|easy]. cbn [andb]. rewrite Z.ldiff_spec, H by lia. apply andb_true_r.
Qed.
Lemma high_bits j k : 16 <= j -> 0 <= k < 16 -> Z.testbit (2 ^ j) k = false.
Proof. intros H K. rewrite Z.pow2_bits_false; [easy|lia]. Qed.
Lemma agree_refl m x : agree_under m x x.
Proof. now intros i _. Qed.
Lemma agree_sym m x y : agree_under m x y -> agree_under m y x.
Proof. intros H i Hi. symmetry. now apply H. Qed.
Lemma agree_trans m x y z : agree_under m x y -> agree_under m y z -> agree_under m x z.
Proof. intros H K i Hi. rewrite (H i Hi). now apply K. Qed.

Section Transparent.
Context {R : Type}.
Variable T : rtypes.
Variables (r_empty r_missing : R) (strip : R -> R) (mkfail : list R -> R).
Variable g : nat -> node R.
Variable fpolicy : Z.
Variable cells : Z -> bool.
Hypothesis WF : wellfounded g.
Hypothesis DEP : declared g.
Hypothesis DER : derivatives_apart T r_empty r_missing strip mkfail g.
Hypothesis PLAIN : plain_masks g.
Hypothesis PU_mode : evalMode T (PARM_UPDATE T) = -1.
Hypothesis PU_ds : PARM_UPDATE T <> DISCOVER_SPIDS T.
Notation typ := (typical T cells).
Notation fr := (fresh T r_empty r_missing mkfail g).
Notation concl := (conclude T r_empty r_missing mkfail).
Definition v (rq : request) (i : nat) : Z * option R := meaning (fr (S i) rq i).

(** ** fuel *)
Lemma ask_ext ev ev' stop kids : (forall c, In c kids -> ev c = ev' c) -> ask (R:=R) ev stop kids = ask ev' stop kids.
Proof.
  induction kids as [|c kids IH]; intros H; [easy|]. cbn [ask]. rewrite (H c (or_introl eq_refl)). f_equal.
  destruct (stop _); [easy|]. apply IH. intros; apply H; now right.
Qed.
Lemma fresh_fuel f f' rq i : (i < f)%nat -> (i < f')%nat -> fr f rq i = fr f' rq i.
Proof.
  revert f' i. induction f as [|f IH]; intros f' i L L'; [lia|]. destruct f' as [|f']; [lia|]. cbn [fresh].
  destruct (n_active (g i)); [|easy]. f_equal. f_equal. apply ask_ext. intros c Hc.
  assert (c < i)%nat by (apply (WF i); apply in_or_app; now left). apply IH; lia.
Qed.

(** ** what the answers mean, up to a change of results *)
Definition tm (t : option R -> option R) (a : Z * option R) : Z * option R := (flags (fst a), t (snd a)).
Definition tl_ (t : option R -> option R) (l : list (answer R)) := map (option_map (tm t)) l.
Notation ml := (map (option_map meaning)).

Lemma pollCode_flags nd (l l' : list (answer R)) : map (option_map (fun a => flags (fst a))) l = map (option_map (fun a => flags (fst a))) l' ->
  flags (pollCode nd l) = flags (pollCode nd l').
Proof.
  intros H. assert (C : flags (cumul l) = flags (cumul l')).
  { unfold cumul. generalize 0 at 1 2. revert l' H.
    assert (G : forall (l l' : list (answer R)) x y, map (option_map (fun a => flags (fst a))) l = map (option_map (fun a => flags (fst a))) l' -> flags x = flags y ->
       flags (fold_left (fun m a => match a with Some (c, _) => Z.lor m c | None => m end) l x) =
       flags (fold_left (fun m a => match a with Some (c, _) => Z.lor m c | None => m end) l' y)).
    { clear. induction l as [|a l IH]; intros [|a' l'] x y H E; try discriminate H; [easy|]. cbn [map fold_left] in *.
      injection H as Ha Hl. apply IH; [easy|]. destruct a as [[c r]|], a' as [[c' r']|]; try discriminate Ha; [|easy].
      injection Ha as Ha. now rewrite !flags_lor, E, Ha. }
    intros l' H z. now apply G. }
  unfold pollCode. destruct (is_ignore (n_missing nd)), (is_ignore (n_fail nd)); rewrite ?flags_ldiff; now rewrite ?C.
Qed.
Lemma tl_flags t (l l' : list (answer R)) : ml l' = tl_ t l -> map (option_map (fun a => flags (fst a))) l' = map (option_map (fun a => flags (fst a))) l.
Proof.
  revert l'. induction l as [|a l IH]; intros [|a' l'] H; try discriminate H; [easy|]. cbn [map tl_] in *. injection H as Ha Hl. f_equal; [|now apply IH].
  destruct a as [[c r]|], a' as [[c' r']|]; try discriminate Ha; [|easy]. injection Ha as Ha _. cbn. now rewrite Ha.
Qed.
Lemma tl_results t (l l' : list (answer R)) : t None = None -> ml l' = tl_ t l -> results l' = map t (results l).
Proof.
  intros N. revert l'. induction l as [|a l IH]; intros [|a' l'] H; try discriminate H; [easy|]. cbn [map tl_ results] in *. injection H as Ha Hl. unfold results in IH. rewrite (IH l' Hl). f_equal.
  destruct a as [[c r]|], a' as [[c' r']|]; try discriminate Ha; [|easy]. now injection Ha as _ Ha.
Qed.
Lemma tl_failed t (l l' : list (answer R)) : ml l' = tl_ t l -> failed l' = map t (failed l).
Proof.
  revert l'. induction l as [|a l IH]; intros [|a' l'] H; try discriminate H; [easy|]. cbn [map tl_ failed flat_map] in *. injection H as Ha Hl.
  unfold failed in IH. rewrite map_app, (IH l' Hl). f_equal.
  destruct a as [[c r]|], a' as [[c' r']|]; try discriminate Ha; [|easy]. injection Ha as Hc Hr. cbn in Hc, Hr.
  rewrite <- (flag_ABORT c'), <- (flag_FAIL c'), Hc, flag_ABORT, flag_FAIL. destruct (_ && _); [|easy]. cbn. now rewrite Hr.
Qed.

(** [t] maps results of [rq] to results of [rq'] *)
Record change (rq rq' : request) (t : option R -> option R) : Prop := {
  ch_none : t None = None;
  ch_some : forall x, exists y, t (Some x) = Some y;
  ch_empty : t (Some r_empty) = Some r_empty;
  ch_missing : t (Some r_missing) = Some r_missing;
  ch_mkfail : forall l, t (Some (mkfail (flat_map (fun r => match r with Some x => [x] | None => [] end) l))) =
                 Some (mkfail (flat_map (fun r => match r with Some x => [x] | None => [] end) (map t l)));
  ch_cells : rq_cells rq' = rq_cells rq;
  ch_mode : (0 <=? evalMode T (rq_type (rq_id rq'))) = (0 <=? evalMode T (rq_type (rq_id rq)));
  ch_ds : evalMode T (rq_type (rq_id rq)) < 0 -> rq_type (rq_id rq') = rq_type (rq_id rq) /\ (forall r, t r = r) }.

Lemma map_id_ext {A} (t : A -> A) l : (forall x, t x = x) -> map t l = l.
Proof. intros H. rewrite <- (map_id l) at 2. apply map_ext. exact H. Qed.
Lemma full_t rq rq' t (C : change rq rq' t) r :
  match t r with Some _ => t r | None => Some r_empty end = t (match r with Some _ => r | None => Some r_empty end).
Proof.
  destruct r as [x|]; [destruct (ch_some _ _ _ C x) as [y E]; now rewrite E|]. rewrite (ch_none _ _ _ C). symmetry. apply (ch_empty _ _ _ C).
Qed.
(** whether getResult() is called *)
Definition reaches (nd : node R) (rq : request) (l : list (answer R)) : bool :=
  negb (has (pollCode nd l) RES_WAIT) && negb (has (pollCode nd l) RES_FAIL) && negb (has (pollCode nd l) RES_MISSING)
  && rq_cells rq && (0 <=? evalMode T (rq_type (rq_id rq))).
Lemma conclude_change nd rq rq' t l l' :
  (reaches nd rq l = true -> forall c r, n_eval nd (results l) rq = (c, r) ->
     exists c', n_eval nd (map t (results l)) rq' = (c', t r) /\ flags c' = flags c) ->
  change rq rq' t ->
  ml l' = tl_ t l -> meaning (snd (concl nd rq' l')) = tm t (snd (concl nd rq l)) /\ fst (concl nd rq' l') = fst (concl nd rq l).
Proof.
  intros EV C H.
  pose proof (pollCode_flags nd l' l (tl_flags t l l' H)) as F.
  assert (PF : pollFail mkfail nd l' = t (pollFail mkfail nd l)).
  { unfold pollFail. rewrite (tl_failed t l l' H). destruct (is_ignore (n_fail nd)); [symmetry; apply (ch_none _ _ _ C)|].
    pose proof (ch_mkfail _ _ _ C (failed l)) as M. destruct (failed l) as [|x fs]; [symmetry; apply (ch_none _ _ _ C)|]. cbn [map] in *. now rewrite M. }
  pose proof (tl_results t l l' (ch_none _ _ _ C) H) as RS.
  unfold conclude. unfold reaches in EV.
  rewrite <- (flag_WAIT (pollCode nd l')), <- (flag_FAIL (pollCode nd l')), <- (flag_MISSING (pollCode nd l')), F, flag_WAIT, flag_FAIL, flag_MISSING.
  destruct (has (pollCode nd l) RES_WAIT); [unfold meaning, tm; cbn [fst snd]; split; [now rewrite F, PF|easy]|].
  destruct (has (pollCode nd l) RES_FAIL); [unfold meaning, tm; cbn [fst snd]; split; [now rewrite F, PF|easy]|].
  destruct (has (pollCode nd l) RES_MISSING).
  { unfold meaning, tm; cbn [fst snd]; split; [|easy]. rewrite F. f_equal. symmetry. apply (ch_missing _ _ _ C). }
  rewrite (ch_cells _ _ _ C), (ch_mode _ _ _ C).
  destruct (rq_cells rq).
  2:{ unfold meaning, tm; cbn [fst snd]; split; [|easy]. rewrite !flags_lor, F, PF. f_equal. apply (full_t _ _ _ C). }
  destruct (0 <=? evalMode T (rq_type (rq_id rq))) eqn:M.
  - destruct (n_eval nd (results l) rq) as [c r] eqn:E. destruct (EV eq_refl c r eq_refl) as (c' & E' & Fc).
    rewrite RS, E'. rewrite <- (flag_WAIT c'), Fc, flag_WAIT. destruct (has c RES_WAIT); unfold meaning, tm; cbn [fst snd]; (split; [|easy]); rewrite !flags_lor, F, Fc.
    + easy.
    + f_equal. apply (full_t _ _ _ C).
  - destruct (ch_ds _ _ _ C ltac:(lia)) as [Ty Id]. rewrite Ty, RS, (map_id_ext t) by exact Id.
    destruct (rq_type (rq_id rq) =? DISCOVER_SPIDS T); unfold meaning, tm; cbn [fst snd]; (split; [|easy]); rewrite !flags_lor, F, ?PF; f_equal.
    + now rewrite Id.
    + apply (full_t _ _ _ C).
Qed.

(** ** codes that are safe to compare requests with *)
Definition tstrip : option R -> option R := option_map strip.
Definition SafeA (i : nat) (rq : request) (c : Z) : Prop := forall rq', typ rq' -> type_of rq' = type_of rq ->
  agree_under c (rq_id rq) (rq_id rq') -> v rq' i = v rq i.
Definition SafeB (i : nat) (rq : request) (c : Z) : Prop := 0 < mode T rq -> forall rq', typ rq' -> mode T rq' = 0 ->
  agree_under (but_type c) (rq_id rq) (rq_id rq') -> v rq' i = tm tstrip (v rq i).
Definition Good (i : nat) (rq : request) (a : Z * option R) : Prop :=
  meaning a = v rq i /\ SafeA i rq (fst a) /\ SafeB i rq (fst a) /\ has (fst a) RES_IGNORE_TYPE = false.

Lemma flags_idem c : flags (flags c) = flags c.
Proof. apply Z.bits_inj'; intros k _. rewrite !flags_bit. now destruct (Z.testbit c k), ((18 <=? k) && (k <=? 23)). Qed.
Lemma v_flags rq i : flags (fst (v rq i)) = fst (v rq i).
Proof. apply flags_idem. Qed.
Lemma but_type_mono m m' x y : (forall i, selected m' i = true -> selected m i = true) ->
  agree_under (but_type m) x y -> agree_under (but_type m') x y.
Proof.
  intros S. apply agree_sel. intros i Hi. unfold but_type, selected in *. apply andb_true_iff in Hi as [Hi Hb]. rewrite Z.ldiff_spec in *.
  apply andb_true_iff in Hb as [Hb Ht]. specialize (S i). rewrite Hi, Hb in S. cbn in S. apply andb_true_iff. split; [easy|]. rewrite S by easy. exact Ht.
Qed.
Lemma Good_code i rq c c' r : Good i rq (c, r) -> flags c' = flags c -> (forall i, selected c i = true -> selected c' i = true) ->
  has c' RES_IGNORE_TYPE = false -> Good i rq (c', r).
Proof.
  intros (M & A & B & I) F S I'. unfold Good, meaning in *. cbn [fst snd] in *. split; [now rewrite <- M, F|]. cbn [fst]. repeat split.
  - intros rq' Ty E G. apply A; [easy..|]. now apply (agree_sel c').
  - intros P rq' Ty E G. apply B; [easy..|]. now apply (but_type_mono c').
  - exact I'.
Qed.

Inductive Polled (rq : request) (stop : Z -> bool) : list nat -> list (answer R) -> Prop :=
| P_nil : Polled rq stop [] []
| P_stop c r k ks : Good k rq (c, r) -> stop c = true -> Polled rq stop (k :: ks) (Some (c, r) :: map (fun _ => None) ks)
| P_go c r k ks l : Good k rq (c, r) -> stop c = false -> Polled rq stop ks l -> Polled rq stop (k :: ks) (Some (c, r) :: l).

Lemma map_none {A B C} (h : A -> B) (ks : list C) : map (option_map h) (map (fun _ => None) ks) = map (fun _ => None) ks.
Proof. rewrite map_map. now apply map_ext. Qed.
(** the answers to [rq'] without a cache *)
Lemma Polled_ask rq rq' stop t f kids l : (forall c c', flags c = flags c' -> stop c = stop c') -> (forall k, In k kids -> k < f)%nat ->
  Polled rq stop kids l -> (forall c r k, In (Some (c, r)) l -> In k kids -> Good k rq (c, r) -> v rq' k = tm t (v rq k)) ->
  ml (ask (fr f rq') stop kids) = tl_ t l.
Proof.
  intros ST L P. induction P as [|c r k ks G So|c r k ks l G So P IH]; intros H; [easy| |].
  - assert (Vk : v rq' k = tm t (v rq k)) by (apply (H c r); [now left|now left|exact G]).
    assert (E : meaning (fr f rq' k) = tm t (c, r)).
    { rewrite (fresh_fuel f (S k)) by (try lia; apply L; now left). change (v rq' k = tm t (c, r)). rewrite Vk. destruct G as (M & _). rewrite <- M. unfold tm, meaning. cbn [fst snd]. now rewrite flags_idem. }
    cbn [ask]. assert (St : stop (fst (fr f rq' k)) = true).
    { rewrite <- So. apply ST. now injection E. }
    rewrite St. cbn [map tl_ option_map]. rewrite E. f_equal. unfold tl_. now rewrite !map_none.
  - assert (Vk : v rq' k = tm t (v rq k)) by (apply (H c r); [now left|now left|exact G]).
    assert (E : meaning (fr f rq' k) = tm t (c, r)).
    { rewrite (fresh_fuel f (S k)) by (try lia; apply L; now left). change (v rq' k = tm t (c, r)). rewrite Vk. destruct G as (M & _). rewrite <- M. unfold tm, meaning. cbn [fst snd]. now rewrite flags_idem. }
    cbn [ask]. assert (St : stop (fst (fr f rq' k)) = false).
    { rewrite <- So. apply ST. now injection E. }
    rewrite St. cbn [map tl_ option_map]. rewrite E. f_equal. apply IH.
    + intros; apply L; now right.
    + intros c0 r0 k0 I1 I2. apply (H c0 r0 k0); now right.
Qed.
Lemma stops_flags nd c c' : flags c = flags c' -> stops (R:=R) nd c = stops nd c'.
Proof. intros E. unfold stops. rewrite <- !(flag_ABORT c), <- !(flag_FAIL c), <- !(flag_MISSING c), E, flag_ABORT, flag_FAIL, flag_MISSING. easy. Qed.

(** ** a node's answer is safe if its children's are *)
Definition codes_in (l : list (answer R)) (C : Z) : Prop := forall c r, In (Some (c, r)) l -> forall i, selected c i = true -> selected C i = true.
Lemma cumul_sel (l : list (answer R)) : codes_in l (cumul l).
Proof.
  unfold cumul. assert (G : forall (l : list (answer R)) m, (forall i, selected m i = true -> selected (fold_left (fun m a => match a with Some (c, _) => Z.lor m c | None => m end) l m) i = true) /\
     codes_in l (fold_left (fun m a => match a with Some (c, _) => Z.lor m c | None => m end) l m)).
  { clear. induction l as [|a l IH]; intros m; [split; [easy|intros c r []]|]. cbn [fold_left].
    destruct (IH (match a with Some (c, _) => Z.lor m c | None => m end)) as [I1 I2]. split.
    - intros i Hi. apply I1. destruct a as [[c r]|]; [|easy]. unfold selected in *. apply andb_true_iff in Hi as [-> Hi]. now rewrite Z.lor_spec, Hi.
    - intros c r [->|H] i Hi; [|now apply (I2 c r)]. apply I1. unfold selected in *. apply andb_true_iff in Hi as [-> Hi]. rewrite Z.lor_spec, Hi. apply orb_true_r. }
  apply G.
Qed.
Lemma pollCode_sel nd (l : list (answer R)) : codes_in l (pollCode nd l).
Proof.
  intros c r H i Hi. pose proof (cumul_sel l c r H i Hi) as K. unfold pollCode. change RES_FAIL with (2 ^ 23). change RES_MISSING with (2 ^ 18).
  destruct (is_ignore (n_fail nd)), (is_ignore (n_missing nd)); rewrite ?sel_ldiff_high by (intros; apply high_bits; lia); exact K.
Qed.
Lemma sel_lor_l a b i : selected a i = true -> selected (Z.lor a b) i = true.
Proof. unfold selected. intros H. apply andb_true_iff in H as [-> H]. now rewrite Z.lor_spec, H. Qed.
Lemma sel_lor_r a b i : selected b i = true -> selected (Z.lor a b) i = true.
Proof. rewrite Z.lor_comm. apply sel_lor_l. Qed.
Lemma conclude_codes nd rq (l : list (answer R)) : codes_in l (fst (snd (concl nd rq l))) /\
  (reaches nd rq l = true -> forall i, selected (Z.lor (n_deps nd) (fst (n_eval nd (results l) rq))) i = true -> selected (fst (snd (concl nd rq l))) i = true).
Proof.
  split.
  - intros c r H i Hi. pose proof (pollCode_sel nd l c r H i Hi) as K. unfold conclude. cbv zeta.
    repeat match goal with |- context [if ?b then _ else _] => destruct b end; cbn [fst snd]; try exact K; try (now apply sel_lor_l);
    destruct (n_eval nd (results l) rq) as [c0 r0]; destruct (has c0 RES_WAIT); cbn [fst snd]; now do 2 apply sel_lor_l.
  - unfold reaches. intros H i Hi. unfold conclude. cbv zeta. repeat (apply andb_true_iff in H as [H ?]).
    repeat match goal with E : negb _ = true |- _ => apply negb_true_iff in E; rewrite E end.
    match goal with E : rq_cells rq = true |- _ => rewrite E end. match goal with E : (0 <=? _) = true |- _ => rewrite E end.
    destruct (n_eval nd (results l) rq) as [c0 r0]. cbn [fst] in Hi. destruct (has c0 RES_WAIT); cbn [fst snd].
    all: unfold selected in *; apply andb_true_iff in Hi as [-> Hi]; rewrite !Z.lor_spec in *; apply orb_true_iff in Hi as [-> | ->]; rewrite ?orb_true_r; easy.
Qed.
Lemma IGN : RES_IGNORE_TYPE = 2 ^ 17. Proof. reflexivity. Qed.
Lemma cumul_ign (l : list (answer R)) : (forall c r, In (Some (c, r)) l -> has c RES_IGNORE_TYPE = false) -> has (cumul l) RES_IGNORE_TYPE = false.
Proof.
  unfold cumul. assert (G : forall (l : list (answer R)) m, has m RES_IGNORE_TYPE = false -> (forall c r, In (Some (c, r)) l -> has c RES_IGNORE_TYPE = false) ->
    has (fold_left (fun m a => match a with Some (c, _) => Z.lor m c | None => m end) l m) RES_IGNORE_TYPE = false).
  { clear. induction l as [|a l IH]; intros m M H; [easy|]. cbn [fold_left]. apply IH; [|intros; apply (H c r); now right].
    destruct a as [[c r]|]; [|easy]. rewrite IGN in *. rewrite has_lor, M by lia. apply (H c r). now left. }
  apply G. reflexivity.
Qed.
Lemma conclude_ign i rq (l : list (answer R)) : (forall c r, In (Some (c, r)) l -> has c RES_IGNORE_TYPE = false) ->
  has (fst (snd (concl (g i) rq l))) RES_IGNORE_TYPE = false.
Proof.
  intros H. destruct (PLAIN i) as (_ & D & E). specialize (E (results l) rq). pose proof (cumul_ign l H) as C.
  assert (P : has (pollCode (g i) l) RES_IGNORE_TYPE = false).
  { unfold pollCode. rewrite IGN in *. destruct (is_ignore (n_fail (g i))), (is_ignore (n_missing (g i))); rewrite ?has_ldiff by lia; now rewrite C. }
  unfold conclude. cbv zeta. rewrite IGN in *. destruct (n_eval (g i) (results l) rq) as [c r]. cbn [fst] in E.
  repeat match goal with |- context [if ?b then _ else _] => destruct b end; cbn [fst snd]; rewrite ?has_lor, ?P, ?D, ?E by lia; easy.
Qed.

(** ** the two ways a cached result is used again *)
Lemma change_same rq rq' : typ rq -> typ rq' -> type_of rq' = type_of rq -> change rq rq' (fun r => r).
Proof.
  intros [C _] [C' _] E. constructor; try easy.
  - intros x. now exists x.
  - intros l. now rewrite map_id.
  - now rewrite C, C', E.
  - unfold type_of in E. now rewrite E.
Qed.
Lemma change_strip rq rq' : typ rq -> typ rq' -> 0 < mode T rq -> mode T rq' = 0 -> change rq rq' tstrip.
Proof.
  intros [C CC] [C' CC'] M M'. destruct DER as (E1 & E2 & E3 & _). constructor; try easy.
  - intros x. now exists (strip x).
  - cbn. now rewrite E1.
  - cbn. now rewrite E2.
  - intros l. cbn. rewrite E3. do 2 f_equal. induction l as [|[x|] l IH]; cbn; [easy| |exact IH]. now rewrite IH.
  - rewrite CC, CC' by lia. easy.
  - unfold mode, type_of in M, M'. rewrite M'. symmetry. apply Z.leb_le. lia.
  - unfold mode, type_of in M. lia.
Qed.

Lemma v_unfold f rq i : (i <= f)%nat -> v rq i =
  if n_active (g i) then meaning (snd (concl (g i) rq (ask (fr f rq) (stops (g i)) (n_children (g i))))) else (0, Some r_empty).
Proof.
  intros L. unfold v. rewrite (fresh_fuel (S i) (S f)) by lia. cbn [fresh]. now destruct (n_active (g i)).
Qed.
Lemma results_same (l : list (answer R)) : tl_ (fun r => r) l = ml l.
Proof. reflexivity. Qed.
Lemma kids_lt i k : In k (n_children (g i)) -> (k < i)%nat.
Proof. intros H. apply (WF i). apply in_or_app. now left. Qed.
Lemma Polled_codes rq stop kids l : Polled rq stop kids l -> forall c r, In (Some (c, r)) l -> has c RES_IGNORE_TYPE = false.
Proof.
  induction 1 as [|c r k ks G S|c r k ks l G S P IH]; intros c0 r0 H; [easy| |].
  - destruct H as [H|H]; [injection H as <- <-; apply G|]. apply in_map_iff in H as (? & H & _). discriminate H.
  - destruct H as [H|H]; [injection H as <- <-; apply G|]. now apply (IH c0 r0).
Qed.

Lemma conclude_good rq i l : typ rq -> n_active (g i) = true -> Polled rq (stops (g i)) (n_children (g i)) l ->
  Good i rq (snd (concl (g i) rq l)).
Proof.
  intros Ty Act P. destruct (conclude_codes (g i) rq l) as [CC CE].
  assert (KL : forall k, In k (n_children (g i)) -> (k < i)%nat) by apply kids_lt.
  (* the answer to a request that agrees *)
  assert (SA : forall rq', typ rq' -> type_of rq' = type_of rq -> agree_under (fst (snd (concl (g i) rq l))) (rq_id rq) (rq_id rq') ->
     v rq' i = meaning (snd (concl (g i) rq l))).
  { intros rq' Ty' E A. rewrite (v_unfold i) by lia. rewrite Act.
    apply (conclude_change (g i) rq rq' (fun r => r) l).
    - intros Re c r Ev. exists c. split; [|easy]. rewrite map_id. apply (DEP i (results l) rq rq' c r); [exact Ev|exact E|].
      apply (agree_sel (fst (snd (concl (g i) rq l)))); [|exact A]. rewrite Ev in CE. now apply CE.
    - now apply change_same.
    - apply (Polled_ask rq rq'); [apply stops_flags|exact KL|exact P|].
      intros c r k I1 I2 (M & SA & _). unfold tm. rewrite v_flags, <- surjective_pairing. apply SA; [exact Ty'|exact E|].
      apply (agree_sel (fst (snd (concl (g i) rq l)))); [|exact A]. now apply (CC c r). }
  assert (M : meaning (snd (concl (g i) rq l)) = v rq i) by (symmetry; apply SA; [exact Ty|easy|apply agree_refl]).
  split; [exact M|]. split; [|split].
  - intros rq' Ty' E A. rewrite <- M. now apply SA.
  - intros Pm rq' Ty' E A. rewrite <- M. rewrite (v_unfold i) by lia. rewrite Act.
    replace (tm tstrip (meaning (snd (concl (g i) rq l)))) with (tm tstrip (snd (concl (g i) rq l))) by (unfold tm, meaning; cbn [fst snd]; now rewrite flags_idem).
    apply (conclude_change (g i) rq rq' tstrip l).
    + intros Re c r Ev. destruct DER as (_ & _ & _ & D). apply (D i (results l) rq rq' c r Ev Pm E).
      apply (but_type_mono (fst (snd (concl (g i) rq l)))); [|exact A]. rewrite Ev in CE. now apply CE.
    + now apply change_strip.
    + apply (Polled_ask rq rq'); [apply stops_flags|exact KL|exact P|].
      intros c r k I1 I2 (Mk & _ & SB & _). apply SB; [exact Pm|exact Ty'|exact E|].
      apply (but_type_mono (fst (snd (concl (g i) rq l)))); [|exact A]. now apply (CC c r).
  - apply conclude_ign. apply (Polled_codes _ _ _ _ P).
Qed.

(** ** parm updates have no result *)
Definition zeros (kids : list nat) : list (answer R) := map (fun _ => Some (0, Some r_empty)) kids.
Lemma zeros_code nd kids : pollCode nd (zeros kids) = 0.
Proof.
  assert (C : cumul (zeros kids) = 0) by (unfold cumul, zeros; induction kids as [|k kids IH]; [easy|exact IH]).
  unfold pollCode. rewrite C. now destruct (is_ignore _), (is_ignore _).
Qed.
Lemma zeros_fail nd kids : pollFail mkfail nd (zeros kids) = None.
Proof.
  assert (C : failed (zeros kids) = []) by (unfold failed, zeros; induction kids as [|k kids IH]; [easy|exact IH]).
  unfold pollFail. rewrite C. now destruct (is_ignore _).
Qed.
Lemma PU_fresh f rq i : (i < f)%nat -> typ rq -> type_of rq = PARM_UPDATE T -> meaning (fr f rq i) = (0, Some r_empty).
Proof.
  intros L Ty E. revert i L. induction f as [|f IH]; intros i L; [lia|]. cbn [fresh]. destruct (n_active (g i)); [|reflexivity].
  assert (A : forall kids, (forall k, In k kids -> (k < f)%nat) -> ml (ask (fr f rq) (stops (g i)) kids) = tl_ (fun r => r) (zeros kids)).
  { induction kids as [|k kids IHk]; intros K; [easy|]. cbn [ask map option_map zeros tl_]. rewrite (IH k) by (apply K; now left). f_equal.
    assert (St : stops (g i) (fst (fr f rq k)) = false).
    { assert (F0 : flags (fst (fr f rq k)) = 0) by (assert (X := IH k (K k (or_introl eq_refl))); injection X; easy).
      rewrite (stops_flags (g i) _ 0 F0). unfold stops. cbn. reflexivity. }
    rewrite St. apply IHk. intros; apply K; now right. }
  specialize (A (n_children (g i)) ltac:(intros k Hk; apply kids_lt in Hk; lia)).
  destruct (conclude_change (g i) rq rq (fun r => r) (zeros (n_children (g i))) _
    ltac:(intros _ c r Ev; exists c; split; [now rewrite map_id|easy]) (change_same rq rq Ty Ty eq_refl) A) as [X _].
  rewrite X. unfold conclude. cbv zeta. rewrite zeros_code, zeros_fail. unfold type_of in E. rewrite E, PU_mode.
  replace (PARM_UPDATE T =? DISCOVER_SPIDS T) with false by (symmetry; now apply Z.eqb_neq).
  assert (D : flags (Z.lor 0 (n_deps (g i))) = 0) by (rewrite Z.lor_0_l; apply PLAIN).
  change (has 0 RES_WAIT) with false. change (has 0 RES_FAIL) with false. change (has 0 RES_MISSING) with false. change (0 <=? -1) with false. cbv iota.
  destruct (rq_cells rq); unfold tm; cbn [fst snd]; now rewrite D.
Qed.

(** ** the invariant *)
Definition NI (i : nat) (k : nst R) : Prop := k_isvalid k = true ->
  exists rq0 r, typ rq0 /\ rq_id rq0 = k_rqid k /\ k_result k = Some r /\ Good i rq0 (k_code k, Some r) /\ Z.testbit (k_code k) 0 = true.
Definition Inv (s : state R) : Prop := forall i, NI i (s i).
Lemma NI_clear i k : NI i (clearCache k).
Proof. intros H. discriminate H. Qed.
Lemma Inv_set s i k : Inv s -> NI i k -> Inv (set s i k).
Proof. intros H K j. unfold set. destruct (Nat.eqb_spec j i) as [->|]; [exact K|apply H]. Qed.
Lemma NI_hold i nd k h : NI i k -> NI i (holdCache nd k h).
Proof. intros H. unfold holdCache. destruct (_ && _); [apply NI_clear|exact H]. Qed.
Lemma Inv_hold hold d kids codes s : Inv s -> Inv (holdChildren g hold d kids codes s).
Proof. revert codes s. induction kids as [|k kids IH]; intros codes s H; [exact H|]. cbn [holdChildren]. apply IH. apply Inv_set; [exact H|]. apply NI_hold, H. Qed.

Lemma type_agree m x y : Z.testbit m 0 = true -> agree_under m x y -> rq_type x = rq_type y.
Proof. intros B A. specialize (A 0%nat). unfold selected in A. cbn [Z.of_nat] in A. rewrite B in A. specialize (A eq_refl). unfold at_pos in A. now destruct x, y. Qed.

Lemma getCached_good nd i k rq : NI i k -> typ rq -> match getCached T r_empty strip nd k rq with
  | Hit k' c r => NI i k' /\ Good i rq (c, r)
  | Miss k' => NI i k'
  end.
Proof.
  intros N Ty. unfold getCached. destruct (k_isvalid k) eqn:V; cbn [negb]; [|exact N].
  destruct (isempty (rq_id rq) || isempty (k_rqid k)); [apply NI_clear|].
  destruct ((rq_type (rq_id rq) =? PARM_UPDATE T) && negb (has (k_code k) (n_iter nd))) eqn:PU.
  { split; [exact N|]. apply andb_true_iff in PU as [PU _]. apply Z.eqb_eq in PU.
    assert (Vq : forall rq', typ rq' -> type_of rq' = type_of rq -> v rq' i = (0, Some r_empty)).
    { intros rq' Ty' E. apply PU_fresh; [lia|exact Ty'|]. unfold type_of in *. now rewrite E. }
    split; [symmetry; now apply Vq|]. split; [|split; [|reflexivity]].
    - intros rq' Ty' E _. now rewrite !Vq.
    - intros M. unfold mode, type_of in M. rewrite PU, PU_mode in M. lia. }
  destruct (N V) as (rq0 & r0 & Ty0 & Eid & Er & G & B). rewrite <- Eid. destruct G as (M & SA & SB & I). cbn [fst] in *.
  destruct (Z.land (diffMask (rq_id rq) (rq_id rq0)) (k_code k) =? 0) eqn:D.
  { apply Z.eqb_eq in D. apply agree_iff_diffMask in D. pose proof (type_agree _ _ _ B D) as E.
    split; [destruct (isnew k rq); exact N|]. rewrite Er.
    assert (Vr : v rq i = v rq0 i) by (apply SA; [exact Ty|exact E|now apply agree_sym]).
    split; [now rewrite M|]. cbn [fst]. split; [|split; [|exact I]].
    - intros rq' Ty' E' A. rewrite Vr. apply SA; [exact Ty'|unfold type_of in *; now rewrite E', E|]. apply (agree_trans _ _ (rq_id rq)); [now apply agree_sym|exact A].
    - intros Pm rq' Ty' E' A. rewrite Vr. apply SB; [unfold mode, type_of in *; now rewrite <- E|exact Ty'|exact E'|].
      apply (agree_trans _ _ (rq_id rq)); [|exact A]. apply agree_sym. revert D. apply agree_sel. intros j. unfold but_type, selected. rewrite Z.ldiff_spec.
      intros X. apply andb_true_iff in X as [-> X]. now apply andb_true_iff in X as [-> _]. }
  destruct ((Z.land (diffMask (rq_id rq) (rq_id rq0)) (k_code k) =? DEPMASK_TYPE) && (evalMode T (rq_type (rq_id rq)) =? 0) && (0 <? evalMode T (rq_type (rq_id rq0)))) eqn:D2; [|apply NI_clear].
  apply andb_true_iff in D2 as [D2 P0]. apply andb_true_iff in D2 as [D2 M0]. apply Z.eqb_eq in D2, M0. apply Z.ltb_lt in P0.
  split; [destruct (isnew k rq); exact N|]. rewrite Er.
  assert (A0 : agree_under (but_type (k_code k)) (rq_id rq0) (rq_id rq)).
  { intros j Hj. unfold selected, but_type in Hj. apply andb_true_iff in Hj as [Hj Hb]. rewrite Z.ldiff_spec in Hb. apply andb_true_iff in Hb as [Hb Ht].
    assert (X : Z.testbit (Z.land (diffMask (rq_id rq) (rq_id rq0)) (k_code k)) (Z.of_nat j) = Z.testbit DEPMASK_TYPE (Z.of_nat j)) by now rewrite D2.
    apply negb_true_iff in Ht. rewrite Ht, Z.land_spec, diffMask_testbit, Hj, Hb in X.
    destruct (at_pos (rq_id rq) j =? at_pos (rq_id rq0) j) eqn:Q; [apply Z.eqb_eq in Q; now symmetry|discriminate X]. }
  assert (Vr : v rq i = tm tstrip (v rq0 i)) by now apply SB.
  split; [rewrite Vr, <- M; unfold tm, meaning; cbn [fst snd]; now rewrite flags_idem|]. cbn [fst]. split; [|split; [|exact I]].
  - intros rq' Ty' E' A. rewrite Vr. apply SB; [exact P0|exact Ty'|unfold mode; now rewrite E'|].
    apply (agree_trans _ _ (rq_id rq)); [exact A0|]. revert A. apply agree_sel. intros j. unfold but_type, selected. rewrite Z.ldiff_spec.
    intros X. apply andb_true_iff in X as [-> X]. now apply andb_true_iff in X as [-> _].
  - intros Pm. unfold mode, type_of in Pm. lia.
Qed.

Lemma cacheResult_good s i rq rc r s' rc' : Inv s -> typ rq -> Good i rq (rc, r) -> cacheResult g fpolicy s i rq rc r = (s', rc') ->
  Inv s' /\ Good i rq (Z.lor rc' RES_UPDATED, r).
Proof.
  intros H Ty G. unfold cacheResult. cbv zeta. assert (I : has rc RES_IGNORE_TYPE = false) by apply G. rewrite I.
  assert (G1 : Good i rq (Z.lor rc DEPMASK_TYPE, r)).
  { apply (Good_code i rq rc); [exact G| |apply sel_lor_l|].
    - rewrite flags_lor. apply Z.lor_0_r.
    - rewrite IGN in *. rewrite has_lor by lia. now rewrite I. }
  intros E. injection E as <- <-. split.
  - apply Inv_set; [apply Inv_hold, Inv_hold, H|].
    match goal with |- NI i (if ?b then _ else _) => destruct b end; [|apply NI_clear].
    intros V. unfold k_isvalid in V. cbn [k_valid k_result andb] in V. destruct r as [r|]; [|discriminate V].
    exists rq, r. cbn [k_rqid k_result k_code]. split; [exact Ty|]. split; [easy|]. split; [easy|]. split.
    + apply (Good_code i rq (Z.lor rc DEPMASK_TYPE)); [exact G1| | |].
      * rewrite flags_ldiff. apply Z.bits_inj'; intros j _. rewrite Z.ldiff_spec, flags_bit. change RES_UPDATED with (2 ^ 16). destruct (Z.eqb_spec j 16) as [->|N].
        -- now rewrite !andb_false_r.
        -- rewrite Z.pow2_bits_false by lia. apply andb_true_r.
      * intros j Hj. change RES_UPDATED with (2 ^ 16). rewrite sel_ldiff_high; [exact Hj|]. intros; apply high_bits; lia.
      * assert (X := proj2 (proj2 (proj2 G1))). cbn [fst] in X. rewrite IGN in *. rewrite has_ldiff by lia. now rewrite X.
    + rewrite Z.ldiff_spec, Z.lor_spec. cbn. now rewrite orb_true_r.
  - apply (Good_code i rq (Z.lor rc DEPMASK_TYPE)); [exact G1| |apply sel_lor_l|].
    + rewrite flags_lor. apply Z.lor_0_r.
    + assert (X := proj2 (proj2 (proj2 G1))). cbn [fst] in X. rewrite IGN in *. rewrite has_lor by lia. now rewrite X.
Qed.

Lemma poll_good f rq (stop : Z -> bool) : (forall s i, (i < f)%nat -> Inv s -> forall s' a, execute T r_empty r_missing strip mkfail g fpolicy f rq s i = (s', a) -> Inv s' /\ Good i rq a) ->
  forall kids s s' l, (forall k, In k kids -> (k < f)%nat) -> Inv s ->
  pollWith (execute T r_empty r_missing strip mkfail g fpolicy f rq) stop kids s = (s', l) -> Inv s' /\ Polled rq stop kids l.
Proof.
  intros EX. induction kids as [|k kids IH]; intros s s' l K H E; cbn [pollWith] in E; [injection E as <- <-; split; [exact H|constructor]|].
  destruct (execute T r_empty r_missing strip mkfail g fpolicy f rq s k) as [s1 [c r]] eqn:X. destruct (EX s k (K k (or_introl eq_refl)) H _ _ X) as [H1 G].
  cbn [fst] in E. destruct (stop c) eqn:St.
  - injection E as <- <-. split; [exact H1|now constructor].
  - destruct (pollWith _ _ _ _) as [s2 l2] eqn:Y. injection E as <- <-. destruct (IH s1 s2 l2 ltac:(intros; apply K; now right) H1 Y) as [H2 P]. split; [exact H2|now constructor].
Qed.

Theorem execute_good f rq : typ rq -> forall s i, (i < f)%nat -> Inv s -> forall s' a,
  execute T r_empty r_missing strip mkfail g fpolicy f rq s i = (s', a) -> Inv s' /\ Good i rq a.
Proof.
  intros Ty. induction f as [|f IH]; intros s i L H s' a E; [lia|]. cbn [execute] in E.
  pose proof (getCached_good (g i) i (s i) rq (H i) Ty) as GC. destruct (getCached T r_empty strip (g i) (s i) rq) as [k c r|k].
  { injection E as <- <-. destruct GC as [N G]. split; [now apply Inv_set|exact G]. }
  assert (H0 : Inv (set s i (if isnew (s i) rq then with_cur k (rq_id rq) else k))) by (apply Inv_set; [exact H|destruct (isnew _ _); exact GC]).
  set (s0 := set s i _) in *. clearbody s0. destruct (n_active (g i)) eqn:Act; cbn [negb] in E.
  2:{ destruct (cacheResult g fpolicy s0 i rq 0 (Some r_empty)) as [s1 rc] eqn:C. injection E as <- <-.
      assert (Vc : forall rq', v rq' i = (0, Some r_empty)) by (intros rq'; rewrite (v_unfold i) by lia; now rewrite Act).
      apply (cacheResult_good _ _ _ _ _ _ _ H0 Ty) in C; [exact C|]. split; [now rewrite Vc|]. split; [|split; [|reflexivity]].
      - intros rq' _ _ _. now rewrite !Vc.
      - intros _ rq' _ _ _. rewrite !Vc. unfold tm. cbn. destruct DER as (-> & _). reflexivity. }
  destruct (pollWith (execute T r_empty r_missing strip mkfail g fpolicy f rq) (stops (g i)) (n_children (g i)) s0) as [s1 l] eqn:P.
  assert (K1 : forall k0, In k0 (n_children (g i)) -> (k0 < f)%nat) by (intros k0 Hk; apply kids_lt in Hk; lia).
  destruct (poll_good f rq _ IH _ _ _ _ K1 H0 P) as [H1 PL].
  pose proof (conclude_good rq i l Ty Act PL) as G.
  set (s1' := set s1 i _) in *. assert (H1' : Inv s1') by (apply Inv_set; [exact H1|]; exact (H1 i)). clearbody s1'.
  match type of E with context [if skipStep ?a ?b then ?x else ?y] => set (s2 := if skipStep a b then x else y) in *; assert (H2 : Inv s2) end.
  { unfold s2. destruct (skipStep _ _); [exact H1'|].
    destruct (pollWith (execute T r_empty r_missing strip mkfail g fpolicy f rq) (fun c => has c RES_ABORT) (n_step (g i)) s1') as [s3 m] eqn:Q.
    assert (K : forall k0, In k0 (n_step (g i)) -> (k0 < f)%nat) by (intros k0 Hk; assert (k0 < i)%nat by (apply (WF i); apply in_or_app; now right); lia).
    destruct (poll_good f rq _ IH _ _ _ _ K H1' Q) as [H3 _]. apply Inv_set; [exact H3|]. exact (H3 i). }
  clearbody s2. destruct (concl (g i) rq l) as [keep [rc r]]. cbn [snd] in G. destruct keep.
  - destruct (cacheResult g fpolicy s2 i rq rc r) as [s4 rc'] eqn:C. injection E as <- <-. now apply (cacheResult_good _ _ _ _ _ _ _ H2 Ty G) in C.
  - injection E as <- <-. now split.
Qed.

Theorem serve_good f h : (forall i rq, In (i, rq) h -> (i < f)%nat /\ typ rq) -> forall s, Inv s ->
  map meaning (snd (serve T r_empty r_missing strip mkfail g fpolicy f s h)) = map (fun q => meaning (fr f (snd q) (fst q))) h.
Proof.
  induction h as [|[i rq] h IH]; intros K s H; [easy|]. cbn [serve].
  destruct (execute T r_empty r_missing strip mkfail g fpolicy f rq s i) as [s1 a] eqn:X. destruct (K i rq (or_introl eq_refl)) as [L Ty].
  destruct (execute_good f rq Ty s i L H _ _ X) as [H1 G]. specialize (IH ltac:(intros; apply K; now right) s1 H1).
  destruct (serve T r_empty r_missing strip mkfail g fpolicy f s1 h) as [s2 l]. cbn [snd map fst] in *. rewrite IH. f_equal.
  destruct G as (M & _). rewrite M. unfold v. now rewrite (fresh_fuel (S i) f) by lia.
Qed.
End Transparent.
