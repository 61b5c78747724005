From Verif Require Import Base Axm_Model Axm_Spec.
Local Open Scope Z_scope.

Lemma same_true a b : same a b = true <-> a = b.
Proof. unfold same. destruct (list_eq_dec _ a b); split; intros; congruence. Qed.
Lemma same_refl a : same a a = true.
Proof. now apply same_true. Qed.
Lemma same_false a b : a <> b -> same a b = false.
Proof. intros H. unfold same. destruct (list_eq_dec _ a b); congruence. Qed.

Lemma numeral_dec n : (exists k, numeral n k) \/ (forall k, ~ numeral n k).
Proof.
  destruct n as [|a [|b n]].
  - right. intros k [H _]. discriminate.
  - destruct (Z_le_gt_dec 0 a).
    + left. exists a. now split.
    + right. intros k [H ?]. injection H as <-. lia.
  - right. intros k [H _]. discriminate.
Qed.
Lemma isName_dec n : {isName n} + {~ isName n}.
Proof.
  destruct n as [|a [|b n]].
  - right. intros [H _]. now apply H.
  - destruct (Z_le_gt_dec 0 a).
    + right. intros [_ H]. apply (H a). now split.
    + left. split; [discriminate|]. intros k [E ?]. injection E as <-. lia.
  - left. split; [discriminate|]. intros k [E _]. discriminate.
Qed.

Definition defined i name s : axmap :=
  let put f (j : nat) := if Nat.eqb j i then name else f j in
    {| a_name := put (a_name s);
            a_num := fun n => if same n name then Some i else a_num s n;
            a_time := if same name [AidFreq] then a_time s else if same name [AidTime] then i else a_time s;
            a_freq := if same name [AidFreq] then i else a_freq s;
            a_default := a_default s;
            a_ids := put (a_ids s) |}.
Lemma define_name i n s : isName n -> defineAxis i n s = Some (defined i n s).
Proof.
  intros [H1 H2]. unfold defineAxis. destruct n as [|a [|b n]]; [now destruct H1| |reflexivity].
  unfold atom_index. destruct (Z.leb_spec 0 a).
  - exfalso. apply (H2 a). now split.
  - reflexivity.
Qed.
Lemma define_empty i s : defineAxis i [] s = Some s.
Proof. unfold defineAxis. destruct (Z.leb_spec 0 (Z.of_nat i)); [|lia]. now rewrite Z.eqb_refl. Qed.
Lemma define_own i s : defineAxis i [Z.of_nat i] s = Some s.
Proof.
  unfold defineAxis, atom_index. destruct (Z.leb_spec 0 (Z.of_nat i)); [|lia].
  destruct (Z.leb_spec 0 (Z.of_nat i)); [|lia]. now rewrite Z.eqb_refl.
Qed.
Lemma define_other i n k s : numeral n k -> k <> Z.of_nat i -> defineAxis i n s = None.
Proof.
  intros [-> H] N. unfold defineAxis, atom_index. destruct (Z.leb_spec 0 k); [|lia].
  destruct (Z.leb_spec 0 k); [|lia]. destruct (Z.eqb_spec k (Z.of_nat i)); congruence.
Qed.
Lemma define_ok i n s : (forall k, numeral n k -> k = Z.of_nat i) ->
  defineAxis i n s = Some (if isName_dec n then defined i n s else s).
Proof.
  intros H. destruct (isName_dec n) as [N|N]; [now apply define_name|].
  destruct n as [|a n]; [apply define_empty|].
  destruct (numeral_dec (a :: n)) as [[k K]|K].
  - destruct K as [E K]. rewrite E. rewrite (H k) by now split. apply define_own.
  - exfalso. apply N. split; [discriminate|exact K].
Qed.

Lemma fill_all n : forall i s, fill_rest n i s = (not_default s, true).
Proof. induction n; intros; cbn [fill_rest]; [reflexivity|]. now rewrite define_own. Qed.

(** the loop without its end *)
Fixpoint defs (i : nat) (l : list hiid) (s : axmap) : leaves :=
  match l with
  | [] => (s, true)
  | n :: l => match defineAxis i n s with Some s => defs (S i) l s | None => (s, false) end
  end.
Definition ended (r : leaves) : leaves := if snd r then (not_default (fst r), true) else r.
Lemma define_all_defs l : forall i s, define_all i l s = ended (defs i l s).
Proof. induction l as [|n l IH]; intros; cbn [define_all defs]; [reflexivity|]. destruct defineAxis; [apply IH|reflexivity]. Qed.
Lemma from_defs l : forall i s, (i + length l <= NAxis)%nat -> setAxisMap_from i l s = ended (defs i l s).
Proof.
  induction l as [|n l IH]; intros i s H; cbn [setAxisMap_from defs].
  - apply fill_all.
  - cbn [length] in H. destruct (Nat.leb_spec NAxis i); [lia|]. destruct defineAxis; [apply IH; lia|reflexivity].
Qed.
Lemma from_long l : forall i s, (i <= NAxis)%nat -> (NAxis < i + length l)%nat ->
  setAxisMap_from i l s = (fst (defs i (firstn (NAxis - i) l) s), false).
Proof.
  induction l as [|n l IH]; intros i s H H1; cbn [length] in *; [lia|].
  cbn [setAxisMap_from]. destruct (Nat.leb_spec NAxis i).
  - replace (NAxis - i)%nat with 0%nat by lia. reflexivity.
  - replace (NAxis - i)%nat with (S (NAxis - S i)) by lia. cbn [firstn defs].
    destruct defineAxis; [apply IH; lia|reflexivity].
Qed.

Definition fits_at (i : nat) (l : list hiid) : Prop :=
  forall j n k, nth_error l j = Some n -> numeral n k -> k = Z.of_nat (i + j).
Lemma fits_0 l : fits_at 0 l <-> fitting l.
Proof. reflexivity. Qed.
Lemma fits_tl i n l : fits_at i (n :: l) -> fits_at (S i) l.
Proof. intros H j m k E K. rewrite (H (S j) m k E K). f_equal. lia. Qed.
Lemma fits_hd i n l : fits_at i (n :: l) -> forall k, numeral n k -> k = Z.of_nat i.
Proof. intros H k K. rewrite (H 0%nat n k eq_refl K). f_equal. lia. Qed.
Lemma fits_cons i n l : (forall k, numeral n k -> k = Z.of_nat i) -> fits_at (S i) l -> fits_at i (n :: l).
Proof.
  intros H1 H2 [|j] m k E K.
  - injection E as <-. rewrite (H1 k K). f_equal. lia.
  - rewrite (H2 j m k E K). f_equal. lia.
Qed.

Lemma defs_cons i n l s : fits_at i (n :: l) -> defs i (n :: l) s = defs (S i) l (if isName_dec n then defined i n s else s).
Proof. intros H. cbn [defs]. now rewrite (define_ok i n s (fits_hd i n l H)). Qed.
Lemma defs_ok l : forall i s, fits_at i l -> snd (defs i l s) = true.
Proof.
  induction l as [|n l IH]; intros i s H; [reflexivity|]. rewrite defs_cons by exact H. apply IH. now apply fits_tl in H.
Qed.
Lemma defs_default l : forall i s, a_default (fst (defs i l s)) = a_default s.
Proof.
  induction l as [|n l IH]; intros i s; [reflexivity|]. cbn [defs].
  unfold defineAxis. destruct (0 <=? _); [destruct (_ =? _); [apply IH|reflexivity]|]. now rewrite IH.
Qed.

Lemma defs_name l : forall i s, fits_at i l ->
  (forall j n, nth_error l j = Some n -> isName n -> a_name (fst (defs i l s)) (i + j)%nat = n) /\
  (forall k, (forall j n, k = (i + j)%nat -> nth_error l j = Some n -> ~ isName n) -> a_name (fst (defs i l s)) k = a_name s k).
Proof.
  induction l as [|n l IH]; intros i s H.
  - split; [intros [|j] n E; discriminate|reflexivity].
  - rewrite defs_cons by exact H. apply fits_tl in H. set (s1 := if isName_dec n then _ else _).
    destruct (IH (S i) s1 H) as [I1 I2]. split.
    + intros [|j] m E N.
      * injection E as <-. rewrite I2.
        -- unfold s1. destruct (isName_dec n); [|contradiction]. cbn [defined a_name]. rewrite Nat.add_0_r. now rewrite Nat.eqb_refl.
        -- intros j m' E. lia.
      * rewrite <- (I1 j m E N). f_equal. lia.
    + intros k K. rewrite I2.
      * unfold s1. destruct (isName_dec n) as [N|N]; [|reflexivity]. cbn [defined a_name].
        destruct (Nat.eqb_spec k i); [|reflexivity]. exfalso. apply (K 0%nat n); [lia|reflexivity|exact N].
      * intros j m E E1. apply (K (S j) m); [lia|exact E1].
Qed.

Lemma last_place_ex l n : In n l -> exists i, last_place l n i.
Proof.
  induction l as [|m l IH]; intros H; [destruct H|].
  destruct (in_dec (list_eq_dec Z.eq_dec) n l) as [I|I].
  - destruct (IH I) as [i [E M]]. exists (S i). split; [exact E|]. intros [|j] E1; [lia|]. apply M in E1. lia.
  - destruct H as [->|H]; [|contradiction]. exists 0%nat. split; [reflexivity|].
    intros [|j] E1; [lia|]. exfalso. apply I. eapply nth_error_In. exact E1.
Qed.

Lemma defs_num l : forall i s, fits_at i l ->
  (forall n j, isName n -> last_place l n j -> a_num (fst (defs i l s)) n = Some (i + j)%nat) /\
  (forall n, ~ In n l \/ ~ isName n -> a_num (fst (defs i l s)) n = a_num s n).
Proof.
  induction l as [|m l IH]; intros i s H.
  - split; [intros n j _ [E _]; destruct j; discriminate|reflexivity].
  - rewrite defs_cons by exact H. apply fits_tl in H. set (s1 := if isName_dec m then _ else _).
    destruct (IH (S i) s1 H) as [I1 I2]. split.
    + intros n j N [E M]. destruct (in_dec (list_eq_dec Z.eq_dec) n l) as [I|I].
      * destruct (last_place_ex l n I) as [j' L]. rewrite (I1 n j' N L). f_equal.
        destruct L as [E' M']. assert (j = S j'); [|lia].
        assert (S j' <= j)%nat by (apply M; exact E').
        destruct j as [|j]; [lia|]. assert (j <= j')%nat by (apply M'; exact E). lia.
      * rewrite I2 by now left. destruct j as [|j].
        -- injection E as <-. unfold s1. destruct (isName_dec m); [|contradiction]. cbn [defined a_num].
           rewrite same_refl. f_equal. lia.
        -- exfalso. apply I. eapply nth_error_In. exact E.
    + intros n N. rewrite I2.
      * unfold s1. destruct (isName_dec m) as [N1|N1]; [|reflexivity]. cbn [defined a_num]. rewrite same_false; [reflexivity|].
        intros ->. destruct N as [N|N]; [apply N; now left|contradiction].
      * destruct N as [N|N]; [left; intros X; apply N; now right|now right].
Qed.

(** what holds of every state *)
Definition sound (s : axmap) : Prop :=
  (forall i, (a_name s i = [Z.of_nat i] /\ (4 <= i)%nat) \/ isName (a_name s i)) /\
  (forall i, a_ids s i = a_name s i) /\
  a_num s [AidTime] = Some (a_time s) /\ a_num s [AidFreq] = Some (a_freq s) /\
  (forall n, a_num s n <> None -> isName n) /\
  (forall i, isName (a_name s i) -> a_num s (a_name s i) <> None).

Lemma sound_defined i n s : isName n -> sound s -> sound (defined i n s).
Proof.
  intros N (H1 & H2 & H3 & H4 & H5 & H6). unfold sound. cbn [defined a_name a_num a_time a_freq a_ids].
  split; [|split; [|split; [|split; [|split]]]].
  - intros j. destruct (Nat.eqb j i); [now right|apply H1].
  - intros j. destruct (Nat.eqb j i); [reflexivity|apply H2].
  - destruct (list_eq_dec Z.eq_dec [AidTime] n) as [<-|D].
    + reflexivity.
    + rewrite (same_false [AidTime] n) by exact D. rewrite (same_false n [AidTime]) by congruence.
      destruct (same n [AidFreq]); exact H3.
  - destruct (list_eq_dec Z.eq_dec [AidFreq] n) as [<-|D].
    + reflexivity.
    + rewrite (same_false [AidFreq] n) by exact D. rewrite (same_false n [AidFreq]) by congruence. exact H4.
  - intros m. destruct (same m n) eqn:E; [apply same_true in E; subst m; intros _; exact N|apply H5].
  - intros j. destruct (Nat.eqb j i).
    + rewrite same_refl. discriminate.
    + intros X. destruct (same (a_name s j) n); [discriminate|now apply H6].
Qed.
Lemma sound_not_default s : sound s -> sound (not_default s).
Proof. exact (fun H => H). Qed.
Lemma sound_define i n s s' : sound s -> defineAxis i n s = Some s' -> sound s'.
Proof.
  intros S E. destruct (isName_dec n) as [N|N].
  - rewrite define_name in E by exact N. injection E as <-. now apply sound_defined.
  - unfold defineAxis in E. destruct n as [|a [|b n]].
    + destruct (Z.leb_spec 0 (Z.of_nat i)); [|lia]. rewrite Z.eqb_refl in E. now injection E as <-.
    + destruct (Z.leb_spec 0 (atom_index a)) as [K|K].
      * destruct (_ =? _); [now injection E as <-|discriminate].
      * exfalso. apply N. split; [discriminate|]. intros k [X Y]. injection X as <-. unfold atom_index in K.
        destruct (Z.leb_spec 0 a); lia.
    + exfalso. apply N. split; [discriminate|]. intros k [X _]. discriminate.
Qed.
Lemma sound_from l : forall i s, sound s -> sound (fst (setAxisMap_from i l s)).
Proof.
  induction l as [|n l IH]; intros i s S; cbn [setAxisMap_from].
  - rewrite fill_all. exact S.
  - destruct (Nat.leb NAxis i); [exact S|]. destruct defineAxis eqn:E; [|exact S]. apply IH. eapply sound_define; eassumption.
Qed.
Lemma sound_all l : forall i s, sound s -> sound (fst (define_all i l s)).
Proof.
  induction l as [|n l IH]; intros i s S; cbn [define_all]; [exact S|].
  destruct defineAxis eqn:E; [|exact S]. apply IH. eapply sound_define; eassumption.
Qed.
Lemma sound_allocate name n : forall i s, sound s -> sound (fst (allocate n i name s)).
Proof.
  induction n as [|n IH]; intros i s S; cbn [allocate]; [exact S|].
  destruct same; [|now apply IH]. destruct defineAxis eqn:E; [|exact S]. exact (sound_define i name s a S E).
Qed.
Lemma reset_same s : exists t f d, resetDefaultMap s = resetDefaultMap {| a_name := a_name start; a_num := a_num start; a_time := t; a_freq := f; a_default := d; a_ids := a_ids start |}.
Proof. exists (a_time s), (a_freq s), (a_default s). reflexivity. Qed.
Lemma name_Time : isName [AidTime]. Proof. split; [discriminate|]. intros k [E K]. injection E as <-. unfold AidTime in K. lia. Qed.
Lemma name_Freq : isName [AidFreq]. Proof. split; [discriminate|]. intros k [E K]. injection E as <-. unfold AidFreq in K. lia. Qed.
Lemma name_L : isName [AidL]. Proof. split; [discriminate|]. intros k [E K]. injection E as <-. unfold AidL in K. lia. Qed.
Lemma name_M : isName [AidM]. Proof. split; [discriminate|]. intros k [E K]. injection E as <-. unfold AidM in K. lia. Qed.
(** the default names *)
Definition default_name (i : nat) : hiid :=
  match i with 0 => [AidTime] | 1 => [AidFreq] | 2 => [AidL] | 3 => [AidM] | _ => [Z.of_nat i] end%nat.
Lemma reset_names s : (forall i, a_name (resetDefaultMap s) i = default_name i) /\ (forall i, a_ids (resetDefaultMap s) i = default_name i) /\
  (forall n, a_num (resetDefaultMap s) n = if same n [AidM] then Some 3%nat else if same n [AidL] then Some 2%nat else
     if same n [AidFreq] then Some 1%nat else if same n [AidTime] then Some 0%nat else None) /\
  a_time (resetDefaultMap s) = 0%nat /\ a_freq (resetDefaultMap s) = 1%nat.
Proof.
  unfold resetDefaultMap, setAxisMap.
  split; [|split; [|split; [|split]]]; try reflexivity.
  - intros [|[|[|[|i]]]]; reflexivity.
  - intros [|[|[|[|i]]]]; reflexivity.
Qed.
Lemma sound_reset s : sound (resetDefaultMap s).
Proof.
  destruct (reset_names s) as (H1 & H2 & H3 & H4 & H5). unfold sound.
  split; [|split; [|split; [|split; [|split]]]].
  - intros i. rewrite H1. destruct i as [|[|[|[|i]]]]; [right; apply name_Time|right; apply name_Freq|right; apply name_L|right; apply name_M|left; split; [reflexivity|lia]].
  - intros i. now rewrite H1, H2.
  - now rewrite H3, H4.
  - now rewrite H3, H5.
  - intros n. rewrite H3.
    destruct (same n [AidM]) eqn:E1; [apply same_true in E1; subst; intros _; apply name_M|].
    destruct (same n [AidL]) eqn:E2; [apply same_true in E2; subst; intros _; apply name_L|].
    destruct (same n [AidFreq]) eqn:E3; [apply same_true in E3; subst; intros _; apply name_Freq|].
    destruct (same n [AidTime]) eqn:E4; [apply same_true in E4; subst; intros _; apply name_Time|]. intros X. now destruct X.
  - intros i. rewrite H1, H3. destruct i as [|[|[|[|i]]]]; try (intros _; cbv; discriminate).
    intros [_ N]. exfalso. apply (N (Z.of_nat (S (S (S (S i)))))). split; [reflexivity|lia].
Qed.
Lemma sound_after cs : sound (after cs).
Proof.
  unfold after. assert (S : sound start) by apply sound_reset. revert S. generalize start.
  induction cs as [|c cs IH]; intros s S; [exact S|]. cbn [fold_left]. apply IH.
  destruct c; cbn [perform].
  - unfold addAxis. destruct axis; [exact S|]. now apply sound_allocate.
  - now apply sound_from.
  - unfold setAxisMap_vec. destruct Nat.ltb; [exact S|]. now apply sound_all.
  - apply sound_reset.
Qed.

Lemma axis_name n s : isName n -> axis n s = option_map Z.of_nat (a_num s n).
Proof.
  intros [H1 H2]. destruct n as [|a [|b n]]; [now destruct H1| |reflexivity]. cbn [axis]. unfold atom_index.
  destruct (Z.leb_spec 0 a); [|reflexivity]. exfalso. apply (H2 a). now split.
Qed.
Lemma axis_numeral n k s : numeral n k -> axis n s = Some k.
Proof.
  intros [-> K]. cbn [axis]. unfold atom_index. destruct (Z.leb_spec 0 k); [|lia]. destruct (Z.leb_spec 0 k); [|lia]. reflexivity.
Qed.

(** the axis that addAxis takes *)
Lemma allocate_spec name s : isName name -> forall n i,
  (exists k, (k < n)%nat /\ a_name s (i + k)%nat = [Z.of_nat (i + k)] /\
     (forall j, (j < k)%nat -> a_name s (i + j)%nat <> [Z.of_nat (i + j)]) /\
     allocate n i name s = (not_default (defined (i + k) name s), true)) \/
  ((forall j, (j < n)%nat -> a_name s (i + j)%nat <> [Z.of_nat (i + j)]) /\ allocate n i name s = (s, false)).
Proof.
  intros N. induction n as [|n IH]; intros i; cbn [allocate].
  - right. split; [lia|reflexivity].
  - destruct (same (a_name s i) [Z.of_nat i]) eqn:E.
    + left. exists 0%nat. rewrite !Nat.add_0_r. apply same_true in E. split; [lia|]. split; [exact E|]. split; [lia|].
      now rewrite define_name.
    + assert (E' : a_name s i <> [Z.of_nat i]) by (intros X; rewrite X, same_refl in E; discriminate).
      destruct (IH (S i)) as [(k & K1 & K2 & K3 & K4)|(K1 & K2)].
      * left. exists (S k). replace (i + S k)%nat with (S i + k)%nat by lia. split; [lia|]. split; [exact K2|]. split; [|exact K4].
        intros [|j] J; [now rewrite Nat.add_0_r|]. replace (i + S j)%nat with (S i + j)%nat by lia. apply K3. lia.
      * right. split; [|exact K2]. intros [|j] J; [now rewrite Nat.add_0_r|]. replace (i + S j)%nat with (S i + j)%nat by lia. apply K1. lia.
Qed.

(** a list with a number in the wrong place *)
Lemma defs_unfit l : forall i s k n j, nth_error l k = Some n -> numeral n j -> j <> Z.of_nat (i + k) -> fits_at i (firstn k l) ->
  defs i l s = (fst (defs i (firstn k l) s), false).
Proof.
  induction l as [|m l IH]; intros i s k n j E N D F; [destruct k; discriminate|].
  destruct k as [|k].
  - injection E as ->. cbn [defs firstn]. rewrite (define_other i n j s N); [reflexivity|]. rewrite Nat.add_0_r in D. exact D.
  - cbn [firstn] in *. cbn [nth_error] in E. rewrite (defs_cons i m (firstn k l) s F). cbn [defs]. rewrite (define_ok i m s (fits_hd i m _ F)).
    apply (IH (S i) _ k n j E N); [|now apply fits_tl in F]. replace (S i + k)%nat with (i + S k)%nat by lia. exact D.
Qed.
Lemma fits_firstn l : forall i k, fits_at i l -> fits_at i (firstn k l).
Proof.
  induction l as [|n l IH]; intros i k H; [now rewrite firstn_nil|]. destruct k; [intros [|j] m k' E; discriminate|].
  cbn [firstn]. apply fits_cons; [exact (fits_hd i n l H)|]. apply IH. now apply fits_tl in H.
Qed.
