(** Reading an identifier from a string. *)
From Verif Require Import Base Bytes_Model Bytes_Proofs Hiid_Model Nam_Model Nam_Spec Nam_Proofs.
Local Open Scope Z_scope.

Lemma payload_other s : hd_error s <> Some 36 -> payload s = s.
Proof.
  intros N. destruct s as [|c s]; [reflexivity|]. unfold payload.
  destruct (Z.eq_dec c 36) as [->|E]; [exfalso; apply N; reflexivity|].
  destruct c as [|p|p]; try reflexivity.
  do 6 (destruct p as [p|p|]; try reflexivity). exfalso; apply E; reflexivity.
Qed.

Lemma findName_number r s : Forall digit s ->
  findName r s = if decimal s <? 2^31 then Ok (Some (decimal s)) else UB.
Proof.
  intros F. unfold findName. apply digits_spec in F. rewrite F, atoi_spec.
  destruct (decimal s <? 2^31); reflexivity.
Qed.

Lemma findName_name r s : ~ Forall digit s ->
  findName r s = Ok (if negb (reg_rfind r (lower_str s) =? 0)
                     then Some (reg_rfind r (lower_str s)) else None).
Proof.
  intros F. unfold findName. destruct (forallb isdigit s) eqn:E; [|reflexivity].
  apply digits_spec in E. contradiction.
Qed.

Lemma digits_dec s : {Forall digit s} + {~ Forall digit s}.
Proof.
  destruct (forallb isdigit s) eqn:E; [left|right].
  - apply digits_spec. exact E.
  - intros F. apply digits_spec in F. congruence.
Qed.

Lemma field_one r allow s : s <> [] -> Forall byte s -> short s ->
  forall h h', add_field r allow s h = Ok h' <->
               exists l, h' = h ++ l /\ field_means (named r) allow s l.
Proof.
  intros N B Sh h h'.
  destruct (dollar_dec s) as [[t ->]|D].
  - rewrite add_field_dollar.
    assert (Bt : Forall byte (lower_str t)) by (apply lower_byte; inversion B; auto).
    assert (St : Z.of_nat (length (lower_str t)) < 65536)
      by (rewrite lower_length; exact Sh).
    destruct (literal_make (lower_str t) h Bt St) as [l [E L]]. rewrite strlower_eq, E.
    split.
    + intros K. exists l. split; [congruence|]. constructor. exact L.
    + intros [l' [-> M]]. f_equal. f_equal. inversion M; subst.
      * eapply literal_unique; eauto.
      * match goal with H : Forall digit (36 :: _) |- _ => inversion H as [|x y Q _]; subst end.
        unfold digit in Q. lia.
      * exfalso. match goal with H : hd_error _ <> _ |- _ => apply H; reflexivity end.
      * exfalso. match goal with H : hd_error _ <> _ |- _ => apply H; reflexivity end.
  - rewrite (add_field_other r allow s h D).
    destruct (digits_dec s) as [F|F].
    + rewrite (findName_number r s F).
      destruct (decimal s <? 2^31) eqn:E; cbn [bind].
      * split.
        -- intros K. exists [decimal s]. split; [congruence|]. apply fm_number; auto. lia.
        -- intros [l [-> M]]. inversion M; subst; try contradiction; try reflexivity.
      * split; [discriminate|]. intros [l [-> M]]. inversion M; subst; try contradiction; try lia.
    + rewrite (findName_name r s F). cbn [bind].
      set (k := reg_rfind r (lower_str s)).
      destruct (k =? 0) eqn:E; cbn [negb].
      * assert (NN : forall j, ~ named r (lower_str s) j).
        { intros j [A K]. unfold k in E. lia. }
        destruct (literal_make (lower_str s) h) as [l [El L]];
          [apply lower_byte; exact B|rewrite lower_length; unfold short in Sh; rewrite (payload_other _ D) in Sh; exact Sh|].
        destruct allow.
        -- rewrite strlower_eq, El. split.
           ++ intros K. exists l. split; [congruence|]. apply fm_other; auto.
           ++ intros [l' [-> M]]. f_equal. f_equal. inversion M; subst; try contradiction.
              ** exfalso. eapply NN; eauto.
              ** eapply literal_unique; eauto.
        -- split; [discriminate|]. intros [l' [-> M]]. inversion M; subst; try contradiction; try discriminate.
           exfalso. eapply NN; eauto.
      * assert (NM : named r (lower_str s) k) by (split; [lia|reflexivity]).
        split.
        -- intros K. exists [k]. split; [congruence|]. apply fm_name; auto.
        -- intros [l' [-> M]]. inversion M; subst; try contradiction.
           ++ match goal with H : named r (lower_str s) _ |- _ => destruct H as [_ H]; fold k in H; rewrite H end.
              reflexivity.
           ++ exfalso. match goal with H : forall _, ~ _ |- _ => apply (H k NM) end.
Qed.

Lemma sep_atoms_eq c (h : hiid) :
  (if c =? 47 then h ++ [AidSlash] else if c =? 58 then h ++ [AidRange] else h) = h ++ sep_atoms c.
Proof.
  unfold sep_atoms. destruct (c =? 47); [reflexivity|]. destruct (c =? 58); [reflexivity|].
  rewrite app_nil_r. reflexivity.
Qed.

Lemma loop_reads r seps : forall fcs f fuel allow h h',
  splits seps fcs f -> fields_fit fcs f -> (length fcs < fuel)%nat ->
  add_loop fuel r seps allow (join fcs f) h = Ok h' <->
  exists l, h' = h ++ l /\ reads (named r) allow fcs f l.
Proof.
  induction fcs as [|[g c] fcs IH]; intros f fuel allow h h' [Sf Sg] Fi Fu;
    (destruct fuel as [|fuel]; [cbn in Fu; lia|]).
  - cbn [join] in *. cbn [add_loop]. destruct f as [|x f].
    + split.
      * intros K. exists [AidEmpty]. split; [congruence|]. repeat constructor.
      * intros [l [-> M]]. inversion M as [? ? ? M'|]; subst. inversion M'; subst; try reflexivity.
        -- contradiction.
        -- exfalso. match goal with H : ~ Forall digit [] |- _ => apply H; constructor end.
        -- exfalso. match goal with H : ~ Forall digit [] |- _ => apply H; constructor end.
    + rewrite (split_first_last _ _ Sf).
      rewrite (field_one r allow (x :: f)); [|discriminate|apply (proj2 Fi)|apply (proj2 Fi)].
      split; intros [l [E M]]; exists l; (split; [exact E|]).
      * constructor. exact M.
      * inversion M; subst. assumption.
  - inversion Sg as [|? ? [Sg1 Sg2] Sg']; subst. cbn [fst snd] in *.
    cbn [join] in *.
    destruct Fi as [Fi1 Fi2]. inversion Fi1 as [|? ? Fg Fi3]; subst. cbn [fst] in Fg.
    assert (Fj : fields_fit fcs f) by (split; assumption).
    cbn [add_loop]. rewrite (split_first_more _ _ _ _ Sg1 Sg2).
    cbn [length] in Fu.
    assert (Fu' : (length fcs < fuel)%nat) by lia.
    assert (H1 : forall h1, (match g with [] => Ok (h ++ [AidEmpty]) | _ :: _ => add_field r allow g h end) = Ok h1
                 <-> exists l, h1 = h ++ l /\ field_means (named r) allow g l).
    { intros h1. destruct g as [|y g].
      - split.
        + intros K. exists [-5]. split; [change (-5) with AidEmpty; congruence|constructor].
        + intros [l [-> M]]. inversion M; subst; try reflexivity.
          * contradiction.
          * exfalso. match goal with H : ~ Forall digit [] |- _ => apply H; constructor end.
          * exfalso. match goal with H : ~ Forall digit [] |- _ => apply H; constructor end.
      - apply field_one; [discriminate|apply (proj1 Fg)|apply (proj2 Fg)]. }
    assert (NE : forall (A : Type) (x y : A), match g ++ c :: join fcs f with [] => x | _ :: _ => y end = y)
      by (intros; destruct g; reflexivity).
    rewrite NE. clear NE.
    destruct (match g with [] => Ok (h ++ [AidEmpty]) | _ :: _ => add_field r allow g h end) as [h1| |] eqn:E;
      cbn [bind].
    + destruct (proj1 (H1 h1) eq_refl) as [l1 [-> M1]]. rewrite sep_atoms_eq.
      rewrite (IH f fuel (allow_after allow g) _ h' (conj Sf Sg') Fj Fu').
      split.
      * intros [l2 [-> R]]. exists (l1 ++ sep_atoms c ++ l2). split; [rewrite !app_assoc; reflexivity|].
        constructor; assumption.
      * intros [l [-> R]]. inversion R as [|? ? ? ? ? l1' l2 M R']; subst.
        assert (El : l1' = l1).
        { pose proof (proj2 (H1 (h ++ l1')) (ex_intro _ l1' (conj eq_refl M))) as P.
          apply (app_inv_head h). congruence. }
        subst l1'. exists l2. split; [rewrite !app_assoc; reflexivity|exact R'].
    + split; [discriminate|]. intros [l [-> R]]. inversion R as [|? ? ? ? ? l1 l2 M R']; subst.
      pose proof (proj2 (H1 (h ++ l1)) (ex_intro _ l1 (conj eq_refl M))). discriminate.
    + split; [discriminate|]. intros [l [-> R]]. inversion R as [|? ? ? ? ? l1 l2 M R']; subst.
      pose proof (proj2 (H1 (h ++ l1)) (ex_intro _ l1 (conj eq_refl M))). discriminate.
Qed.

Lemma addString_reads r sepset allow fcs f h h' :
  splits (sepset ++ [47; 58]) fcs f -> fields_fit fcs f -> join fcs f <> [] ->
  addString r (join fcs f) sepset allow h = Ok h' <->
  exists l, h' = h ++ l /\ reads (named r) allow fcs f l.
Proof.
  intros Sp Fi N. unfold addString.
  rewrite <- (loop_reads r (sepset ++ [47; 58]) fcs f (S (length (join fcs f))) allow h h' Sp Fi)
    by (pose proof (join_length fcs f); lia).
  destruct (join fcs f); [contradiction|]. reflexivity.
Qed.

Lemma field_means_mono nm s l : field_means nm false s l -> forall b, field_means nm b s l.
Proof.
  intros M b. inversion M; subst.
  - apply fm_empty.
  - apply fm_dollar; assumption.
  - apply fm_number; assumption.
  - apply fm_name; assumption.
  - discriminate.
Qed.

Lemma reads_mono nm fcs f l : reads nm false fcs f l -> forall b, reads nm b fcs f l.
Proof.
  intros R. remember false as a eqn:Ea. induction R as [a f h M|a g c fcs f h1 h2 M R IH]; intros b; subst.
  - constructor. apply field_means_mono. exact M.
  - constructor; [apply field_means_mono; exact M|].
    destruct (dollar_dec g) as [[t ->]|D]; [exact R|].
    fold (allow_after false g) in *. fold (allow_after b g).
    rewrite (allow_after_other b _ D). apply IH, (allow_after_other false _ D).
Qed.

Lemma join_app fcs1 f1 c fcs2 f2 :
  join (fcs1 ++ (f1, c) :: fcs2) f2 = join fcs1 f1 ++ c :: join fcs2 f2.
Proof.
  induction fcs1 as [|[g d] fcs1 IH]; cbn [join app]; [reflexivity|].
  rewrite IH, <- app_assoc. reflexivity.
Qed.

Lemma splits_app seps fcs1 f1 c fcs2 f2 :
  splits seps fcs1 f1 -> In c seps -> splits seps fcs2 f2 -> splits seps (fcs1 ++ (f1, c) :: fcs2) f2.
Proof.
  intros [A B] I [C D]. split; [exact C|]. apply Forall_app. split; [exact B|].
  constructor; [split; assumption|exact D].
Qed.

Lemma allow_true g : (match g with 36 :: _ => true | _ => true end) = true.
Proof. destruct g as [|[|p|p] g]; try reflexivity. do 6 (destruct p as [p|p|]; try reflexivity). Qed.

Lemma reads_app nm allow fcs1 f1 c fcs2 f2 l1 l2 :
  reads nm allow fcs1 f1 l1 -> reads nm allow fcs2 f2 l2 ->
  reads nm allow (fcs1 ++ (f1, c) :: fcs2) f2 (l1 ++ sep_atoms c ++ l2).
Proof.
  intros R. revert l2. induction R as [a f h M|a g d fcs f h1 h2 M R IH]; intros l2 R2; cbn [app].
  - constructor; [exact M|]. fold (allow_after a f).
    destruct (dollar_dec f) as [[t ->]|D].
    + cbn [allow_after]. destruct a; [exact R2|apply reads_mono; exact R2].
    + rewrite (allow_after_other _ _ D). exact R2.
  - rewrite <- !app_assoc. constructor; [exact M|]. apply IH.
    fold (allow_after a g).
    destruct (dollar_dec g) as [[t ->]|D].
    + cbn [allow_after]. destruct a; [exact R2|apply reads_mono; exact R2].
    + rewrite (allow_after_other _ _ D). exact R2.
Qed.

Lemma reads_app_inv nm fcs1 f1 c fcs2 f2 l :
  reads nm true (fcs1 ++ (f1, c) :: fcs2) f2 l ->
  exists l1 l2, l = l1 ++ sep_atoms c ++ l2 /\ reads nm true fcs1 f1 l1 /\ reads nm true fcs2 f2 l2.
Proof.
  revert l. induction fcs1 as [|[g d] fcs1 IH]; intros l R; cbn [app] in R.
  - inversion R as [|? ? ? ? ? h1 h2 M R']; subst. rewrite allow_true in R'.
    exists h1, h2. split; [reflexivity|]. split; [constructor; exact M|exact R'].
  - inversion R as [|? ? ? ? ? h1 h2 M R']; subst. rewrite allow_true in R'.
    destruct (IH _ R') as (l1 & l2 & -> & R1 & R2).
    exists (h1 ++ sep_atoms d ++ l1), l2. split; [rewrite <- !app_assoc; reflexivity|].
    split; [constructor; [exact M|rewrite allow_true; exact R1]|exact R2].
Qed.
