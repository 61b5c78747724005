From Verif Require Import Base Hiid_Model Narr_Model Narr_Spec.
Local Open Scope Z_scope.

Lemma elem_fold shape : forall w, length w = length shape ->
  fold_right (fun nw acc => let '(n, w) := nw in (fst acc + w * snd acc, snd acc * n)) (0, 1) (combine shape w) = (flat shape w, prod shape).
Proof.
  induction shape as [|n ns IH]; intros [|i w] L; try discriminate; [reflexivity|]. cbn [combine fold_right]. rewrite IH by (cbn in L; lia). cbn [fst snd flat prod fold_right].
  fold (prod ns). f_equal; ring.
Qed.
Lemma elem_offset_flat shape w : length w = length shape -> elem_offset shape w = flat shape w.
Proof. intros L. unfold elem_offset. now rewrite elem_fold. Qed.

Lemma in_shape_len shape idx : in_shape shape idx -> length idx = length shape.
Proof. induction 1; cbn; lia. Qed.
Lemma prod_pos shape idx : in_shape shape idx -> 0 < prod shape.
Proof. induction 1; [reflexivity|]. cbn. fold (prod l). nia. Qed.
Lemma flat_range shape idx : in_shape shape idx -> 0 <= flat shape idx < prod shape.
Proof. induction 1 as [|n i ns is Hi H IH]; [cbn; lia|]. cbn [flat prod fold_right]. fold (prod ns). nia. Qed.
Lemma flat_inj shape a b : in_shape shape a -> in_shape shape b -> flat shape a = flat shape b -> a = b.
Proof.
  intros Ha. revert b. induction Ha as [|n i ns is Hi H IH]; intros b Hb E; inversion Hb as [|? k ? ks Hk Hks]; subst; [reflexivity|].
  cbn [flat] in E. pose proof (flat_range _ _ H). pose proof (flat_range _ _ Hks).
  assert (i = k) by nia. subst k. f_equal. apply IH; [assumption|lia].
Qed.
Lemma flat_surj shape : Forall (fun n => 0 <= n) shape -> forall k, 0 <= k < prod shape -> exists idx, in_shape shape idx /\ flat shape idx = k.
Proof.
  induction 1 as [|n ns Hn H IH]; intros k Hk.
  - exists []. split; [constructor|]. cbn in *. lia.
  - cbn [prod fold_right] in Hk. fold (prod ns) in Hk. assert (P : 0 < prod ns) by nia.
    destruct (IH (k mod prod ns)) as (idx & I & F); [apply Z.mod_pos_bound; lia|].
    exists (k / prod ns :: idx). split.
    + constructor; [|exact I]. split; [apply Z.div_pos; lia|]. apply Z.div_lt_upper_bound; nia.
    + cbn [flat]. rewrite F. rewrite (Z.div_mod k (prod ns)) at 3 by lia. ring.
Qed.

(** *** ranges *)
Lemma set_nth_app {A} (pre : list A) y x rest : set_nth (length pre) x (pre ++ y :: rest) = pre ++ x :: rest.
Proof. induction pre; cbn; [reflexivity|]. now f_equal. Qed.
Lemma nth_app_here {A} (pre : list A) y rest d : nth (length pre) (pre ++ y :: rest) d = y.
Proof. rewrite app_nth2, Nat.sub_diag by lia. reflexivity. Qed.

(** the axis a specification turns into, as the code has it *)
Definition endof (n : Z) (s e : option Z) : Z := match e with Some z => z + 1 | None => match s with Some a => a + 1 | None => n end end.
Definition ax_of (n : Z) (a : axspec) : axis :=
  match a with
  | AAll => {| ax_st := 0; ax_end := n; ax_incr := 1; ax_keep := true |}
  | AOne i => {| ax_st := i; ax_end := i + 1; ax_incr := 1; ax_keep := false |}
  | ARange s e i => {| ax_st := lo s; ax_end := endof n s e; ax_incr := by_ i; ax_keep := true |}
  end.
(** accepted by the code: no check of the end against the axis *)
Definition accepted (n : Z) (a : axspec) : Prop :=
  match a with
  | AAll => True
  | AOne i => 0 <= i < n
  | ARange s e i => nonneg s /\ nonneg e /\ (match s with Some z => z < n | None => True end) /\
                    (match e with Some z => lo s < z + 1 | None => True end) /\ 0 < by_ i
  end.

(** ready for the ids of a new axis: at the very start, or after a complete axis *)
Definition ready (pre : list axis) (rest : list Z) (p : pstate) : Prop :=
  ps_ax p = pre ++ map dflt rest /\
  ((pre = [] /\ ps_nraxes p = 0%nat /\ ps_nr p = 0%nat /\ ps_had p = true) \/
   (pre <> [] /\ S (ps_nraxes p) = length pre /\ ps_had p = false)).

(** the value ids of an axis *)
Lemma step_first shape pre n rest p i : ready pre (n :: rest) p -> (length pre < length shape)%nat -> nth (length pre) shape 0 = n ->
  i <> AidRange ->
  parse_step shape p i =
    let st a := Ok {| ps_ax := pre ++ a :: map dflt rest; ps_nraxes := length pre; ps_nr := 0; ps_had := false |} in
    if i <? 0 then if (i =? AidWildcard) || (i =? AidEmpty) then st (keep_ax (dflt n)) else Err
    else if negb (i <? n) then Err else st {| ax_st := i; ax_end := i + 1; ax_incr := 1; ax_keep := false |}.
Proof.
  intros [E R] L N Ni. unfold parse_step. destruct (Z.eqb_spec i AidRange); [contradiction|].
  assert (P1 : (if ps_had p then p else {| ps_ax := ps_ax p; ps_nraxes := S (ps_nraxes p); ps_nr := 0; ps_had := false |}) =
     {| ps_ax := pre ++ map dflt (n :: rest); ps_nraxes := length pre; ps_nr := 0; ps_had := ps_had p |}).
  { destruct p as [ax nx nr had]. cbn in *. destruct R as [(-> & -> & -> & ->)|(_ & L1 & ->)]; cbn; [now rewrite E|]. now rewrite L1, E. }
  rewrite P1. cbn [ps_nraxes ps_ax ps_nr].
  destruct (Nat.ltb_spec (length pre) (length shape)); [|lia]. cbn [negb]. rewrite andb_false_r.
  unfold get_ax, put_ax. cbn [ps_nraxes ps_ax ps_nr ps_had map]. rewrite nth_app_here, !set_nth_app. cbn [dflt ax_incr ax_keep].
  rewrite N. reflexivity.
Qed.
Lemma step_range shape pre a rest nr : parse_step shape {| ps_ax := pre ++ a :: rest; ps_nraxes := length pre; ps_nr := nr; ps_had := false |} AidRange =
  Ok {| ps_ax := pre ++ keep_ax a :: rest; ps_nraxes := length pre; ps_nr := S nr; ps_had := true |}.
Proof. unfold parse_step. change (AidRange =? AidRange) with true; cbn [ps_had]. unfold get_ax, put_ax. cbn [ps_nraxes ps_ax ps_nr]. rewrite nth_app_here, set_nth_app. reflexivity. Qed.
Lemma step_more shape pre a rest nr i : i <> AidRange -> 
  parse_step shape {| ps_ax := pre ++ a :: rest; ps_nraxes := length pre; ps_nr := S nr; ps_had := true |} i =
    let st b := Ok {| ps_ax := pre ++ b :: rest; ps_nraxes := length pre; ps_nr := S nr; ps_had := false |} in
    if i <? 0 then if (i =? AidWildcard) || (i =? AidEmpty) then st (keep_ax a) else Err
    else match nr with
      | 0%nat => if negb (ax_st a <? i + 1) then Err else st {| ax_st := ax_st a; ax_end := i + 1; ax_incr := ax_incr a; ax_keep := true |}
      | 1%nat => if negb (0 <? i) then Err else st {| ax_st := ax_st a; ax_end := ax_end a; ax_incr := i; ax_keep := ax_keep a |}
      | _ => Err end.
Proof.
  intros Ni. unfold parse_step. destruct (Z.eqb_spec i AidRange); [contradiction|]. cbn [ps_had negb andb ps_ax ps_nraxes ps_nr].
  unfold get_ax, put_ax. cbn [ps_nraxes ps_ax ps_nr ps_had]. rewrite nth_app_here, !set_nth_app. destruct nr as [|[|nr]]; reflexivity.
Qed.

Lemma range_neg z : 0 <= z -> z <> AidRange. Proof. unfold AidRange. lia. Qed.
Lemma part_range o : nonneg o -> part o <> AidRange.
Proof. destruct o; cbn; [apply range_neg|discriminate]. Qed.

Lemma parse_app shape p a b : parse_loop shape p (a ++ b) = bind (parse_loop shape p a) (fun q => parse_loop shape q b).
Proof. revert p; induction a as [|x a IH]; intros p; [reflexivity|]. cbn. destruct (parse_step shape p x); cbn; auto. Qed.

Lemma parse_axis shape pre n rest p a : ready pre (n :: rest) p -> (length pre < length shape)%nat -> nth (length pre) shape 0 = n -> accepted n a ->
  exists q, parse_loop shape p (ids_of a) = Ok q /\ ready (pre ++ [ax_of n a]) rest q.
Proof.
  intros R L N A.
  assert (G : forall nr, ready (pre ++ [ax_of n a]) rest {| ps_ax := pre ++ ax_of n a :: map dflt rest; ps_nraxes := length pre; ps_nr := nr; ps_had := false |}).
  { intros nr. split; cbn [ps_ax ps_nraxes ps_had]; [now rewrite <- app_assoc|]. right. rewrite app_length. cbn. split; [now destruct pre|]. split; [lia|reflexivity]. }
  destruct a as [|i|s e inc]; cbn [ids_of accepted] in *.
  - cbn [parse_loop]. rewrite (step_first shape pre n rest p _ R L N) by discriminate. cbn. eexists. split; [reflexivity|]. apply G.
  - cbn [parse_loop]. rewrite (step_first shape pre n rest p _ R L N) by (apply range_neg; lia). cbv zeta.
    destruct (Z.ltb_spec i 0); [lia|]. destruct (Z.ltb_spec i n); [|lia]. cbn. eexists. split; [reflexivity|]. apply G.
  - destruct A as (Hs & He & A1 & A2 & A3).
    set (ax1 := {| ax_st := lo s; ax_end := match s with Some z => z + 1 | None => n end; ax_incr := 1; ax_keep := match s with Some _ => false | None => true end |}).
    assert (S1 : parse_step shape p (part s) = Ok {| ps_ax := pre ++ ax1 :: map dflt rest; ps_nraxes := length pre; ps_nr := 0; ps_had := false |}).
    { rewrite (step_first shape pre n rest p _ R L N) by now apply part_range. cbv zeta. unfold ax1. destruct s as [z|]; cbn [part lo nonneg] in *.
      - destruct (Z.ltb_spec z 0); [lia|]. destruct (Z.ltb_spec z n); [|lia]. reflexivity.
      - reflexivity. }
    set (ax2 := {| ax_st := lo s; ax_end := endof n s e; ax_incr := 1; ax_keep := true |}).
    assert (S2 : parse_step shape {| ps_ax := pre ++ keep_ax ax1 :: map dflt rest; ps_nraxes := length pre; ps_nr := 1; ps_had := true |} (part e) =
       Ok {| ps_ax := pre ++ ax2 :: map dflt rest; ps_nraxes := length pre; ps_nr := 1; ps_had := false |}).
    { rewrite step_more by now apply part_range. cbv zeta. unfold ax1, ax2, keep_ax. cbn [ax_st ax_end ax_incr ax_keep]. destruct e as [z|]; cbn [part nonneg endof] in *.
      - destruct (Z.ltb_spec z 0); [lia|]. destruct (Z.ltb_spec (lo s) (z + 1)); [|lia]. reflexivity.
      - destruct s; reflexivity. }
    destruct inc as [inc|].
    + cbn [parse_loop]. rewrite S1. cbn [bind]. rewrite step_range. cbn [bind]. rewrite S2. cbn [bind]. rewrite step_range. cbn [bind].
      rewrite step_more by (destruct inc; cbn [part by_] in *; [apply range_neg; lia|discriminate]). cbv zeta. destruct inc as [z|]; cbn [part by_] in *.
      * destruct (Z.ltb_spec z 0); [lia|]. destruct (Z.ltb_spec 0 z); [|lia]. cbn [negb bind]. eexists. split; [reflexivity|]. apply G.
      * cbn. eexists. split; [reflexivity|]. apply G.
    + cbn [parse_loop]. rewrite S1. cbn [bind]. rewrite step_range. cbn [bind]. rewrite S2. cbn [bind]. eexists. split; [reflexivity|]. apply G.
Qed.

Fixpoint axes_of (shape : list Z) (axs : list axspec) : list axis :=
  match shape, axs with n :: ns, a :: axs' => ax_of n a :: axes_of ns axs' | ns, _ => map dflt ns end.
Lemma parse_axes shape axs : forall pre rest p, ready pre rest p -> (length pre + length rest = length shape)%nat -> rest = skipn (length pre) shape ->
  (length axs <= length rest)%nat -> Forall2 accepted (firstn (length axs) rest) axs ->
  exists q, parse_loop shape p (flat_map ids_of axs) = Ok q /\ ps_ax q = pre ++ axes_of rest axs /\ (axs <> [] -> ps_had q = false).
Proof.
  induction axs as [|a axs IH]; intros pre rest p R L E Le A.
  - exists p. split; [reflexivity|]. split; [destruct R as [E1 _]; rewrite E1; now destruct rest|congruence].
  - destruct rest as [|n rest]; [cbn in Le; lia|]. cbn [firstn length] in A. inversion_clear A as [|? ? ? ? Ha Has].
    assert (N : nth (length pre) shape 0 = n).
    { rewrite <- (firstn_skipn (length pre) shape), <- E. rewrite <- (firstn_length_le shape (n := length pre)) at 1 by (cbn in L; lia). apply nth_app_here. }
    destruct (parse_axis shape pre n rest p a R) as (q & Eq & Rq); [cbn in L; lia|exact N|exact Ha|].
    cbn [flat_map]. rewrite parse_app, Eq. cbn [bind].
    destruct (IH (pre ++ [ax_of n a]) rest q Rq) as (q2 & E2 & X2 & H2).
    + rewrite app_length. cbn in *. lia.
    + rewrite app_length. cbn [length]. rewrite Nat.add_1_r. change rest with (skipn 1 (n :: rest)). rewrite E. clear. generalize (length pre). intros k. revert shape. induction k as [|k IHk]; intros [|x shape]; [reflexivity|reflexivity|reflexivity|apply (IHk shape)].
    + cbn in Le. lia.
    + exact Has.
    + exists q2. split; [exact E2|]. split; [rewrite X2, <- app_assoc; reflexivity|]. intros _. destruct axs; [|apply H2; discriminate].
      cbn in E2. injection E2 as <-. destruct Rq as [_ [(X & _)|(_ & _ & X)]]; [now destruct pre|exact X].
Qed.

(** shape of the subarray the code makes *)
Fixpoint counts (shape : list Z) (axs : list axspec) : list Z :=
  match shape, axs with
  | n :: ns, a :: axs' =>
    let x := ax_of n a in
    if kept a then Z.quot (ax_end x - ax_st x) (ax_incr x) :: counts ns axs' else counts ns axs'
  | _, _ => []
  end.
Lemma sub_elem_cons o s sd j js : sub_elem o (s :: sd) (j :: js) = sub_elem (o + s * j) sd js.
Proof. unfold sub_elem. cbn. ring. Qed.
Lemma sub_elem_shift o d sd js : sub_elem (o + d) sd js = sub_elem o sd js + d.
Proof. unfold sub_elem. ring. Qed.
Lemma sub_of_none shape : sub_of shape (map dflt shape) = (0, prod shape, [], []).
Proof.
  induction shape as [|n ns IH]; [reflexivity|]. unfold sub_of in *. cbn [map combine fold_right]. rewrite IH. cbn [dflt ax_st ax_keep prod fold_right]. fold (prod ns). f_equal; f_equal; f_equal; ring.
Qed.
Lemma flat_zero shape js : flat shape (spread shape [] js) = 0.
Proof. induction shape as [|n ns IH]; [reflexivity|]. cbn [spread flat]. rewrite IH. ring. Qed.
Lemma sub_of_spec shape : forall axs, (length axs <= length shape)%nat -> exists off sd,
  sub_of shape (axes_of shape axs) = (off, prod shape, counts shape axs, sd) /\ length sd = length (counts shape axs) /\
  forall js, length js = length (counts shape axs) -> sub_elem off sd js = flat shape (spread shape axs js).
Proof.
  induction shape as [|n ns IH]; intros axs L.
  - exists 0, []. split; [reflexivity|]. split; [reflexivity|]. intros js. cbn. destruct axs; destruct js; try discriminate; reflexivity.
  - destruct axs as [|a axs].
    + exists 0, []. cbn [axes_of]. rewrite sub_of_none. split; [reflexivity|]. split; [reflexivity|]. intros [|j js] E; [|discriminate]. now rewrite flat_zero.
    + destruct (IH axs) as (off & sd & E & Ls & H); [cbn in L; lia|]. unfold sub_of in *. cbn [axes_of combine fold_right]. rewrite E.
      destruct a as [|i|s e inc]; cbn [ax_of ax_st ax_end ax_incr ax_keep counts kept spread].
      * eexists _, _. split; [rewrite (Z.mul_comm (prod ns) n); reflexivity|].
        split; [cbn [length]; now rewrite Ls|]. intros [|j js] Lj; [discriminate|]. rewrite sub_elem_cons. cbn [nth_named flat].
        cbn [length] in Lj. rewrite <- H by lia. unfold sub_elem. ring.
      * eexists _, _. split; [rewrite (Z.mul_comm (prod ns) n); reflexivity|].
        split; [exact Ls|]. intros js Lj. cbn [nth_named flat]. rewrite <- H by exact Lj. unfold sub_elem. ring.
      * eexists _, _. split; [rewrite (Z.mul_comm (prod ns) n); reflexivity|].
        split; [cbn [length]; now rewrite Ls|]. intros [|j js] Lj; [discriminate|]. rewrite sub_elem_cons. cbn [nth_named flat].
        cbn [length] in Lj. rewrite <- H by lia. unfold sub_elem. ring.
Qed.
