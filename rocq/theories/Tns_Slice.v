(** Lemmas for Tns_Thms: slices. *)
From Verif Require Import Base Poll_Model Poll_Proofs Vel_Model Fun_Model Tns_Model Tns_Spec Tns_Proofs.

(** the axes up to the last sliced one: sliced or not, extent, stride *)
Notation axis := (bool * nat * nat)%type (only parsing).
Fixpoint cut (d : list nat) (sel : list Z) : list axis :=
  match d, sel with
  | n :: d, s :: sel =>
      if Z.ltb s 0 then (true, n, prod d) :: cut d sel
      else match cut d sel with [] => [] | l => (false, n, prod d) :: l end
  | _, _ => []
  end.
Definition a_shp (a : axis) : nat := let '(b, n, _) := a in if b then n else 1.
Definition a_cnt (a : axis) : nat := let '(b, n, _) := a in if b then n else 0.
Definition a_str (a : axis) : nat := let '(_, _, st) := a in st.

Lemma slice_dims_cut : forall d sel, slice_dims d sel = map a_shp (cut d sel).
Proof.
  induction d as [|n d IH]; intros [|s sel]; cbn [slice_dims cut]; try reflexivity.
  destruct (Z.ltb s 0); [cbn [map a_shp]; now rewrite IH|]. rewrite IH. now destruct (cut d sel).
Qed.
Lemma cut_nil : forall d sel, length sel = length d -> cut d sel = [] <-> ~ Exists sliced sel.
Proof.
  induction d as [|n d IH]; intros [|s sel] L; cbn [cut]; try discriminate.
  - split; [intros _ H; inversion H|reflexivity].
  - cbn in L. injection L as L. specialize (IH sel L). unfold sliced in *.
    destruct (Z.ltb_spec s 0) as [H|H].
    + split; [discriminate|]. intros N. exfalso. apply N. now left.
    + rewrite Exists_cons. destruct (cut d sel) as [|p l].
      * split; [|reflexivity]. intros _ [K|K]; [lia|]. now apply (proj1 IH).
      * split; [discriminate|]. intros N. exfalso. assert (C : p :: l = []) by (apply (proj2 IH); tauto). discriminate C.
Qed.
Lemma selects_length d sel : selects d sel -> length sel = length d.
Proof. intros H. induction H; cbn; congruence. Qed.

Lemma slicing_cut : forall d sel, selects d sel -> exists x, slicing_of d sel = Ok x /\ s_strd x = prod d /\
  s_slice x = match cut d sel with [] => false | _ => true end /\ s_rank x = length (cut d sel) /\
  firstn (s_rank x) (s_shp x) = map a_shp (cut d sel) /\ firstn (s_rank x) (s_strides x) = map a_str (cut d sel) /\
  firstn (s_rank x) (s_shp0 x) = map a_cnt (cut d sel) /\ s_offset x = place d (source sel []).
Proof.
  induction d as [|n d IH]; intros sel H; inversion H as [|s n' sel' d' Hs Hx]; subst.
  - eexists. cbn. repeat split; reflexivity.
  - destruct (IH _ Hx) as (x & E & E1 & E2 & E3 & E4 & E5 & E6 & E7).
    cbn [slicing_of]. rewrite E. cbn [bind]. rewrite (proj2 (Z.leb_gt (Z.of_nat n) s)) by lia.
    cbn [cut source]. rewrite place_cons. destruct (Z.ltb s 0).
    + eexists. split; [reflexivity|]. cbn [s_strd s_slice s_rank s_shp s_strides s_shp0 s_offset].
      rewrite prod_cons. cbn [length firstn map a_shp a_str a_cnt hd]. rewrite E1, E3, <- E3, E4, E5, E6, E7. cbn [tl]. repeat split; try lia.
    + eexists. split; [reflexivity|]. cbn [s_strd s_slice s_rank s_shp s_strides s_shp0 s_offset].
      rewrite E2, E1, E7, prod_cons. cbn [tl]. destruct (cut d sel') as [|a l].
      * cbn [firstn map length]. repeat split; try lia.
      * cbn [firstn]. rewrite E4, E5, E6. cbn [length map a_shp a_str a_cnt] in *. repeat split; try lia.
Qed.

(** ** The walk *)
Lemma advance_last : forall c n st ks k, length ks = length c ->
  advance (map a_shp (c ++ [(true, n, st)])) (map a_str (c ++ [(true, n, st)])) (ks ++ [S (S k)]) = (st, ks ++ [S k], false).
Proof.
  induction c as [|a c IH]; intros n st ks k L.
  - destruct ks; [|discriminate]. cbn. reflexivity.
  - destruct ks as [|k0 ks]; [discriminate|]. cbn in L. injection L as L.
    cbn [app map advance]. now rewrite (IH n st ks k L).
Qed.
Definition carry (c : list axis) (ks : list nat) : nat * list nat * bool := advance (map a_shp c) (map a_str c) ks.
Lemma advance_end : forall c n st ks, length ks = length c ->
  exists ks', fst (fst (advance (map a_shp (c ++ [(true, n, st)])) (map a_str (c ++ [(true, n, st)])) (ks ++ [1])))
    = st + fst (fst (carry c ks)) /\ snd (advance (map a_shp (c ++ [(true, n, st)])) (map a_str (c ++ [(true, n, st)])) (ks ++ [1])) = snd (carry c ks)
    /\ snd (fst (advance (map a_shp (c ++ [(true, n, st)])) (map a_str (c ++ [(true, n, st)])) (ks ++ [1]))) = ks'.
Proof.
  induction c as [|a c IH]; intros n st ks L.
  - destruct ks; [|discriminate]. cbn. eexists. repeat split; lia.
  - destruct ks as [|k0 ks]; [discriminate|]. cbn in L. injection L as L.
    destruct (IH n st ks L) as (ks' & E1 & E2 & _). eexists. split; [|split; [|reflexivity]].
    + unfold carry in *. cbn [app map advance].
      destruct (advance (map a_shp (c ++ _)) _ _) as [[x1 x2] x3]. destruct (advance (map a_shp c) _ _) as [[y1 y2] y3].
      cbn [fst snd] in E1, E2. subst x1 x3. destruct y3; cbn [negb]; [|reflexivity].
      destruct k0 as [|[|k0]]; cbn [fst snd]; lia.
    + unfold carry in *. cbn [app map advance].
      destruct (advance (map a_shp (c ++ _)) _ _) as [[x1 x2] x3]. destruct (advance (map a_shp c) _ _) as [[y1 y2] y3].
      cbn [fst snd] in E1, E2. subst x1 x3. destruct y3; cbn [negb]; [|reflexivity].
      destruct k0 as [|[|k0]]; reflexivity.
Qed.
Lemma offsets_row c n st ks : length ks = length c -> forall m k off, m <= k ->
  offsets (map a_shp (c ++ [(true, n, st)])) (map a_str (c ++ [(true, n, st)])) (ks ++ [k]) off m = map (fun i => off + i * st) (seq 0 m).
Proof.
  intros L. induction m as [|m IH]; intros k off H; [reflexivity|].
  destruct k as [|[|k]]; [lia| |].
  - assert (m = 0) by lia. subst m. cbn [offsets seq map]. destruct (advance _ _ _) as [[x1 x2] x3]. f_equal. lia.
  - cbn [offsets]. rewrite (advance_last c n st ks k L), (IH (S k)) by lia.
    cbn [seq map]. f_equal; [lia|]. rewrite <- seq_shift, map_map. apply map_ext. intros i. lia.
Qed.
Lemma offsets_length : forall m shp str ks off, length (offsets shp str ks off m) = m.
Proof. induction m as [|m IH]; intros; cbn [offsets]; [reflexivity|]. destruct (advance _ _ _) as [[x1 x2] x3]. cbn. now rewrite IH. Qed.
Lemma nth_tail {A} (x : A) l k : nth_error (x :: l) (S k) = nth_error l k.
Proof. reflexivity. Qed.
Lemma offsets_next c n st ks : length ks = length c -> forall k off m, 1 <= k -> k < m ->
  nth_error (offsets (map a_shp (c ++ [(true, n, st)])) (map a_str (c ++ [(true, n, st)])) (ks ++ [k]) off m) k
  = Some (off + k * st + fst (fst (carry c ks))).
Proof.
  intros L. induction k as [|k IH]; intros off m H1 Hm; [lia|].
  destruct m as [|m]; [lia|]. destruct k as [|k].
  - cbn [offsets]. destruct (advance_end c n st ks L) as (ks' & E1 & _ & _).
    destruct (advance _ _ _) as [[x1 x2] x3]. cbn [fst] in E1. subst x1.
    destruct m as [|m]; [lia|]. cbn [offsets nth_error]. destruct (advance _ _ x2) as [[z1 z2] z3]. f_equal. lia.
  - cbn [offsets]. rewrite (advance_last c n st ks k L), nth_tail, IH by lia. f_equal. lia.
Qed.

(** ** Places in a slice *)
Lemma cut_last : forall d sel c b n st, cut d sel = c ++ [(b, n, st)] -> b = true.
Proof.
  induction d as [|m d IH]; intros [|s sel] c b n st H; cbn [cut] in H; try (destruct c; discriminate).
  destruct (Z.ltb s 0).
  - destruct c as [|a c]; cbn in H; injection H; intros; [congruence|]. eapply IH; eassumption.
  - destruct (cut d sel) as [|a l] eqn:E; [destruct c; discriminate|].
    destruct c as [|a' c]; cbn in H; [discriminate|]. injection H as _ H. eapply IH. rewrite E. exact H.
Qed.
Lemma cut_split d sel : Exists sliced sel -> length sel = length d -> exists c n st, cut d sel = c ++ [(true, n, st)].
Proof.
  intros H L. assert (N : cut d sel <> []) by (intros E; now apply (cut_nil d sel L) in E).
  destruct (exists_last N) as (c & [[b n] st] & E). rewrite E. pose proof (cut_last _ _ _ _ _ _ E) as ->. eauto.
Qed.
Lemma cut_zeros : forall d sel m, place d (source sel (repeat 0 m)) = place d (source sel []).
Proof.
  induction d as [|n d IH]; intros [|s sel] m; cbn [source]; try reflexivity. rewrite !place_cons.
  destruct m as [|m]; [reflexivity|]. cbn [repeat hd tl]. now rewrite IH.
Qed.
Lemma cut_place : forall d sel c n st i, cut d sel = c ++ [(true, n, st)] ->
  place d (source sel (repeat 0 (length c) ++ [i])) = place d (source sel []) + i * st.
Proof.
  induction d as [|m d IH]; intros [|s sel] c n st i H; cbn [cut] in H; try (destruct c; discriminate).
  cbn [source]. rewrite !place_cons.
  destruct c as [|a c].
  - cbn [app] in H. cbn [length repeat app hd tl].
    destruct (Z.ltb s 0); [injection H as -> <- _; lia|]. destruct (cut d sel); discriminate.
  - cbn [length repeat app hd tl].
    assert (E : cut d sel = c ++ [(true, n, st)]).
    { destruct (Z.ltb s 0); [cbn in H; congruence|]. destruct (cut d sel); cbn in H; [discriminate|congruence]. }
    rewrite (IH _ _ _ _ i E). cbn [tl]. lia.
Qed.
Lemma lone_prefix : forall d sel c a, length sel = length d -> lone_slice d sel -> cut d sel = c ++ [a] -> Forall (fun a => a_shp a = 1) c.
Proof.
  induction d as [|m d IH]; intros [|s sel] c a L H E; cbn [cut] in E; try (destruct c; discriminate); try discriminate L.
  cbn in L. injection L as L. destruct H as [H0 H]. destruct c as [|a' c]; [constructor|]. cbn [app] in E.
  assert (E' : cut d sel = c ++ [a]).
  { destruct (Z.ltb s 0); [congruence|]. destruct (cut d sel); [discriminate|congruence]. }
  constructor; [|eapply IH; eassumption].
  destruct (Z.ltb_spec s 0) as [K|K].
  - injection E as <- _. cbn. apply H0; [exact K|].
    destruct (Exists_dec sliced sel (fun x => Z_lt_dec x 0)) as [X|X]; [exact X|].
    apply (cut_nil d sel L) in X. rewrite X in E'. now destruct c.
  - destruct (cut d sel); [discriminate|]. injection E as <- _. reflexivity.
Qed.
Lemma prod_ones : forall l, Forall (fun n => n = 1) l -> prod l = 1.
Proof. induction l as [|n l IH]; intros H; [reflexivity|]. apply Forall_cons_iff in H as [-> H]. rewrite prod_cons, IH; auto. Qed.
Lemma within_source : forall d sel jx, selects d sel -> Forall (fun n => 1 <= n) d -> within (slice_dims d sel) jx -> within d (source sel jx).
Proof.
  induction d as [|n d IH]; intros sel jx S P W; inversion S as [|s n' sel' d' Hs Hx]; subst; [constructor|].
  apply Forall_cons_iff in P as [P0 P]. cbn [source].
  assert (Z0 : within (slice_dims d sel') [] \/ slice_dims d sel' <> []) by (destruct (slice_dims d sel'); [left; constructor|right; discriminate]).
  cbn [slice_dims] in W. destruct (Z.ltb_spec s 0) as [K|K].
  - inversion W as [|j n' jx' d' Hj Wj]; subst. cbn [hd tl]. constructor; [exact Hj|]. now apply IH.
  - destruct (slice_dims d sel') as [|m l] eqn:E.
    + inversion W; subst. cbn [tl]. constructor; [lia|]. apply IH; auto. now rewrite E.
    + inversion W as [|j n' jx' d' Hj Wj]; subst. cbn [tl]. constructor; [lia|]. apply IH; auto. now rewrite E.
Qed.
(** an index into the slice with one long axis *)
Lemma within_ones : forall c jx n, Forall (fun m => m = 1) c -> within (c ++ [n]) jx -> exists i, i < n /\ jx = repeat 0 (length c) ++ [i].
Proof.
  induction c as [|m c IH]; intros jx n O W.
  - inversion W as [|j n' jx' d' Hj Wj]; subst. inversion Wj; subst. now exists j.
  - apply Forall_cons_iff in O as [-> O]. inversion W as [|j n' jx' d' Hj Wj]; subst.
    destruct (IH _ _ O Wj) as (i & Hi & ->). exists i. split; [exact Hi|]. assert (j = 0) by lia. now subst j.
Qed.
Lemma place_zeros : forall c n i, place (c ++ [n]) (repeat 0 (length c) ++ [i]) = i.
Proof. induction c as [|m c IH]; intros n i; cbn [length repeat app]; [cbn; lia|]. rewrite place_cons, IH. lia. Qed.

(** ** Wrong places *)
Lemma lone_without : forall d sel, length sel = length d -> cut d sel = [] -> lone_slice d sel.
Proof.
  induction d as [|m d IH]; intros [|s sel] L E; cbn [lone_slice]; auto; try discriminate L.
  cbn in L. injection L as L. cbn [cut] in E. destruct (Z.ltb_spec s 0); [discriminate|].
  destruct (cut d sel) eqn:C; [|discriminate]. split; [intros K; unfold sliced in K; lia|]. now apply IH.
Qed.
Lemma lone_dec : forall d sel, {lone_slice d sel} + {~ lone_slice d sel}.
Proof.
  induction d as [|m d IH]; intros [|s sel]; cbn [lone_slice]; auto.
  destruct (IH sel) as [H|H]; [|right; tauto].
  destruct (Z_lt_dec s 0) as [K|K]; [|left; split; [unfold sliced; lia|exact H]].
  destruct (Exists_dec sliced sel (fun x => Z_lt_dec x 0)) as [X|X]; [|left; split; [tauto|exact H]].
  destruct (Nat.eq_dec m 1) as [->|M]; [left; split; auto|]. right. intros [A _]. apply M, A; auto.
Qed.
Lemma carry_cons a c : fst (fst (carry c (map a_cnt c))) <= fst (fst (carry (a :: c) (map a_cnt (a :: c)))).
Proof.
  unfold carry. cbn [map advance]. destruct (advance _ _ _) as [[x1 x2] x3]. destruct x3; cbn [negb]; [|cbn; lia].
  destruct (a_cnt a) as [|[|k]]; cbn; lia.
Qed.
Lemma carry_ones : forall c, Forall (fun a => a_shp a = 1) c -> snd (carry c (map a_cnt c)) = true.
Proof.
  induction c as [|[[b n] st] c IH]; intros H; [reflexivity|]. apply Forall_cons_iff in H as [H0 H]. specialize (IH H).
  unfold carry in *. cbn [map advance]. destruct (advance _ _ _) as [[x1 x2] x3]. cbn [snd] in IH. subst x3. cbn [negb].
  destruct b; cbn in H0 |- *; [now subst n|reflexivity].
Qed.
Lemma carry_outer n st c : 2 <= n -> Forall (fun a => a_shp a = 1) c ->
  st <= fst (fst (carry ((true, n, st) :: c) (map a_cnt ((true, n, st) :: c)))).
Proof.
  intros Hn H. pose proof (carry_ones _ H) as E. unfold carry in *. cbn [map advance a_cnt a_shp a_str].
  destruct (advance _ _ _) as [[x1 x2] x3]. cbn [snd] in E. subst x3. cbn [negb]. destruct n as [|[|n]]; [lia|lia|]. cbn. lia.
Qed.
Lemma within_zeros : forall c n, Forall (fun m => m = 1) c -> 1 <= n -> within (c ++ [n]) (repeat 0 (length c) ++ [0]).
Proof.
  induction c as [|m c IH]; intros n O H; cbn [length repeat app]; [repeat constructor; lia|].
  apply Forall_cons_iff in O as [-> O]. constructor; [lia|]. now apply IH.
Qed.
Lemma repeat_last m : repeat 0 m ++ [0] = repeat 0 (S m).
Proof. induction m as [|m IH]; [reflexivity|]. cbn [repeat app]. now rewrite IH. Qed.
Lemma Forall_shp c : Forall (fun a => a_shp a = 1) c -> Forall (fun m => m = 1) (map a_shp c).
Proof. intros H. apply Forall_map. exact H. Qed.
Lemma wrong_place : forall d sel c n st, selects d sel -> Forall (fun n => 1 <= n) d -> ~ lone_slice d sel -> cut d sel = c ++ [(true, n, st)] ->
  1 <= n ->
  exists jx so, within (slice_dims d sel) jx /\ place (slice_dims d sel) jx = n /\
    place d (source sel jx) = place d (source sel []) + so /\ so <= fst (fst (carry c (map a_cnt c))).
Proof.
  induction d as [|m d IH]; intros sel c n st S P N E Hn; inversion S as [|s m' sel' d' Hs Hx]; subst; [now cbn in N|].
  apply Forall_cons_iff in P as [P0 P]. pose proof (selects_length _ _ Hx) as L.
  destruct (lone_dec d sel') as [Lo|Lo].
  - (* the first axis is the one *)
    assert ((s < 0)%Z /\ Exists sliced sel' /\ m <> 1) as (Ks & Ex & Km).
    { cbn [lone_slice] in N. destruct (Z_lt_dec s 0) as [K|K]; [|exfalso; apply N; split; [unfold sliced; lia|exact Lo]].
      destruct (Exists_dec sliced sel' (fun x => Z_lt_dec x 0)) as [X|X]; [|exfalso; apply N; split; [tauto|exact Lo]].
      split; [exact K|]. split; [exact X|]. intros ->. apply N. split; auto. }
    cbn [cut] in E. rewrite (proj2 (Z.ltb_lt s 0) Ks) in E.
    destruct c as [|a c]; cbn [app] in E.
    { injection E as _ _ E. now apply (cut_nil d sel' L) in E. }
    injection E as <- E. pose proof (lone_prefix _ _ _ _ L Lo E) as O.
    exists (1 :: repeat 0 (length c) ++ [0]), (prod d). cbn [slice_dims]. rewrite (proj2 (Z.ltb_lt s 0) Ks).
    assert (SD : slice_dims d sel' = map a_shp c ++ [n]) by (rewrite slice_dims_cut, E, map_app; reflexivity).
    repeat split.
    + constructor; [lia|]. rewrite SD, <- (map_length a_shp c). apply within_zeros; [now apply Forall_shp|exact Hn].
    + rewrite place_cons, SD, <- (map_length a_shp c), place_zeros, prod_app, prod_ones by now apply Forall_shp. rewrite prod_one. lia.
    + cbn [source]. rewrite (proj2 (Z.ltb_lt s 0) Ks). cbn [hd tl]. rewrite repeat_last, !place_cons, cut_zeros. lia.
    + apply carry_outer; [lia|exact O].
  - assert (Ex : cut d sel' <> []).
    { intros C. apply Lo. now apply lone_without. }
    assert (exists a c', c = a :: c' /\ cut d sel' = c' ++ [(true, n, st)]) as (a & c' & -> & E').
    { cbn [cut] in E. destruct (Z.ltb s 0).
      - destruct c as [|a c]; cbn [app] in E; [congruence|]. injection E as _ E. eauto.
      - destruct (cut d sel'); [congruence|]. destruct c as [|a c]; cbn [app] in E; [discriminate|]. injection E as _ E. eauto. }
    destruct (IH sel' c' n st Hx P Lo E' Hn) as (jx & so & W & E1 & E2 & E3).
    exists (0 :: jx), so. cbn [slice_dims source]. rewrite !place_cons. cbn [hd tl].
    assert (SN : slice_dims d sel' <> []) by (rewrite slice_dims_cut, E'; destruct c'; discriminate).
    destruct (Z.ltb s 0).
    + rewrite place_cons. repeat split; [constructor; [lia|exact W]|lia|lia|]. etransitivity; [exact E3|apply carry_cons].
    + destruct (slice_dims d sel') as [|y l] eqn:SD; [congruence|].
      rewrite place_cons. repeat split; [constructor; [lia|exact W]|lia|lia|]. etransitivity; [exact E3|apply carry_cons].
Qed.
Lemma slice_dims_pos : forall d sel, Forall (fun n => 1 <= n) d -> Forall (fun n => 1 <= n) (slice_dims d sel).
Proof.
  intros d sel Hp. revert sel. induction Hp as [|m d Hm Hp IH]; intros [|s sel]; cbn [slice_dims]; try constructor.
  specialize (IH sel). destruct (Z.ltb s 0); [constructor; auto|]. destruct (slice_dims d sel); [constructor|constructor; [lia|exact IH]].
Qed.
Lemma prod_pos_intro d : Forall (fun n => 1 <= n) d -> 1 <= prod d.
Proof. intros H. induction H; [cbn; lia|]. rewrite prod_cons. nia. Qed.
Lemma cut_stride : forall d sel c b n st, Forall (fun n => 1 <= n) d -> cut d sel = c ++ [(b, n, st)] -> 1 <= st.
Proof.
  intros d sel c b n st Hp. revert sel c. induction Hp as [|m d Hm Hp IH]; intros [|s sel] c C; cbn [cut] in C; try (destruct c; discriminate).
  pose proof (prod_pos_intro _ Hp) as Pd.
  destruct (Z.ltb s 0).
  - destruct c as [|a c]; cbn [app] in C; [injection C; intros; lia|]. injection C as _ C. eapply IH, C.
  - destruct (cut d sel) as [|p l] eqn:Cd; [destruct c; discriminate|]. destruct c as [|a c]; cbn [app] in C.
    + injection C; intros; lia.
    + injection C as _ C. apply (IH sel c). now rewrite Cd.
Qed.
