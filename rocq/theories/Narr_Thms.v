(** Theorems about array addressing (C18, C19). *)
From Verif Require Import Base Hiid_Model Narr_Model Narr_Spec Narr_Proofs.
Local Open Scope Z_scope.

(** *** C18 *)
(** in-range index tuples address the elements of the data one to one; others are refused *)
Theorem array_index_bijection : forall shape, shape <> [] -> Forall (fun n => 0 <= n) shape ->
  (forall idx, in_shape shape idx -> exists o, na_get shape idx = Ok (GElem o) /\ 0 <= o < prod shape) /\
  (forall a b o, in_shape shape a -> in_shape shape b -> na_get shape a = Ok (GElem o) -> na_get shape b = Ok (GElem o) -> a = b) /\
  (forall o, 0 <= o < prod shape -> exists idx, in_shape shape idx /\ na_get shape idx = Ok (GElem o)) /\
  (forall idx, length idx = length shape -> Forall (fun i => 0 <= i) idx -> ~ in_shape shape idx -> na_get shape idx = Err) /\
  (forall idx o, na_get shape idx = Ok (GElem o) -> in_shape shape idx).
Proof.
  intros shape Ne Hs.
  assert (In1 : forall idx, length idx = length shape -> Forall (fun i => 0 <= i) idx ->
     (forallb (fun nw => negb (fst nw <=? snd nw)) (combine shape idx) = true <-> in_shape shape idx)).
  { clear. induction shape as [|n ns IH]; intros [|i idx] L F; try discriminate; [split; [constructor|reflexivity]|]. inversion_clear F as [|? ? Fi Fx].
    cbn [combine forallb fst snd]. cbn in L. rewrite andb_true_iff, IH by (auto; lia). split.
    - intros [A B]. constructor; [lia|exact B].
    - intros H. inversion_clear H. split; [lia|assumption]. }
  assert (Nn : forall idx, forallb (fun i => 0 <=? i) idx = true <-> Forall (fun i => 0 <= i) idx).
  { intros idx. rewrite forallb_forall, Forall_forall. split; intros H x Hx; specialize (H x Hx); lia. }
  assert (G : forall idx, in_shape shape idx -> na_get shape idx = Ok (GElem (flat shape idx))).
  { intros idx H. unfold na_get. pose proof (in_shape_len _ _ H) as L. rewrite L, Nat.eqb_refl.
    assert (F : Forall (fun i => 0 <= i) idx) by (clear - H; induction H; constructor; [lia|assumption]).
    rewrite (proj2 (Nn idx) F). cbn [andb]. rewrite (proj2 (In1 idx L F) H). now rewrite elem_offset_flat. }
  assert (B : forall idx o, na_get shape idx = Ok (GElem o) -> in_shape shape idx).
  { intros idx o. unfold na_get. destruct (Nat.eqb_spec (length idx) (length shape)) as [L|L]; cbn [andb].
    - destruct (forallb (fun i => 0 <=? i) idx) eqn:F.
      + destruct (forallb _ (combine shape idx)) eqn:C; [|discriminate]. intros _. apply In1; auto. now apply Nn.
      + destruct (Nat.eqb (length idx) 0); [discriminate|]. destruct (parseHIID shape idx); cbn; try discriminate. destruct (sub_of shape a) as [[[? ?] ?] ?]. discriminate.
    - destruct (Nat.eqb (length idx) 0); [discriminate|]. destruct (parseHIID shape idx); cbn; try discriminate. destruct (sub_of shape a) as [[[? ?] ?] ?]. discriminate. }
  split; [|split; [|split; [|split]]].
  - intros idx H. exists (flat shape idx). split; [now apply G|now apply flat_range].
  - intros a b o Ha Hb Ea Eb. rewrite (G a Ha) in Ea. rewrite (G b Hb) in Eb. apply (flat_inj shape); auto. congruence.
  - intros o Ho. destruct (flat_surj shape Hs o Ho) as (idx & I & F). exists idx. split; [exact I|]. rewrite (G idx I). now rewrite F.
  - intros idx L F N. unfold na_get. rewrite L, Nat.eqb_refl, (proj2 (Nn idx) F). cbn [andb].
    destruct (forallb _ (combine shape idx)) eqn:C; [|reflexivity]. exfalso. apply N. now apply In1.
  - exact B.
Qed.
Print Assumptions array_index_bijection.

(** *** C19 *)
Definition g_shape (g : got) : list Z := match g with GSub _ ss _ => ss | _ => [] end.
Definition g_addr (g : got) (js : list Z) : Z := match g with GSub o _ sd => sub_elem o sd js | GElem o => o | GWhole => 0 end.

Lemma sensible_accepted n a : sensible n a -> accepted n a.
Proof.
  destruct a as [|i|s e inc]; cbn; auto. intros (H1 & H2 & H3). destruct s, e; cbn in *; repeat split; auto; lia.
Qed.
Lemma Forall2_combine_rest {A B} (P : A -> B -> Prop) (l : list A) (m : list B) : Forall2 P (firstn (length m) l) m -> (length m <= length l)%nat.
Proof. intros H. assert (E : length (firstn (length m) l) = length m) by (induction H; cbn; lia). rewrite firstn_length in E. lia. Qed.

Lemma slice_got : forall shape axs, Forall (fun n => 0 < n) shape -> axs <> [] -> Forall2 sensible (firstn (length axs) shape) axs ->
  exists g, na_get shape (flat_map ids_of axs) = Ok g /\ g <> GWhole /\ g_shape g = counts shape axs /\
    forall js, in_shape (g_shape g) js -> in_shape shape (spread shape axs js) /\ g_addr g js = flat shape (spread shape axs js).
Proof.
  intros shape axs Hs Ne S. pose proof (Forall2_combine_rest _ _ _ S) as L.
  assert (A : Forall2 accepted (firstn (length axs) shape) axs) by (clear - S; induction S; constructor; auto using sensible_accepted).
  assert (R : forall js, in_shape (counts shape axs) js -> in_shape shape (spread shape axs js)).
  { clear - Hs S. revert axs S. induction Hs as [|n ns Hn Hs IH]; intros axs S js J; [constructor|]. destruct axs as [|a axs].
    - cbn [spread]. constructor; [lia|]. apply (IH []); [constructor|]. cbn in J. destruct ns; exact J.
    - cbn [firstn length] in S. inversion_clear S as [|? ? ? ? Sa Ss]. destruct a as [|i|s e inc]; cbn [counts kept spread ax_of ax_st ax_end ax_incr] in *.
      + inversion_clear J as [|? j ? js' Hj Hjs]. constructor; [|apply IH; auto]. cbn. rewrite Z.quot_1_r in Hj. lia.
      + constructor; [exact Sa|apply IH; auto].
      + inversion_clear J as [|? j ? js' Hj Hjs]. constructor; [|apply IH; auto]. cbn [nth_named]. destruct Sa as (H1 & H2 & H3).
        assert (E : endof n s e <= n /\ lo s < endof n s e) by (unfold endof, hi, lo in *; destruct s, e; lia).
        rewrite Z.quot_div_nonneg in Hj by lia. set (q := endof n s e - lo s) in *. assert (by_ inc * (q / by_ inc) <= q) by (apply Z.mul_div_le; lia).
        assert (j * by_ inc + by_ inc <= q) by nia. unfold q in *. nia. }
  destruct (Nat.eqb (length (flat_map ids_of axs)) (length shape) && forallb (fun i => 0 <=? i) (flat_map ids_of axs)) eqn:Full.
  - (* one element *)
    apply andb_true_iff in Full as [L1 F1]. apply Nat.eqb_eq in L1.
    assert (One : flat_map ids_of axs = map (fun a => nth_named a 0) axs /\ length axs = length shape /\ counts shape axs = [] /\ spread shape axs [] = map (fun a => nth_named a 0) axs).
    { assert (K : forallb (fun a => negb (kept a)) axs = true).
      { clear - F1. induction axs as [|a axs IH]; [reflexivity|]. cbn [flat_map forallb] in *. rewrite forallb_app in F1. apply andb_true_iff in F1 as [F1 F2]. rewrite (IH F2).
        destruct a as [|i|[s|] [e|] [[i|]|]]; cbn in *; try reflexivity; try discriminate; rewrite ?andb_false_r in F1; try discriminate. }
      assert (M : flat_map ids_of axs = map (fun a => nth_named a 0) axs).
      { clear - K. induction axs as [|a axs IH]; [reflexivity|]. cbn in *. apply andb_true_iff in K as [K1 K2]. rewrite (IH K2). now destruct a. }
      rewrite M, map_length in L1. split; [exact M|]. split; [exact L1|].
      clear - K L1. revert axs K L1. induction shape as [|n ns IH]; intros [|a axs] K L1; try discriminate; [split; reflexivity|]. cbn in K, L1. apply andb_true_iff in K as [K1 K2].
      destruct (IH axs K2) as [E1 E2]; [lia|]. destruct a; try discriminate. cbn. rewrite E1, E2. split; reflexivity. }
    destruct One as (M & Len & C & Sp).
    assert (I : in_shape shape (spread shape axs [])) by (apply R; rewrite C; constructor).
    exists (GElem (flat shape (spread shape axs []))). rewrite M, <- Sp. split; [|split; [discriminate|split; [now rewrite C|]]].
    + assert (Ne' : shape <> []) by (destruct axs; [contradiction|]; destruct shape; discriminate).
      destruct (array_index_bijection shape Ne') as (B & _); [eapply Forall_impl; [|exact Hs]; cbn; lia|].
      destruct (B _ I) as (o & E & _). rewrite E. unfold na_get in E. rewrite (in_shape_len _ _ I), Nat.eqb_refl in E. rewrite Sp, <- M, F1 in E. cbn [andb] in E.
      destruct (forallb _ (combine shape _)) in E; [|discriminate]. injection E as <-. f_equal. f_equal. rewrite M, <- Sp. apply elem_offset_flat. now apply in_shape_len.
    + intros js J. cbn in J. inversion J; subst. split; [exact I|reflexivity].
  - destruct (parse_axes shape axs [] shape {| ps_ax := map dflt shape; ps_nraxes := 0; ps_nr := 0; ps_had := true |}) as (q & Eq & Xq & Hq); auto.
    { split; [reflexivity|]. left. auto. }
    destruct (sub_of_spec shape axs L) as (off & sd & E & Ls & H).
    assert (Ni : flat_map ids_of axs <> []) by (destruct axs as [|a axs]; [contradiction|]; destruct a as [|i|s e [i|]]; discriminate).
    exists (GSub off (counts shape axs) sd). split; [|split; [discriminate|split; [reflexivity|]]].
    + unfold na_get. rewrite Full. destruct (Nat.eqb_spec (length (flat_map ids_of axs)) 0) as [Z0|Z0]; [destruct (flat_map ids_of axs); [contradiction|discriminate]|].
      unfold parseHIID. destruct (Nat.eqb_spec (length (flat_map ids_of axs)) 0); [contradiction|]. cbn [negb]. rewrite Eq. cbn [bind]. rewrite (Hq Ne), Xq. cbn [app bind]. rewrite E. reflexivity.
    + intros js J. cbn [g_shape g_addr] in *. split; [now apply R|]. apply H. now apply in_shape_len.
Qed.

(** For a sensible request every element of the returned array is the one named: its index
    tuple [js] spread over the axes is in range and gives its address. *)
Theorem array_slice_addresses : forall shape axs, Forall (fun n => 0 < n) shape -> axs <> [] -> Forall2 sensible (firstn (length axs) shape) axs ->
  exists g, na_get shape (flat_map ids_of axs) = Ok g /\ g <> GWhole /\
    forall js, in_shape (g_shape g) js -> in_shape shape (spread shape axs js) /\ g_addr g js = flat shape (spread shape axs js).
Proof.
  intros shape axs Hs Ne S. destruct (slice_got shape axs Hs Ne S) as (g & E & N & _ & H). exists g. auto.
Qed.
Print Assumptions array_slice_addresses.

(** If moreover the end is not left out after a given start, and the increment divides the
    length, every combination of named indices is among the elements returned. *)
Fixpoint all_named (shape : list Z) (axs : list axspec) (idx : list Z) : Prop :=
  match shape, axs, idx with
  | [], _, [] => True
  | _ :: ns, [], i :: is => i = 0 /\ all_named ns [] is
  | n :: ns, a :: axs', i :: is => named n a i /\ all_named ns axs' is
  | _, _, _ => False
  end.
Lemma all_named_none shape idx js : all_named shape [] idx -> spread shape [] js = idx.
Proof. revert idx; induction shape as [|n ns IH]; intros [|i is]; cbn; try tauto. intros [-> H]. f_equal. auto. Qed.
Theorem array_slice_complete_partial : forall shape axs, Forall (fun n => 0 < n) shape -> axs <> [] ->
  Forall2 sensible (firstn (length axs) shape) axs -> Forall2 exact (firstn (length axs) shape) axs ->
  exists g, na_get shape (flat_map ids_of axs) = Ok g /\
    forall idx, all_named shape axs idx -> exists js, in_shape (g_shape g) js /\ spread shape axs js = idx /\ g_addr g js = flat shape idx.
Proof.
  intros shape axs Hs Ne S X. destruct (slice_got shape axs Hs Ne S) as (g & E & N & Sh & H). exists g. split; [exact E|]. intros idx A.
  assert (G : exists js, in_shape (counts shape axs) js /\ spread shape axs js = idx).
  { clear - Hs S X A. revert axs S X idx A. induction Hs as [|n ns Hn Hs IH]; intros axs S X idx A.
    - exists []. cbn in A. destruct axs, idx; cbn; try tauto; split; constructor.
    - destruct axs as [|a axs].
      + exists []. split; [constructor|]. now apply all_named_none.
      + destruct idx as [|i is]; [destruct A|]. cbn [all_named] in A. destruct A as [Na A]. cbn [firstn length] in S, X. inversion_clear S as [|? ? ? ? Sa Ss]. inversion_clear X as [|? ? ? ? Xa Xs].
        destruct (IH axs Ss Xs is A) as (js & J & Sp). destruct a as [|k|s e inc]; cbn [counts kept spread ax_of ax_st ax_end ax_incr named sensible exact] in *.
        * exists (i :: js). split; [constructor; [|exact J]|]. { rewrite Z.quot_1_r. lia. } cbn. now rewrite Sp.
        * exists js. split; [exact J|]. cbn. now rewrite Sp, Na.
        * destruct Sa as (H1 & H2 & H3), Xa as (X1 & X2), Na as (j & J1 & J2 & J3). exists (j :: js). split; [constructor; [|exact J]|].
          { assert (Ee : endof n s e = hi n e) by (unfold endof, hi; destruct s, e; auto; exfalso; apply X1; [discriminate|reflexivity]).
            rewrite Ee, Z.quot_div_nonneg by lia. split; [exact J1|]. apply Z.div_exact in X2; [|lia]. nia. }
          cbn [nth_named]. now rewrite Sp, J2. }
  destruct G as (js & J & Sp). exists js. rewrite Sh. split; [exact J|]. split; [exact Sp|]. rewrite <- Sp. apply H. now rewrite Sh.
Qed.
Print Assumptions array_slice_complete_partial.

(** otherwise the last element is dropped: for every range whose length the increment does
    not divide, the last index named is missing from the subarray *)
Theorem array_slice_last_refuted : forall n s e i, 0 <= s < n -> s <= e < n -> 0 < i -> (e + 1 - s) mod i <> 0 ->
  exists g k, na_get [n] [s; AidRange; e; AidRange; i] = Ok g /\ named n (ARange (Some s) (Some e) (Some (Some i))) k /\
    forall js, in_shape (g_shape g) js -> g_addr g js <> k.
Proof.
  intros n s e i Hs He Hi M.
  destruct (slice_got [n] [ARange (Some s) (Some e) (Some (Some i))]) as (g & E & N & Sh & H).
  { repeat constructor. lia. } { discriminate. } { repeat constructor; cbn; lia. }
  cbn [flat_map ids_of part app] in E. exists g, (s + (e + 1 - s) / i * i). split; [exact E|].
  pose proof (Z.div_mod (e + 1 - s) i ltac:(lia)) as D. pose proof (Z.mod_pos_bound (e + 1 - s) i Hi) as B.
  split.
  - exists ((e + 1 - s) / i). split; [apply Z.div_pos; lia|]. cbn. split; [reflexivity|]. lia.
  - intros js J. destruct (H js J) as [_ ->]. rewrite Sh in J. cbn in J. inversion J as [|? j ? r Hj Hr]; subst. inversion Hr; subst. cbn [spread kept nth_named lo by_ flat prod fold_right].
    rewrite Z.quot_div_nonneg in Hj by lia. nia.
Qed.
Print Assumptions array_slice_last_refuted.

(** a range that ends beyond the axis is accepted, and addresses memory beyond the data *)
Theorem array_slice_end_checked_refuted : forall n s e, 0 <= s < n -> n <= e ->
  exists off ss sd js, na_get [n] [s; AidRange; e] = Ok (GSub off ss sd) /\ in_shape ss js /\ sub_elem off sd js >= prod [n].
Proof.
  intros n s e Hs He. exists s, [e + 1 - s], [1], [n - s]. split; [|split].
  - unfold na_get. cbn [length Nat.eqb andb].
    destruct (parse_axes [n] [ARange (Some s) (Some e) None] [] [n] {| ps_ax := [dflt n]; ps_nraxes := 0; ps_nr := 0; ps_had := true |}) as (q & Eq & Xq & Hq); auto.
    { split; [reflexivity|]. left. auto. } { repeat constructor; cbn; lia. }
    unfold parseHIID. cbn [length Nat.eqb negb map]. cbn [flat_map ids_of part app] in Eq. rewrite Eq. cbn [bind]. rewrite Hq by discriminate. rewrite Xq. cbn. rewrite Z.quot_1_r. f_equal. f_equal; ring.
  - repeat constructor; lia.
  - unfold sub_elem, prod. cbn. lia.
Qed.
Print Assumptions array_slice_end_checked_refuted.

(** a start without an end is one element, not the rest of the axis *)
Theorem array_slice_open_end_refuted : na_get [5] [2; AidRange; AidEmpty] = Ok (GSub 2 [1] [1]) /\ named 5 (ARange (Some 2) None None) 4.
Proof. split; [reflexivity|]. exists 2. cbn. lia. Qed.
Print Assumptions array_slice_open_end_refuted.

(** axes not mentioned are not kept whole but fixed at index 0 *)
Theorem array_slice_rest_refuted : na_get [2;3] [AidWildcard] = Ok (GSub 0 [2] [3]) /\ na_get [2;3] [1] = Ok (GSub 3 [] []).
Proof. split; reflexivity. Qed.
Print Assumptions array_slice_rest_refuted.

Definition ex_axs : list axspec := [ARange (Some 1) (Some 4) (Some (Some 2)); AOne 2; AAll].
Example ex_slice : Forall2 sensible (firstn 3 [6;3;4]) ex_axs /\ Forall2 exact (firstn 3 [6;3;4]) ex_axs /\
  na_get [6;3;4] (flat_map ids_of ex_axs) = Ok (GSub 20 [2;4] [24;1]) /\ spread [6;3;4] ex_axs [1;3] = [3;2;3] /\ flat [6;3;4] [3;2;3] = sub_elem 20 [24;1] [1;3].
Proof. split; [repeat constructor; cbn; lia|]. split; [repeat constructor; try discriminate; reflexivity|]. repeat split. Qed.
Example ex_elem : na_get [2;3] [1;2] = Ok (GElem 5) /\ na_get [2;3] [1;3] = Err.
Proof. split; reflexivity. Qed.
