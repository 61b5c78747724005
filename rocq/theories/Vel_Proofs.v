(** Proofs for Vel_Model: strides and iteration compute broadcast positions. *)
From Verif Require Import Base Vel_Model Vel_Spec.
Local Open Scope Z_scope.

(** ** One array at a time *)
(** the strides computeStrides gives one array, from its extents (last axis first) *)
Fixpoint strides1 (es : list Z) (tot : Z) (deg : bool) : list Z :=
  match es with
  | [] => []
  | e :: es' =>
      let '(st, deg') := if 1 <? e then normalAxis tot deg else degenerateAxis tot deg in
      st :: strides1 es' (tot * e) deg'
  end.
(** position of counter [c], fastest axis first *)
Fixpoint off (es c : list Z) : Z :=
  match es, c with
  | e :: es', x :: c' => (if e =? 1 then 0 else x) + e * off es' c'
  | _, _ => 0
  end.
Fixpoint num (sh c : list Z) : Z :=
  match sh, c with
  | s :: sh', x :: c' => x + s * num sh' c'
  | _, _ => 0
  end.
Definition fits (e s : Z) : Prop := 1 <= e /\ (e = 1 \/ e = s).

Lemma inside_len : forall sh c, inside sh c -> length sh = length c.
Proof. induction 1; cbn; congruence. Qed.
Lemma inside_app : forall a x, inside a x -> forall b y, inside b y -> inside (a ++ b) (x ++ y).
Proof. induction 1; cbn; intros; auto. constructor; auto. Qed.
Lemma inside_rev : forall a x, inside a x -> inside (rev a) (rev x).
Proof. induction 1; cbn. constructor. apply inside_app; auto. repeat constructor; tauto. Qed.
Lemma inside_pos : forall sh c, inside sh c -> Forall (fun n => 1 <= n) sh.
Proof. induction 1; constructor; auto; lia. Qed.

Lemma fits_pos : forall es sh, Forall2 fits es sh -> Forall (fun n => 1 <= n) es.
Proof. induction 1 as [|e s es sh [H _]]; constructor; auto. Qed.
Lemma product_pos : forall s, Forall (fun n => 1 <= n) s -> 1 <= product s.
Proof. unfold product. induction 1; cbn [fold_right]; nia. Qed.

Lemma dc_incr_next : forall sh c, inside sh c -> forall c' n, dc_incr sh c = (c', Some n) ->
  inside sh c' /\ num sh c' = num sh c + 1.
Proof.
  induction 1 as [|s sh x c Hx Hin IH]; intros c' n E; cbn [dc_incr] in E; [discriminate|].
  destruct (s <=? x + 1) eqn:L.
  - destruct (dc_incr sh c) as [c2 [m|]] eqn:E2; cbn [option_map] in E; [|discriminate].
    injection E as <- <-. destruct (IH _ _ eq_refl) as [A B]. split.
    + constructor; auto. lia.
    + cbn [num]. apply Z.leb_le in L. rewrite B. replace x with (s - 1) by lia. lia.
  - injection E as <- <-. apply Z.leb_gt in L. split; [constructor; auto; lia|]. cbn [num]. lia.
Qed.
Lemma dc_incr_last : forall sh c, inside sh c -> forall c', dc_incr sh c = (c', None) -> num sh c = product sh - 1.
Proof.
  unfold product. induction 1 as [|s sh x c Hx Hin IH]; intros c' E; cbn [dc_incr num fold_right] in *; [lia|].
  destruct (s <=? x + 1) eqn:L; [|discriminate].
  destruct (dc_incr sh c) as [c2 [m|]] eqn:E2; cbn [option_map] in E; [discriminate|].
  rewrite (IH _ eq_refl). apply Z.leb_le in L. replace x with (s - 1) by lia. lia.
Qed.
Lemma num_bound : forall sh c, inside sh c -> 0 <= num sh c < product sh.
Proof.
  unfold product. induction 1 as [|s sh x c Hx Hin IH]; cbn [num fold_right]; [lia|]. nia.
Qed.
Lemma num_inj : forall sh c, inside sh c -> forall c2, inside sh c2 -> num sh c = num sh c2 -> c = c2.
Proof.
  induction 1 as [|s sh x c Hx Hin IH]; intros c2 H2 E; inversion H2 as [|s' sh' y c2' Hy H2']; subst; auto.
  cbn [num] in E. assert (num sh c = num sh c2') as N by nia.
  rewrite (IH _ H2' N). f_equal. lia.
Qed.
Lemma off_bound : forall es sh, Forall2 fits es sh -> forall c, inside sh c -> 0 <= off es c < product es.
Proof.
  unfold product.
  induction 1 as [|e s es sh [P F] _ IH]; intros c Hc; inversion Hc as [|s' sh' x c' Hx Hc']; subst; cbn [off fold_right]; [lia|].
  specialize (IH _ Hc'). destruct (e =? 1) eqn:E1; [apply Z.eqb_eq in E1; nia|]. apply Z.eqb_neq in E1. nia.
Qed.
Lemma off_num : forall sh c, inside sh c -> off sh c = num sh c.
Proof.
  induction 1 as [|s sh x c Hx Hin IH]; cbn [off num]; auto. rewrite IH.
  destruct (s =? 1) eqn:E; [apply Z.eqb_eq in E; lia|reflexivity].
Qed.

(** The invariant: after the faster axes have wrapped around, the strides of those axes sum to 1 minus
    the elements they span if the last of them was degenerate, and to 1 otherwise. *)
Lemma strides1_step : forall es sh, Forall2 fits es sh -> forall c, inside sh c -> forall tot (deg : bool) c' n,
  dc_incr sh c = (c', Some n) ->
  (if deg then 1 - tot else 1) + fold_right Z.add 0 (firstn n (strides1 es tot deg))
  = 1 - tot + tot * (off es c' - off es c).
Proof.
  induction 1 as [|e s es sh [P F] _ IH]; intros c Hc tot deg c' n E;
    inversion Hc as [|s' sh' x c1 Hx Hc']; subst; cbn [dc_incr] in E; [discriminate|].
  cbn [strides1]. unfold normalAxis, degenerateAxis.
  destruct (s <=? x + 1) eqn:L.
  - apply Z.leb_le in L. destruct (dc_incr sh c1) as [c2 [m|]] eqn:E2; cbn [option_map] in E; [|discriminate].
    injection E as <- <-. cbn [off].
    destruct (1 <? e) eqn:B.
    + apply Z.ltb_lt in B. destruct F as [F|F]; [lia|subst e].
      rewrite (proj2 (Z.eqb_neq s 1)) by lia.
      pose proof (IH c1 Hc' (tot * s) false c2 m E2) as I; cbv beta iota in I.
      destruct deg; cbn [firstn fold_right]; replace x with (s - 1) by lia; nia.
    + apply Z.ltb_ge in B. assert (e = 1) as -> by lia.
      change (1 =? 1) with true. cbv iota.
      pose proof (IH c1 Hc' (tot * 1) true c2 m E2) as I; cbv beta iota in I.
      destruct deg; cbn [firstn fold_right]; nia.
  - injection E as <- <-. cbn [off].
    destruct (1 <? e) eqn:B.
    + apply Z.ltb_lt in B. rewrite (proj2 (Z.eqb_neq e 1)) by lia.
      destruct deg; cbn [firstn fold_right]; nia.
    + apply Z.ltb_ge in B. assert (e = 1) as -> by lia. change (1 =? 1) with true. cbv iota.
      destruct deg; cbn [firstn fold_right]; nia.
Qed.

(** ** The loop *)
Definition mk_iter (c : list Z) (es : list Z) : list Z * Z * Z := (strides1 es 1 true, off es c, product es).
Lemma iters_ok : forall ess sh c, Forall (fun es => Forall2 fits es sh) ess -> inside sh c ->
  forallb it_ok (map (mk_iter c) ess) = true.
Proof.
  induction 1 as [|es ess H _ IH]; intros Hc; cbn [map forallb]; auto.
  rewrite (IH Hc), andb_true_r. pose proof (off_bound _ _ H _ Hc). unfold mk_iter, it_ok.
  apply andb_true_iff. split; [apply Z.leb_le|apply Z.ltb_lt]; lia.
Qed.
Lemma iters_next : forall ess sh c c' n, Forall (fun es => Forall2 fits es sh) ess -> inside sh c ->
  dc_incr sh c = (c', Some n) -> map (it_next n) (map (mk_iter c) ess) = map (mk_iter c') ess.
Proof.
  intros ess sh c c' n H Hc E. rewrite map_map. apply map_ext_in. intros es Hin.
  rewrite Forall_forall in H. pose proof (strides1_step _ _ (H _ Hin) _ Hc 1 true _ _ E) as S1.
  cbv beta iota delta [mk_iter it_next it_incr]. f_equal. f_equal. lia.
Qed.
Lemma walk_ok : forall fuel sh ess c, Forall (fun es => Forall2 fits es sh) ess -> inside sh c ->
  num sh c + Z.of_nat fuel = product sh ->
  exists r, walk fuel sh c (map (mk_iter c) ess) = Ok r /\ length r = fuel /\
    forall c2, inside sh c2 -> num sh c <= num sh c2 ->
      nth_error r (Z.to_nat (num sh c2 - num sh c)) = Some (map (fun es => off es c2) ess).
Proof.
  induction fuel as [|f IH]; intros sh ess c H Hc N.
  - pose proof (num_bound _ _ Hc). lia.
  - cbn [walk]. rewrite (iters_ok _ _ _ H Hc).
    assert (map it_pos (map (mk_iter c) ess) = map (fun es => off es c) ess) as P by (rewrite map_map; reflexivity).
    rewrite P. destruct (dc_incr sh c) as [c' [n|]] eqn:E.
    + destruct (dc_incr_next _ _ Hc _ _ E) as [Hc' N'].
      rewrite (iters_next _ _ _ _ _ H Hc E).
      destruct (IH sh ess c' H Hc') as (r & W & L & R); [lia|].
      rewrite W. cbn [bind]. eexists; split; [reflexivity|]. split; [cbn; congruence|].
      intros c2 H2 Le. destruct (Z.eq_dec (num sh c2) (num sh c)) as [Q|Q].
      * apply (num_inj _ _ H2 _ Hc) in Q. subst c2. rewrite Z.sub_diag. reflexivity.
      * replace (Z.to_nat (num sh c2 - num sh c)) with (S (Z.to_nat (num sh c2 - num sh c'))) by lia.
        cbn [nth_error]. apply R; auto. lia.
    + pose proof (dc_incr_last _ _ Hc _ E) as N'. assert (f = O) as -> by lia.
      eexists; split; [reflexivity|]. split; [reflexivity|].
      intros c2 H2 Le. pose proof (num_bound _ _ H2).
      assert (num sh c2 = num sh c) as Q by lia. rewrite Q. apply (num_inj _ _ H2 _ Hc) in Q. subst c2.
      rewrite Z.sub_diag. reflexivity.
Qed.

Lemma inside_zero : forall s, Forall (fun n => 1 <= n) s -> inside s (map (fun _ => 0) s).
Proof. induction 1; cbn; constructor; auto; lia. Qed.
Lemma off_zero : forall es (sh : list Z), off es (map (fun _ => 0) sh) = 0.
Proof. induction es as [|e es IH]; destruct sh as [|s sh]; cbn [map off]; auto. rewrite IH. destruct (e =? 1); lia. Qed.
Lemma num_zero : forall sh (s : list Z), num sh (map (fun _ => 0) s) = 0.
Proof. induction sh as [|e es IH]; destruct s as [|s sh]; cbn [map num]; auto. rewrite IH. lia. Qed.
Lemma map_const_rev : forall (s : list Z), map (fun _ : Z => 0) s = map (fun _ => 0) (rev s).
Proof.
  intro s. assert (forall l : list Z, map (fun _ => 0) l = repeat 0 (length l)) as R by (induction l; cbn; congruence).
  rewrite !R, rev_length. reflexivity.
Qed.
Lemma product_app : forall a b, product (a ++ b) = product a * product b.
Proof. unfold product. induction a as [|x a IH]; intro b; cbn [app fold_right]; [|rewrite IH]; lia. Qed.
Lemma product_rev : forall a, product (rev a) = product a.
Proof. induction a as [|x a IH]; [reflexivity|]. cbn [rev]. rewrite product_app, IH. unfold product. cbn [fold_right]. lia. Qed.

(** ** Positions, first axis first *)
Definition rext (s : list Z) (n : nat) : list Z := map (ext s) (rev (seq 0 n)).
Lemma position_from_acc : forall s idx acc, length s = length idx ->
  position_from acc s idx = acc * product s + position_from 0 s idx.
Proof.
  unfold product. induction s as [|n s IH]; destruct idx as [|x idx]; intros acc L; cbn [position_from fold_right] in *; try discriminate; [lia|].
  injection L as L. rewrite IH by auto. rewrite (IH _ (0 * n + _)) by auto. lia.
Qed.
Lemma off_app : forall a b x y, length a = length x -> off (a ++ b) (x ++ y) = off a x + product a * off b y.
Proof.
  unfold product. induction a as [|e a IH]; destruct x as [|z x]; intros y L; cbn [app off fold_right length] in *; try discriminate; [lia|].
  injection L as L. rewrite IH by auto. lia.
Qed.
Lemma position_off : forall s idx, length s = length idx -> position s idx = off (rev s) (rev idx).
Proof.
  unfold position. induction s as [|n s IH]; destruct idx as [|x idx]; intros L; cbn [rev position_from] in *; try discriminate; [reflexivity|].
  injection L as L. rewrite off_app by (now rewrite !rev_length). rewrite product_rev, position_from_acc, IH by auto.
  cbn [off]. lia.
Qed.
Lemma map_ext_seq : forall n s, map (ext s) (seq 0 n) = match n, s with
  | O, _ => [] | S n', e :: s' => e :: map (ext s') (seq 0 n') | S n', [] => 1 :: map (ext []) (seq 0 n') end.
Proof.
  intros [|n] s; [reflexivity|]. cbn [seq map]. rewrite <- seq_shift, map_map. destruct s as [|e s]; cbn [ext nth].
  - f_equal. apply map_ext. intros [|k]; reflexivity.
  - f_equal.
Qed.
Lemma position_pad : forall idx s acc, (length s <= length idx)%nat ->
  position_from acc s idx = position_from acc (map (ext s) (seq 0 (length idx))) idx.
Proof.
  induction idx as [|x idx IH]; intros s acc L.
  - destruct s; [reflexivity|cbn in L; lia].
  - cbn [length]. rewrite map_ext_seq. destruct s as [|e s]; cbn [position_from].
    + rewrite <- (IH []) by (cbn; lia). change (1 =? 1) with true. cbv iota. cbn [position_from]. lia.
    + apply IH. cbn in L. lia.
Qed.
Lemma position_rext : forall s idx, (length s <= length idx)%nat -> position s idx = off (rext s (length idx)) (rev idx).
Proof.
  intros s idx L. unfold position. rewrite position_pad by auto. fold (position (map (ext s) (seq 0 (length idx))) idx).
  rewrite position_off by (now rewrite map_length, seq_length). rewrite <- map_rev. reflexivity.
Qed.
Lemma product_ones : forall n, product (map (ext []) (seq 0 n)) = 1.
Proof. induction n as [|n IH]; [reflexivity|]. rewrite map_ext_seq. unfold product in *. cbn [fold_right]. lia. Qed.
Lemma product_pad : forall n s, (length s <= n)%nat -> product (map (ext s) (seq 0 n)) = product s.
Proof.
  induction n as [|n IH]; intros s L.
  - destruct s; [reflexivity|cbn in L; lia].
  - rewrite map_ext_seq. destruct s as [|e s].
    + pose proof (product_ones n) as Q. unfold product in *. cbn [fold_right]. lia.
    + cbn in L. unfold product in *. cbn [fold_right]. f_equal. apply IH. lia.
Qed.
Lemma product_rext : forall n s, (length s <= n)%nat -> product (rext s n) = product s.
Proof. intros. unfold rext. rewrite map_rev, product_rev. now apply product_pad. Qed.

(** ** computeStrides *)
Notation zbig e := (1 <? e)%Z (only parsing).
Definition axis_out (szs : list Z) (sz0 : Z) : res Z :=
  fold_left (fun r sz => bind r (fun s0 =>
    if (1 <? sz) && negb (s0 =? 1) && negb (sz =? s0) then Err else Ok (if (1 <? sz) && (s0 =? 1) then sz else s0))) szs (Ok sz0).
Definition step1 (sz : Z) (st : Z * bool) : Z * (Z * bool) :=
  let '(tot, deg) := st in
  let '(d, deg') := if 1 <? sz then normalAxis tot deg else degenerateAxis tot deg in (d, (tot * sz, deg')).
Lemma axis_out_err : forall szs, fold_left (fun r sz => bind r (fun s0 =>
    if (1 <? sz) && negb (s0 =? 1) && negb (sz =? s0) then Err else Ok (if (1 <? sz) && (s0 =? 1) then sz else s0))) szs Err = Err.
Proof. induction szs; cbn; auto. Qed.
Lemma cs_axis_eq : forall szs sts sz0, length szs = length sts ->
  cs_axis szs sts sz0 = bind (axis_out szs sz0) (fun o =>
    Ok (o, map (fun p => fst (step1 (fst p) (snd p))) (combine szs sts), map (fun p => snd (step1 (fst p) (snd p))) (combine szs sts))).
Proof.
  unfold axis_out. induction szs as [|sz szs IH]; destruct sts as [|[tot deg] sts]; intros sz0 L; cbn [length] in L; try discriminate; [reflexivity|].
  injection L as L. cbn [cs_axis fold_left combine map fst snd bind].
  destruct ((1 <? sz) && negb (sz0 =? 1) && negb (sz =? sz0)) eqn:Bad.
  - rewrite axis_out_err. reflexivity.
  - destruct (if 1 <? sz then normalAxis tot deg else degenerateAxis tot deg) as [d deg'] eqn:E.
    assert (step1 sz (tot, deg) = (d, (tot * sz, deg'))) as S1 by (unfold step1; rewrite E; reflexivity).
    rewrite S1. cbn [fst snd].
    rewrite (IH sts _ L).
    match goal with |- bind (bind ?x _) _ = _ => destruct x as [o| |] end; reflexivity.
Qed.

Lemma axis_out_cons : forall sz szs s0, axis_out (sz :: szs) s0 =
  if (1 <? sz) && negb (s0 =? 1) && negb (sz =? s0) then Err else axis_out szs (if (1 <? sz) && (s0 =? 1) then sz else s0).
Proof.
  intros. unfold axis_out. cbn [fold_left bind].
  destruct ((1 <? sz) && negb (s0 =? 1) && negb (sz =? s0)); [apply axis_out_err|reflexivity].
Qed.
Lemma axis_out_spec : forall szs s0, 1 <= s0 -> Forall (fun n => 1 <= n) szs ->
  match axis_out szs s0 with
  | Ok o => (s0 = 1 \/ s0 = o) /\ Forall (fun e => e = 1 \/ e = o) szs /\ o = fold_right Z.max s0 szs
  | Err => exists a b, In a (s0 :: szs) /\ In b (s0 :: szs) /\ a <> 1 /\ b <> 1 /\ a <> b
  | UB => False
  end.
Proof.
  induction szs as [|sz szs IH]; intros s0 P F.
  - unfold axis_out. cbn [fold_left fold_right]. auto.
  - inversion F as [|? ? Hsz F']; subst. rewrite axis_out_cons.
    destruct ((1 <? sz) && negb (s0 =? 1) && negb (sz =? s0)) eqn:Bad.
    + apply andb_prop in Bad as [Bad D]. apply andb_prop in Bad as [B N].
      apply Z.ltb_lt in B. apply negb_true_iff, Z.eqb_neq in N, D.
      exists sz, s0. cbn. repeat split; auto; lia.
    + set (s1 := if (1 <? sz) && (s0 =? 1) then sz else s0).
      assert (s1 = Z.max sz s0 /\ (s0 = 1 \/ s0 = s1) /\ (sz = 1 \/ sz = s1)) as (M & A & B).
      { unfold s1. destruct (1 <? sz) eqn:G; [apply Z.ltb_lt in G|apply Z.ltb_ge in G]; cbn [andb] in *.
        - destruct (s0 =? 1) eqn:Z1; [apply Z.eqb_eq in Z1|apply Z.eqb_neq in Z1]; cbn [negb andb] in *; [lia|].
          apply negb_false_iff, Z.eqb_eq in Bad. lia.
        - lia. }
      specialize (IH s1 ltac:(lia) F'). destruct (axis_out szs s1) as [o| |]; auto.
      * destruct IH as (C & Q & O). split; [|split].
        -- lia.
        -- constructor; auto. lia.
        -- cbn [fold_right]. rewrite O, M. clear. induction szs as [|z szs IH]; cbn [fold_right]; lia.
      * destruct IH as (a & b & Ia & Ib & Na & Nb & D).
        assert (forall z, In z (s1 :: szs) -> In z (s0 :: sz :: szs)) as Sub.
        { intros z [<-|Hz]; [|cbn; auto]. unfold s1. destruct ((1 <? sz) && (s0 =? 1)); cbn; auto. }
        exists a, b. auto 6.
Qed.

Lemma nth_combine_step : forall (szs : list Z) sts j sz st, nth_error szs j = Some sz -> nth_error sts j = Some st ->
  nth j (map (fun p => fst (step1 (fst p) (snd p))) (combine szs sts)) 0 = fst (step1 sz st) /\
  nth_error (map (fun p => snd (step1 (fst p) (snd p))) (combine szs sts)) j = Some (snd (step1 sz st)).
Proof.
  induction szs as [|z szs IH]; destruct sts as [|t sts]; intros [|j] sz st A B; cbn in A, B; try discriminate.
  - injection A as ->. injection B as ->. split; reflexivity.
  - cbn [combine map nth nth_error]. apply (IH _ _ _ _ A B).
Qed.
Lemma ext_pos : forall s, proper s -> forall k, 1 <= ext s k.
Proof.
  unfold ext, proper. induction 1 as [|n s H _ IH]; intros [|k]; cbn [nth]; auto; lia.
Qed.
Lemma maxes : forall (f : list Z -> Z) l z, z <= fold_right Z.max z (map f l).
Proof. induction l; intros; cbn [map fold_right]; [lia|]. specialize (IHl z). lia. Qed.

Lemma cs_loop_spec : forall dims shapes sts, Forall proper shapes -> length sts = length shapes ->
  match cs_loop dims shapes sts with
  | Ok rows =>
      map fst rows = map (fun k => fold_right Z.max 1 (map (fun s => ext s k) shapes)) dims /\
      forall j s tot deg, nth_error shapes j = Some s -> nth_error sts j = Some (tot, deg) ->
        map (fun row => nth j (snd row) 0) rows = strides1 (map (ext s) dims) tot deg /\
        Forall2 fits (map (ext s) dims) (map fst rows)
  | Err => exists k a b, In k dims /\ In a shapes /\ In b shapes /\ ext a k <> 1 /\ ext b k <> 1 /\ ext a k <> ext b k
  | UB => False
  end.
Proof.
  induction dims as [|k dims IH]; intros shapes sts P L; cbn [cs_loop].
  - split; [reflexivity|]. intros; cbn; split; [reflexivity|constructor].
  - rewrite cs_axis_eq by (rewrite map_length; congruence).
    assert (Forall (fun n => 1 <= n) (map (fun s => ext s k) shapes)) as P1.
    { apply Forall_map. eapply Forall_impl; [|exact P]. intros s Hs. now apply ext_pos. }
    pose proof (axis_out_spec (map (fun s => ext s k) shapes) 1 ltac:(lia) P1) as A.
    change (map (fun s => extent s k) shapes) with (map (fun s => ext s k) shapes).
    destruct (axis_out (map (fun s => ext s k) shapes) 1) as [o| |]; cbn [bind]; [|clear IH|contradiction].
    + destruct A as (_ & A & O).
      set (sts' := map (fun p => snd (step1 (fst p) (snd p))) (combine (map (fun s => ext s k) shapes) sts)).
      assert (length sts' = length shapes) as L'.
      { unfold sts'. rewrite map_length, combine_length, map_length. lia. }
      specialize (IH shapes sts' P L'). destruct (cs_loop dims shapes sts') as [rows| |]; cbn [bind]; auto.
      * destruct IH as [M IH]. split; [cbn [map fst]; congruence|].
        intros j s tot deg Hs Ht.
        destruct (nth_combine_step (map (fun s => ext s k) shapes) sts j (ext s k) (tot, deg)) as [N1 N2]; auto.
        { rewrite nth_error_map, Hs. reflexivity. }
        cbn [map fst snd strides1]. rewrite N1. unfold step1 in *.
        destruct (if 1 <? ext s k then normalAxis tot deg else degenerateAxis tot deg) as [d deg'] eqn:E.
        cbn [fst snd] in *. destruct (IH j s (tot * ext s k) deg' Hs N2) as [I1 I2].
        rewrite I1. split; [reflexivity|]. constructor; auto. split.
        -- apply ext_pos. rewrite Forall_forall in P. apply P. eapply nth_error_In; eauto.
        -- rewrite Forall_forall in A. apply A. apply in_map_iff. exists s. split; auto. eapply nth_error_In; eauto.
      * destruct IH as (k' & a & b & I1 & R). exists k', a, b. split; [right; auto|auto].
    + destruct A as (x & y & Ix & Iy & Nx & Ny & D).
      assert (forall z, In z (1 :: map (fun s => ext s k) shapes) -> z <> 1 -> exists s, In s shapes /\ ext s k = z) as G.
      { intros z [<-|Hz] Nz; [exfalso; apply Nz; reflexivity|]. apply in_map_iff in Hz as (s & E & I). eauto. }
      destruct (G _ Ix Nx) as (a & Ia & <-), (G _ Iy Ny) as (b & Ib & <-).
      exists k, a, b. cbn. auto 8.
Qed.

Lemma ranks_le : forall shapes s, In s shapes -> (length s <= ranks shapes)%nat.
Proof. unfold ranks. induction shapes as [|z l IH]; intros s H; [destruct H|]. destruct H as [H|H]; cbn [fold_right]; [subst; lia|]. specialize (IH _ H). lia. Qed.
Lemma ext_over : forall s k, (length s <= k)%nat -> ext s k = 1.
Proof. intros. unfold ext. now apply nth_overflow. Qed.
Lemma nth_map_seq : forall (f : nat -> Z) n k, (k < n)%nat -> nth k (map f (seq 0 n)) 1 = f k.
Proof.
  intros f n k H. rewrite nth_indep with (d' := f 0%nat) by (now rewrite map_length, seq_length). rewrite map_nth, seq_nth by auto. reflexivity.
Qed.
Lemma max_ones : forall shapes k, (ranks shapes <= k)%nat -> fold_right Z.max 1 (map (fun s => ext s k) shapes) = 1.
Proof.
  unfold ranks. induction shapes as [|s l IH]; intros k H; cbn [map fold_right] in *; [reflexivity|].
  rewrite IH by lia. rewrite ext_over by lia. reflexivity.
Qed.
Lemma proper_of_ext : forall s, (forall k, 1 <= ext s k) -> proper s.
Proof.
  unfold ext, proper. induction s as [|n s IH]; intro H; constructor.
  - apply (H 0%nat).
  - apply IH. intro k. apply (H (S k)).
Qed.

Definition max_ext (shapes : list (list Z)) (k : nat) : Z := fold_right Z.max 1 (map (fun s => ext s k) shapes).
Lemma computeStrides_spec : forall shapes, Forall proper shapes -> (ranks shapes <= MaxAxis)%nat ->
  match computeStrides shapes with
  | Ok (out, st) =>
      length out = ranks shapes /\ (forall k, ext out k = max_ext shapes k) /\ proper out /\
      forall j s, nth_error shapes j = Some s ->
        nth j st [] = strides1 (rext s (length out)) 1 true /\ Forall2 fits (rext s (length out)) (rev out)
  | Err => ~ all_broadcastable shapes
  | UB => False
  end.
Proof.
  intros shapes P R. unfold computeStrides. rewrite (proj2 (Nat.ltb_ge _ _) R).
  pose proof (cs_loop_spec (rev (seq 0 (ranks shapes))) shapes (map (fun _ => (1, true)) shapes) P ltac:(now rewrite map_length)) as C.
  destruct (cs_loop _ _ _) as [rows| |]; cbn [bind]; auto.
  - destruct C as [M C].
    assert (rev (map fst rows) = map (max_ext shapes) (seq 0 (ranks shapes))) as M'.
    { rewrite M, <- map_rev, rev_involutive. reflexivity. }
    assert (length (rev (map fst rows)) = ranks shapes) as L by (rewrite M', map_length, seq_length; reflexivity).
    assert (forall k, ext (rev (map fst rows)) k = max_ext shapes k) as X.
    { intro k. rewrite M'. destruct (Nat.lt_ge_cases k (ranks shapes)) as [Hk|Hk].
      - unfold ext. now apply nth_map_seq.
      - rewrite ext_over by (rewrite map_length, seq_length; auto). symmetry. now apply max_ones. }
    split; [exact L|]. split; [exact X|]. split.
    + apply proper_of_ext. intro k. rewrite X. apply (maxes (fun s => ext s k) shapes 1).
    + intros j s Hj. rewrite L, rev_involutive.
      destruct (C j s 1 true Hj) as [C1 C2].
      { rewrite nth_error_map, Hj. reflexivity. }
      split; [|exact C2].
      assert (j < length shapes)%nat as Lj by (apply nth_error_Some; congruence).
      unfold rext. rewrite <- C1.
      set (f := fun j => map (fun row : Z * list Z => nth j (snd row) 0) rows).
      change (nth j (map f (seq 0 (length shapes))) [] = f j).
      rewrite nth_indep with (d' := f 0%nat) by (now rewrite map_length, seq_length). rewrite map_nth, seq_nth by auto. reflexivity.
  - destruct C as (k & a & b & _ & Ia & Ib & N1 & N2 & D). intro B. destruct (B a b Ia Ib k) as [|[|]]; contradiction.
Qed.
Lemma Forall2_rev' : forall (R : Z -> Z -> Prop) l l', Forall2 R l l' -> Forall2 R (rev l) (rev l').
Proof. induction 1; cbn; [constructor|]. apply Forall2_app; auto. Qed.
Lemma computeStrides_err : forall shapes, Forall proper shapes -> (ranks shapes <= MaxAxis)%nat ->
  ~ all_broadcastable shapes -> computeStrides shapes = Err.
Proof.
  intros shapes P R N. pose proof (computeStrides_spec shapes P R) as C.
  destruct (computeStrides shapes) as [[out st]| |]; auto; [|contradiction].
  exfalso. apply N. destruct C as (L & X & _ & C). intros a b Ia Ib k.
  apply In_nth_error in Ia. destruct Ia as [i Ia]. apply In_nth_error in Ib. destruct Ib as [j Ib].
  assert (forall s j, nth_error shapes j = Some s -> ext s k = 1 \/ ext s k = ext out k) as G.
  { intros s j' Hs. destruct (Nat.lt_ge_cases k (length out)) as [Hk|Hk].
    - destruct (C j' s Hs) as [_ F]. unfold rext in F. rewrite map_rev in F.
      assert (Forall2 fits (map (ext s) (seq 0 (length out))) out) as F2.
      { apply Forall2_rev' in F. rewrite !rev_involutive in F. exact F. }
      assert (forall (l l' : list Z) n, Forall2 fits l l' -> (n < length l)%nat -> fits (nth n l 1) (nth n l' 1)) as Q.
      { clear. intros l l' n F. revert n. induction F; intros [|n] H0; cbn in *; auto; try lia. apply IHF. lia. }
      specialize (Q _ _ k F2). rewrite map_length, seq_length in Q. specialize (Q Hk). rewrite nth_map_seq in Q by auto.
      destruct Q as [_ Q]. exact Q.
    - left. apply ext_over. pose proof (ranks_le shapes s (nth_error_In _ _ Hs)). lia. }
  destruct (G _ _ Ia) as [|Ea], (G _ _ Ib) as [|Eb]; auto. left. congruence.
Qed.
Lemma computeStrides_ok : forall shapes, Forall proper shapes -> (ranks shapes <= MaxAxis)%nat -> all_broadcastable shapes ->
  exists out st, computeStrides shapes = Ok (out, st) /\ length out = ranks shapes /\ (forall k, ext out k = max_ext shapes k) /\ proper out /\
      forall j s, nth_error shapes j = Some s ->
        nth j st [] = strides1 (rext s (length out)) 1 true /\ Forall2 fits (rext s (length out)) (rev out).
Proof.
  intros shapes P R B. pose proof (computeStrides_spec shapes P R) as C.
  destruct (computeStrides shapes) as [[out st]| |]; [|contradiction|contradiction]. exists out, st. auto.
Qed.

(** ** Running over the output *)
Lemma num_position : forall out idx, inside out idx -> num (rev out) (rev idx) = position out idx.
Proof.
  intros out idx H. rewrite position_off by (now apply inside_len). symmetry. apply off_num. now apply inside_rev.
Qed.
Lemma position_bound : forall out idx, inside out idx -> 0 <= position out idx < size out.
Proof.
  intros out idx H. rewrite <- num_position by auto. pose proof (num_bound _ _ (inside_rev _ _ H)) as B.
  rewrite product_rev in B. exact B.
Qed.
Lemma run_nth : forall out ss, proper out -> Forall (fun s => Forall2 fits (rext s (length out)) (rev out) /\ (length s <= length out)%nat) ss ->
  exists r, run out (map (fun s => (strides1 (rext s (length out)) 1 true, 0, size s)) ss) = Ok r /\
    Z.of_nat (length r) = size out /\
    forall idx, inside out idx -> nth_error r (Z.to_nat (position out idx)) = Some (map (fun s => position s idx) ss).
Proof.
  intros out ss P F. unfold run. rewrite map_const_rev.
  assert (proper (rev out)) as P' by (now apply Forall_rev).
  pose proof (product_pos _ P) as Pp.
  assert (map (fun s => (strides1 (rext s (length out)) 1 true, 0, size s)) ss
        = map (mk_iter (map (fun _ => 0) (rev out))) (map (fun s => rext s (length out)) ss)) as E.
  { rewrite map_map. apply map_ext_in. intros s Hs. unfold mk_iter. rewrite off_zero. f_equal.
    rewrite Forall_forall in F. destruct (F _ Hs) as [_ L]. rewrite product_rext by auto. reflexivity. }
  rewrite E.
  destruct (walk_ok (Z.to_nat (product out)) (rev out) (map (fun s => rext s (length out)) ss) (map (fun _ => 0) (rev out)))
    as (r & W & L & R).
  - apply Forall_map. eapply Forall_impl; [|exact F]. cbv beta. tauto.
  - now apply inside_zero.
  - rewrite num_zero, product_rev. lia.
  - exists r. split; [exact W|]. split; [change (size out) with (product out); lia|].
    intros idx H. pose proof (position_bound _ _ H) as B.
    specialize (R (rev idx) (inside_rev _ _ H)). rewrite num_zero, num_position in R by auto.
    rewrite Z.sub_0_r in R. rewrite R by lia. f_equal. rewrite map_map. apply map_ext_in. intros s Hs.
    rewrite Forall_forall in F. destruct (F _ Hs) as [_ Ls].
    rewrite position_rext by (pose proof (inside_len _ _ H); lia). now rewrite (inside_len _ _ H).
Qed.

(** *** The index vectors of a shape *)
Lemma flat_map_const : forall (A B : Type) (f : A -> list B) n l, (forall x, In x l -> length (f x) = n) ->
  length (flat_map f l) = (length l * n)%nat.
Proof. induction l as [|x l IH]; intro H; cbn; [reflexivity|]. rewrite app_length, (H x) by (cbn; auto). rewrite IH; [lia|]. intros; apply H; cbn; auto. Qed.
Lemma indices_length : forall s, proper s -> Z.of_nat (length (indices s)) = size s.
Proof.
  induction 1 as [|n s H _ IH]; [reflexivity|]. cbn [indices].
  rewrite (flat_map_const _ _ _ (length (indices s))) by (intros; now rewrite map_length).
  rewrite seq_length. unfold size in *. cbn [fold_right]. nia.
Qed.
Lemma indices_inside : forall s idx, In idx (indices s) -> inside s idx.
Proof.
  induction s as [|n s IH]; intros idx H; cbn [indices] in H.
  - destruct H as [<-|[]]. constructor.
  - apply in_flat_map in H as (x & Hx & H). apply in_map_iff in H as (i & <- & Hi). apply in_seq in Hx.
    constructor; auto. lia.
Qed.
Lemma inside_indices : forall s idx, inside s idx -> In idx (indices s).
Proof.
  induction 1 as [|n s x idx Hx _ IH]; cbn [indices]; [cbn; auto|].
  apply in_flat_map. exists (Z.to_nat x). split; [apply in_seq; lia|].
  rewrite Z2Nat.id by lia. now apply in_map.
Qed.
Lemma nth_blocks : forall (A B : Type) (f : A -> list B) n l q r x, (forall x, In x l -> length (f x) = n) -> (r < n)%nat ->
  nth_error l q = Some x -> nth_error (flat_map f l) (q * n + r) = nth_error (f x) r.
Proof.
  induction l as [|y l IH]; intros [|q] r x H Lr E; cbn [nth_error] in E; try discriminate.
  - injection E as ->. cbn [flat_map Nat.mul Nat.add]. apply nth_error_app1. rewrite H by (cbn; auto). auto.
  - cbn [flat_map]. rewrite nth_error_app2; rewrite (H y) by (cbn; auto); [|lia].
    replace (S q * n + r - n)%nat with (q * n + r)%nat by lia. apply IH; auto. intros; apply H; cbn; auto.
Qed.
Lemma position_cons : forall n s x idx, length s = length idx ->
  position (n :: s) (x :: idx) = (if n =? 1 then 0 else x) * size s + position s idx.
Proof.
  intros. unfold position at 1. cbn [position_from]. rewrite position_from_acc by auto. unfold position.
  change (product s) with (size s). lia.
Qed.
Lemma indices_nth : forall s idx, inside s idx -> nth_error (indices s) (Z.to_nat (position s idx)) = Some idx.
Proof.
  induction 1 as [|n s x idx Hx Hi IH]; [reflexivity|].
  assert (proper s) as Ps by (eapply inside_pos; eauto).
  pose proof (position_bound _ _ Hi) as B. pose proof (indices_length s Ps) as Li.
  rewrite position_cons by (now apply inside_len).
  assert ((if n =? 1 then 0 else x) = x) as -> by (destruct (n =? 1) eqn:E; [apply Z.eqb_eq in E; lia|reflexivity]).
  cbn [indices].
  replace (Z.to_nat (x * size s + position s idx)) with (Z.to_nat x * length (indices s) + Z.to_nat (position s idx))%nat by nia.
  rewrite (nth_blocks _ _ _ (length (indices s)) _ _ _ (Z.to_nat x)).
  - rewrite nth_error_map, IH. cbn [option_map]. rewrite Z2Nat.id by lia. reflexivity.
  - intros. now rewrite map_length.
  - lia.
  - rewrite nth_error_nth' with (d := 0%nat) by (rewrite seq_length; lia). rewrite seq_nth by lia. reflexivity.
Qed.
Lemma indices_pos : forall s i idx, proper s -> nth_error (indices s) i = Some idx -> i = Z.to_nat (position s idx).
Proof.
  intros s i idx P E. pose proof (indices_inside _ _ (nth_error_In _ _ E)) as H.
  pose proof (indices_nth _ _ H) as N.
  assert (NoDup (indices s)) as ND.
  { clear -P. induction P as [|n s _ _ IH]; cbn [indices]; [repeat constructor; auto|].
    generalize (Z.to_nat n) 0%nat. intro m. induction m as [|m IHm]; intro k; cbn [seq flat_map]; [constructor|].
    assert (forall l, NoDup l -> NoDup (map (cons (Z.of_nat k)) l)) as Q.
    { clear. induction 1 as [|y l N _ IH]; cbn; constructor; auto. rewrite in_map_iff. intros (z & Ez & Iz). injection Ez as ->. auto. }
    assert (forall (A : Type) (l l' : list A), NoDup l -> NoDup l' -> (forall x, In x l -> ~ In x l') -> NoDup (l ++ l')) as Ap.
    { clear. induction l as [|y l IH]; intros l' N1 N2 D; cbn; auto. inversion N1; subst. constructor.
      - rewrite in_app_iff. intros [|]; auto. eapply D; cbn; eauto.
      - apply IH; auto. intros; apply D; cbn; auto. }
    apply Ap; auto. intros x Hx Hy. apply in_map_iff in Hx as (i & <- & _).
    apply in_flat_map in Hy as (k' & Hk & Hy). apply in_map_iff in Hy as (i' & Ei & _). injection Ei as Ek _.
    apply in_seq in Hk. lia. }
  eapply NoDup_nth_error; eauto.
  - apply nth_error_Some. congruence.
  - congruence.
Qed.
Lemma nth_error_ext' : forall (A : Type) (l l' : list A), (forall i, nth_error l i = nth_error l' i) -> l = l'.
Proof.
  induction l as [|x l IH]; destruct l' as [|y l']; intro H; auto; try (specialize (H 0%nat); discriminate).
  pose proof (H 0%nat) as H0. injection H0 as ->. f_equal. apply IH. intro i. apply (H (S i)).
Qed.
Lemma by_indices : forall (A : Type) (r : list A) (f : list Z -> A) out, proper out -> Z.of_nat (length r) = size out ->
  (forall idx, inside out idx -> nth_error r (Z.to_nat (position out idx)) = Some (f idx)) -> r = map f (indices out).
Proof.
  intros A r f out P L H.
  assert (length r = length (map f (indices out))) as L2 by (rewrite map_length; pose proof (indices_length _ P); lia).
  apply nth_error_ext'. intro i. destruct (nth_error (indices out) i) as [idx|] eqn:E.
  - rewrite nth_error_map, E. cbn [option_map]. rewrite (indices_pos _ _ _ P E). apply H.
    apply indices_inside. eapply nth_error_In; eauto.
  - rewrite nth_error_map, E. cbn [option_map]. apply nth_error_None in E. apply nth_error_None. rewrite L2, map_length. auto.
Qed.
Lemma run_indices : forall out ss, proper out -> Forall (fun s => Forall2 fits (rext s (length out)) (rev out) /\ (length s <= length out)%nat) ss ->
  run out (map (fun s => (strides1 (rext s (length out)) 1 true, 0, size s)) ss) = Ok (map (fun idx => map (fun s => position s idx) ss) (indices out)).
Proof.
  intros out ss P F. destruct (run_nth out ss P F) as (r & E & L & H). rewrite E. f_equal. now apply by_indices.
Qed.
