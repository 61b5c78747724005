(** Theorems about MergeFlags, ZeroFlagger and ReplaceFlaggedValues. *)
From Verif Require Import Base Vel_Model Vel_Spec Vel_Proofs Vel_Arith Vel_Sums Vel_Thms Fun_Model Fun_Spec Fun_Flags Fun_Pert Flg_Model Flg_Spec Flg_Proofs.
Local Open Scope Z_scope.

Section Same.
Context {D C R : Type}.
(** the same numbers *)
Definition same_array {A} (a b : vells A) : Prop := v_shape a = v_shape b /\ v_data a = v_data b.
Definition same_numbers (a b : val D C) : Prop := match a, b with Re a, Re b => same_array a b | Cx a, Cx b => same_array a b | _, _ => False end.
(** the flags an array carries itself *)
Definition own_flags (v : val D C) : option (list Z * list Z) := match v with Re v => v_flags v | Cx v => v_flags v end.
(** only flags differ; if they do at all, the values carry the new ones *)
Definition only_flags (x x' : vellset D C R) : Prop :=
  x_rest x' = x_rest x /\
  (x' = x \/ exists g, x_flags x' = Some g /\
    match x_main x, x_main x' with Some v, Some v' => same_numbers v v' /\ own_flags v' = Some (v_shape g, v_data g) | None, None => True | _, _ => False end /\
    Forall2 (fun v v' => same_numbers v v' /\ own_flags v' = Some (v_shape g, v_data g)) (x_pert x) (x_pert x')).
Lemma carry_same : forall g v, same_numbers v (carry g v) /\ own_flags (carry g v) = Some (v_shape g, v_data g).
Proof. intros g [v|v]; cbn; split; auto; split; reflexivity. Qed.
Lemma upd_only : forall x x', upd x x' -> only_flags x x'.
Proof.
  intros x x' [->|(g & s & ->)]; [split; [reflexivity|now left]|]. split; [reflexivity|]. right. exists g. cbn. split; [reflexivity|]. split.
  - destruct (x_main x) as [v|]; cbn; [apply carry_same|exact Logic.I].
  - induction (x_pert x) as [|v l IH]; cbn; constructor; [apply carry_same|exact IH].
Qed.
End Same.

(** the masks in force: those set, or full masks *)
Definition masks_for (cur : list Z) (n : nat) (ms : list Z) : Prop := length ms = n /\ (cur = ms \/ (cur = [] /\ Forall (eq (-1)) ms)).
Lemma use_masks_for : forall cur n ms, masks_for cur n ms -> use_masks cur n = Ok ms.
Proof.
  intros cur n ms [L H]. unfold use_masks. destruct cur as [|c cur].
  - assert (ms = repeat (-1) n) as ->; [|reflexivity]. destruct H as [<-|[_ H]]; [cbn in L; subst; reflexivity|]. subst n. clear - H. induction H as [|? ? <- H IH]; cbn; congruence.
  - destruct H as [<-|[X _]]; [|discriminate]. rewrite L, Nat.eqb_refl. reflexivity.
Qed.
(** The masks a node gets: one number stands for all children, -1 for all flags; otherwise there is one per child. *)
Theorem masks_set : forall fm init n cur,
  (forall f, fm = Some [f] -> set_masks fm init n cur = Ok (repeat f n)) /\
  (forall l, fm = Some l -> length l <> 1%nat -> set_masks fm init n cur = if Nat.eqb (length l) n then Ok l else Err) /\
  (fm = None -> set_masks fm init n cur = Ok (if init then repeat (-1) n else cur)).
Proof.
  intros fm init n cur. split; [|split].
  - intros f ->. cbn. destruct (Z.eqb_spec f (-1)) as [->|]; [reflexivity|]. destruct (Z.eqb_spec f 0) as [->|]; reflexivity.
  - intros l -> H. destruct l as [|a [|b l]]; [reflexivity|cbn in H; congruence|reflexivity].
  - intros ->. destruct init; reflexivity.
Qed.

Section Thms.
Context {D C R : Type}.
Notation val := (val D C). Notation vellset := (vellset D C R). Notation fres := (fres D C R).
(** a Result whose flags can be spread over [full] *)
Definition flags_fit (full : list Z) (r : fres) : Prop := sized r /\ Forall (fun x => covered full x /\ flagged_ok full x) (f_vs r).

(** ** C114: merging the flags of several children *)
(** The result is that of the first child with more flags: a bit of an element is set exactly where that element has it, or where an
    element of another child that faces it has it and the child's mask has it.  Dimensions that do not match are refused. *)
Theorem merge_flags : forall full cur all c0 cs m0 ms, cs <> [] -> f_vs c0 <> [] -> masks_for cur (length (c0 :: cs)) (m0 :: ms) ->
  Forall (flags_fit full) (c0 :: cs) ->
  let clashing := exists k m c, nth_error ms k = Some m /\ nth_error cs k = Some c /\ m <> 0 /\ f_vs c <> [] /\ clash all (f_dims c0) (f_dims c) in
  let source i m y := exists k c j, nth_error ms k = Some m /\ nth_error cs k = Some c /\ nth_error (f_vs c) j = Some y /\ faces all (f_dims c0) (f_dims c) i j in
  (clashing -> merge_getResult cur all (c0 :: cs) = Err) /\
  (~ clashing -> exists r, merge_getResult cur all (c0 :: cs) = Ok r /\ f_dims r = f_dims c0 /\ length (f_vs r) = length (f_vs c0) /\
    forall i x, nth_error (f_vs c0) i = Some x -> exists x', nth_error (f_vs r) i = Some x' /\ only_flags x x' /\ covered full x' /\ flagged_ok full x' /\
      (x_flags x' = None <-> x_flags x = None /\ forall m y, source i m y -> m <> 0 -> x_flags y = None) /\
      forall idx b, inside full idx -> 0 <= b ->
        (Z.testbit (flags_at (x_flags x') idx) b = true <-> Z.testbit (flags_at (x_flags x) idx) b = true \/
         exists m y, source i m y /\ Z.testbit m b = true /\ Z.testbit (flags_at (x_flags y) idx) b = true)).
Proof.
  intros full cur all c0 cs m0 ms Ncs Nvs Mk F clashing source. apply Forall_cons_iff in F as [[Sz0 F0] F].
  assert (Lm : length ms = length cs) by (destruct Mk as [L _]; injection L as L; exact L).
  assert (Lv : length (f_vs c0) = fold_right Nat.mul 1%nat (f_dims c0)) by (destruct Sz0; [contradiction|assumption]).
  assert (Hc : forall c, In c cs -> sized c /\ Forall (flagged_ok full) (f_vs c)).
  { intros c Hc. rewrite Forall_forall in F. destruct (F c Hc) as [S1 S2]. split; [exact S1|]. eapply Forall_impl; [|exact S2]. intros y [_ H]. exact H. }
  assert (E0 : merge_getResult cur all (c0 :: cs) = bind (floop (merge_child all (f_dims c0)) (combine ms cs) (f_vs c0)) (fun vs => Ok {| f_dims := f_dims c0; f_vs := vs |})).
  { unfold merge_getResult. rewrite (use_masks_for _ _ _ Mk). cbn [bind]. destruct cs; [contradiction|]. destruct (f_vs c0); [contradiction|reflexivity]. }
  rewrite E0. split.
  - intros (k & m & c & H). rewrite (children_clash full all (f_dims c0) cs ms (f_vs c0) Lm F0 Nvs Lv Hc); [reflexivity|]. exists k, m, c. exact H.
  - intro Nc. destruct (children_ok full all (f_dims c0) cs ms (f_vs c0) Lm F0 Nvs Lv Hc) as (vs' & srcs & E & [L M] & I).
    { intros k m c H1 H2 H3 H4 H5. apply Nc. exists k, m, c. auto. }
    rewrite E. cbn [bind]. eexists. split; [reflexivity|]. cbn [f_dims f_vs]. split; [reflexivity|]. split; [exact L|].
    intros i x Hi. destruct (M i x Hi) as (x' & H1 & H2 & H3 & H4 & H5 & H6). exists x'. split; [exact H1|]. split; [now apply upd_only|]. split; [exact H3|]. split; [exact H4|].
    assert (Hlt : (i < length (f_vs c0))%nat) by (apply nth_error_Some; congruence). specialize (I i Hlt). split.
    + rewrite H5. split; intros [A B]; (split; [exact A|]).
      * intros m y (k & c & j & K1 & K2 & K3 & K4) Nm. destruct (x_flags y) as [f|] eqn:Ef; [|reflexivity]. exfalso. assert (In (m, f) (srcs i)) as X by (apply I; split; [exact Nm|]; exists k, c, j, y; auto). rewrite B in X. contradiction.
      * destruct (srcs i) as [|[m f] l]; [reflexivity|]. exfalso. destruct (proj1 (I m f) (or_introl eq_refl)) as (Nm & k & c & j & y & K1 & K2 & K3 & K4 & K5).
        rewrite (B m y) in K4; [discriminate| |exact Nm]. exists k, c, j. auto.
    + intros idx b Hidx Hb. rewrite H6 by exact Hidx. rewrite gather_bit by exact Hb. split; (intros [A|A]; [now left|right]).
      * destruct A as (m & f & A1 & A2 & A3). apply I in A1 as (Nm & k & c & j & y & K1 & K2 & K3 & K4 & K5). exists m, y. split; [exists k, c, j; auto|]. split; [exact A2|]. rewrite K4. exact A3.
      * destruct A as (m & y & (k & c & j & K1 & K2 & K3 & K4) & A2 & A3). destruct (x_flags y) as [f|] eqn:Ef; [|cbn in A3; rewrite Z.bits_0 in A3; discriminate].
        exists m, f. split; [|split; [exact A2|exact A3]]. apply I. split; [intros ->; rewrite Z.bits_0 in A2; discriminate|]. exists k, c, j, y. auto 10.
Qed.

(** ** C115: merging the flags of all elements of one child *)
Lemma set_all : forall full g (vs : list vellset), Forall (fun x => covered full x) vs -> good full g ->
  exists vs', floop (fun i vs => match nth_error vs i with Some x => bind (setDataFlags g x) (fun x => Ok (put vs i x)) | None => UB end) (seq 0 (length vs)) vs = Ok vs' /\
    Forall2 (fun x x' => x_flags x' = Some g /\ upd x x' /\ covered full x') vs vs'.
Proof.
  intros full g. assert (forall (vs pre : list vellset), Forall (covered full) vs -> good full g ->
    exists vs', floop (fun i vs => match nth_error vs i with Some x => bind (setDataFlags g x) (fun x => Ok (put vs i x)) | None => UB end) (seq (length pre) (length vs)) (pre ++ vs) = Ok (pre ++ vs') /\
    Forall2 (fun x x' => x_flags x' = Some g /\ upd x x' /\ covered full x') vs vs') as H; [|intros vs; exact (H vs [])].
  induction vs as [|x vs IH]; intros pre H G; [exists []; split; [reflexivity|constructor]|]. apply Forall_cons_iff in H as [Hx H]. cbn [length seq floop].
  rewrite nth_error_app2, Nat.sub_diag by lia. cbn [nth_error]. destruct (set_ok full g x Hx G) as (x' & E & Cx & Fx & U). rewrite E. cbn [bind].
  assert (Pt : put (pre ++ x :: vs) (length pre) x' = (pre ++ [x']) ++ vs) by (rewrite <- app_assoc; clear; induction pre as [|a pre IH]; cbn; [reflexivity|now rewrite IH]).
  rewrite Pt. destruct (IH (pre ++ [x']) H G) as (vs' & E2 & F2). rewrite app_length, Nat.add_1_r in E2. exists (x' :: vs'). split; [rewrite E2, <- app_assoc; reflexivity|]. constructor; auto.
Qed.
Lemma Forall2_at : forall {A B} (P : A -> B -> Prop) l m i x, Forall2 P l m -> nth_error l i = Some x -> exists y, nth_error m i = Some y /\ P x y.
Proof. intros A B P l m i x H. revert i. induction H; intros [|i] E; cbn in *; try discriminate; [injection E as <-; eauto|eauto]. Qed.
(** Elements of one child: all get the flags of all, masked; if there are none, or the mask is 0, nothing changes; nor does it if there
    is just one element. *)
Theorem merge_flags_one : forall full cur all c m, masks_for cur 1 [m] -> flags_fit full c ->
  exists r, merge_getResult cur all [c] = Ok r /\ f_dims r = f_dims c /\ length (f_vs r) = length (f_vs c) /\
    let live := (2 <= length (f_vs c))%nat /\ m <> 0 /\ exists x, In x (f_vs c) /\ x_flags x <> None in
    (~ live -> r = c) /\
    (live -> exists g, good full g /\
      (forall i x, nth_error (f_vs c) i = Some x -> exists x', nth_error (f_vs r) i = Some x' /\ only_flags x x' /\ x_flags x' = Some g) /\
      forall idx b, inside full idx -> 0 <= b ->
        (Z.testbit (flags_at (Some g) idx) b = true <-> Z.testbit m b = true /\ exists x, In x (f_vs c) /\ Z.testbit (flags_at (x_flags x) idx) b = true)).
Proof.
  intros full cur all c m Mk [Sz F]. unfold merge_getResult. cbn [length]. rewrite (use_masks_for _ _ _ Mk). cbn [bind].
  destruct (Nat.leb_spec (length (f_vs c)) 1) as [Le|Gt]; [exists c; split; [reflexivity|]; split; [reflexivity|]; split; [reflexivity|]; split; [reflexivity|intros [X _]; lia]|].
  destruct (Z.eq_dec m 0) as [->|Nm].
  { assert (floop (fun x r => match x_flags x with Some f => mergeFlags r f 0 | None => Ok r end) (f_vs c) None = Ok None) as ->.
    { clear. induction (f_vs c) as [|x l IH]; [reflexivity|]. cbn [floop]. destruct (x_flags x); cbn [bind mergeFlags]; exact IH. }
    cbn [bind]. exists c. split; [reflexivity|]. split; [reflexivity|]. split; [reflexivity|]. split; [reflexivity|intros (_ & X & _); contradiction]. }
  destruct (fold_ok full m (f_vs c) None Nm) as (r & Er & Gr & Nr & At); [eapply Forall_impl; [|exact F]; intros x [_ H]; exact H|exact Logic.I|]. rewrite Er. cbn [bind].
  assert (Src : forall m' f, In (m', f) (flat_map (src m) (f_vs c)) <-> m' = m /\ exists x, In x (f_vs c) /\ x_flags x = Some f).
  { intros m' f. rewrite in_flat_map. split; [intros (x & Hx & Hin); apply src_in in Hin as [-> Hf]; eauto|intros (-> & x & Hx & Hf); exists x; split; [exact Hx|apply src_in; auto]]. }
  destruct r as [g|].
  - destruct (set_all full g (f_vs c)) as (vs' & E & F2); [eapply Forall_impl; [|exact F]; intros x [H _]; exact H|exact Gr|]. rewrite E. cbn [bind]. eexists. split; [reflexivity|].
    cbn [f_dims f_vs]. split; [reflexivity|]. split; [symmetry; eapply Forall2_len, F2|]. split.
    + intro Nl. exfalso. apply Nl. split; [lia|]. split; [exact Nm|]. destruct (flat_map (src m) (f_vs c)) as [|[m' f] l] eqn:Es; [pose proof (proj2 Nr (conj eq_refl eq_refl)); discriminate|].
      destruct (proj1 (Src m' f) (or_introl eq_refl)) as (_ & x & Hx & Hf). exists x. split; [exact Hx|congruence].
    + intros _. exists g. split; [exact Gr|]. split.
      * intros i x Hi. destruct (Forall2_at _ _ _ _ _ F2 Hi) as (x' & Hx' & H1 & H2 & _). exists x'. split; [exact Hx'|]. split; [now apply upd_only|exact H1].
      * intros idx b Hidx Hb. rewrite (At idx Hidx), gather_bit by exact Hb. cbn [flags_at]. rewrite Z.bits_0. split.
        -- intros [X|(m' & f & H1 & H2 & H3)]; [discriminate|]. apply Src in H1 as (-> & x & Hx & Hf). split; [exact H2|]. exists x. rewrite Hf. auto.
        -- intros (H1 & x & Hx & H2). destruct (x_flags x) as [f|] eqn:Ef; [|cbn in H2; rewrite Z.bits_0 in H2; discriminate]. right. exists m, f. split; [apply Src; eauto|]. auto.
  - exists c. split; [reflexivity|]. split; [reflexivity|]. split; [reflexivity|]. split; [reflexivity|]. intros (_ & _ & x & Hx & Nx). exfalso. destruct (proj1 Nr eq_refl) as [_ Es].
    destruct (x_flags x) as [f|] eqn:Ef; [|contradiction]. assert (In (m, f) (flat_map (src m) (f_vs c))) as X by (apply Src; eauto). rewrite Es in X. contradiction.
Qed.

(** ** C116: flagging by comparison with zero *)
Variable sign : D -> option comparison.
Definition code (o : comparison_op) : oper :=
  match o with Equal => EQ | NotEqual => NE | Less => LT | Greater => GT | LessEqual => LE | GreaterEqual => GE end.
Lemma compares_holds : forall o d, compares sign (code o) d = true <-> holds o (sign d).
Proof. intros o d. unfold compares. destruct o; cbn; destruct (sign d) as [[]|]; intuition (try discriminate; try congruence); destruct H; discriminate. Qed.
Lemma lor_all : forall l z, fold_left Z.lor l z = 0 <-> z = 0 /\ Forall (eq 0) l.
Proof.
  induction l as [|a l IH]; intro z; cbn; [split; [auto|tauto]|]. rewrite IH, Z.lor_eq_0_iff, Forall_cons_iff. intuition.
Qed.
(** A VellSet with a real value.  If the comparison holds anywhere, the flags are the flag bit where it does and 0 elsewhere, whatever the
    flags were before; if it holds nowhere, the VellSet stays, or gets all-zero flags when output is forced. *)
Theorem zero_flagger : forall full o bit force (x : vellset) v, full <> [] -> covered full x -> x_main x = Some (Re v) -> usable (v_shape v) (v_data v) -> subshape (v_shape v) full ->
  exists x', zero_flag sign (code o) bit force x = Ok x' /\ only_flags x x' /\ covered full x' /\ (flagged_ok full x -> flagged_ok full x') /\
    let hit := bit <> 0 /\ exists d, In d (v_data v) /\ holds o (sign d) in
    (hit -> x_flags x' <> None /\ forall idx d, at_index (v_shape v) (v_data v) idx = Some d ->
       (holds o (sign d) -> flags_at (x_flags x') idx = bit) /\ (~ holds o (sign d) -> flags_at (x_flags x') idx = 0)) /\
    (~ hit -> if force then x_flags x' = Some (plain [1] [0]) else x' = x).
Proof.
  intros full o bit force x v Nf Cx Ex U Sv. unfold zero_flag. rewrite Ex. set (fl := map _ (v_data v)).
  assert (Efl : forall idx d, at_index (v_shape v) (v_data v) idx = Some d -> flag_at (v_shape v) fl idx = if compares sign (code o) d then bit else 0).
  { intros idx d H. unfold flag_at, at_index in *. unfold fl. rewrite nth_error_map, H. reflexivity. }
  assert (Hit : fold_left Z.lor fl 0 <> 0 <-> bit <> 0 /\ exists d, In d (v_data v) /\ holds o (sign d)).
  { rewrite lor_all. split.
    - intro N. assert (Ex1 : Exists (fun d => (if compares sign (code o) d then bit else 0) <> 0) (v_data v)).
      { apply Exists_exists. destruct (Forall_Exists_dec (eq 0) (Z.eq_dec 0) fl) as [A|A]; [exfalso; tauto|]. apply Exists_exists in A as (z & Hz & Nz). apply in_map_iff in Hz as (d & <- & Hd). exists d. split; [exact Hd|congruence]. }
      apply Exists_exists in Ex1 as (d & Hd & Nd). destruct (compares sign (code o) d) eqn:Ec; [|congruence]. split; [exact Nd|]. exists d. split; [exact Hd|]. now apply compares_holds.
    - intros (Nb & d & Hd & Hh) [_ A]. rewrite Forall_forall in A. apply compares_holds in Hh. apply Nb. symmetry. apply A. unfold fl. apply in_map_iff. exists d. now rewrite Hh. }
  assert (Gf : good full (plain (v_shape v) fl)).
  { split; [|exact Sv]. destruct U as [[U1 U2] U3]. split; [split; [exact U1|unfold fl; cbn; rewrite map_length; exact U2]|exact U3]. }
  assert (Gn : good full null_flags).
  { destruct full as [|a full]; [contradiction|]. split; [split; [split; [repeat constructor; lia|reflexivity]|cbn; lia]|]. split; [cbn; lia|]. intros [|[|k]]; now left. }
  assert (Body : forall op, op = code o -> match op with Other => Err | _ => if negb (fold_left Z.lor fl 0 =? 0) then setDataFlags (plain (v_shape v) fl) x else if force then setDataFlags null_flags x else Ok x end =
     if negb (fold_left Z.lor fl 0 =? 0) then setDataFlags (plain (v_shape v) fl) x else if force then setDataFlags null_flags x else Ok x).
  { intros op ->. destruct o; reflexivity. }
  rewrite (Body _ eq_refl). clear Body. destruct (Z.eqb_spec (fold_left Z.lor fl 0) 0) as [E0|N0]; cbn [negb].
  - assert (Nh : ~ (bit <> 0 /\ exists d, In d (v_data v) /\ holds o (sign d))) by (rewrite <- Hit; tauto). destruct force.
    + unfold setDataFlags, adjustShape. change (isScalar null_flags) with true. cbn [bind]. eexists. split; [reflexivity|]. split; [apply upd_only; right; eauto|]. split; [exact Cx|].
      split; [intros _; exact Gn|]. split; [tauto|]. intros _. reflexivity.
    + exists x. split; [reflexivity|]. split; [split; [reflexivity|now left]|]. split; [exact Cx|]. split; [auto|]. split; [tauto|]. intros _. reflexivity.
  - destruct (set_ok full (plain (v_shape v) fl) x Cx Gf) as (x' & E & C' & F' & Up). exists x'. split; [exact E|]. split; [now apply upd_only|]. split; [exact C'|].
    split; [intros _; unfold flagged_ok; rewrite F'; exact Gf|]. split; [|intro X; exfalso; apply X, Hit; exact N0].
    intros _. split; [congruence|]. intros idx d Hd. rewrite F'. cbn [flags_at plain v_shape v_data]. rewrite (Efl idx d Hd). rewrite <- compares_holds. destruct (compares sign (code o) d); split; congruence.
Qed.
Lemma hit_dec : forall o bit (l : list D), (bit <> 0 /\ exists d, In d l /\ holds o (sign d)) \/ ~ (bit <> 0 /\ exists d, In d l /\ holds o (sign d)).
Proof.
  intros o bit l. destruct (Z.eq_dec bit 0); [right; tauto|]. destruct (existsb (compares sign (code o)) l) eqn:Eb.
  - left. split; [assumption|]. apply existsb_exists in Eb as (d' & A & B). exists d'. split; [exact A|]. now apply compares_holds.
  - right. intros (_ & d' & A & B). apply compares_holds in B. assert (existsb (compares sign (code o)) l = true) by (apply existsb_exists; eauto). congruence.
Qed.
Lemma null_at : forall idx, flags_at (Some (plain [1] [0])) idx = 0.
Proof. intro idx. cbn [flags_at plain v_shape v_data]. unfold flag_at. destruct (at_index [1] [0] idx) as [z|] eqn:Ea; [|reflexivity]. unfold at_index in Ea. apply nth_error_In in Ea. destruct Ea as [<-|[]]. reflexivity. Qed.
(** what the comparison contributes to the flags at a point *)
Definition contribution (o : comparison_op) (bit : Z) (v : vells D) (idx : list Z) (z : Z) : Prop :=
  exists d, at_index (v_shape v) (v_data v) idx = Some d /\ ((holds o (sign d) /\ z = bit) \/ (~ holds o (sign d) /\ z = 0)).
Lemma value_at : forall full (v : vells D) idx, usable (v_shape v) (v_data v) -> subshape (v_shape v) full -> inside full idx -> exists d, at_index (v_shape v) (v_data v) idx = Some d.
Proof.
  intros full v idx U S I. assert (P : proper (v_shape v)) by apply U. destruct (restrict (v_shape v) full idx P S I) as (idx' & I1 & I2).
  specialize (I2 (v_shape v) 0 (le_n _) (fun _ H => H)). destruct (nth_error (v_data v) (Z.to_nat (position (v_shape v) idx))) as [d|] eqn:E; [exists d; exact E|]. exfalso.
  apply nth_error_None in E. unfold position in E. rewrite I2 in E. destruct U as [[_ L] _].
  pose proof (position_bound _ _ I1) as B. unfold position in B. lia.
Qed.
(** On VellSets without flags the node does what it says: the flag bit where the comparison holds, nothing elsewhere.  Missing from the
    full property: VellSets with flags, which are lost (refuted below). *)
Theorem zero_flagger_partial : forall full o bit force (x : vellset) v, full <> [] -> covered full x -> x_main x = Some (Re v) -> usable (v_shape v) (v_data v) -> subshape (v_shape v) full ->
  x_flags x = None ->
  exists x', zero_flag sign (code o) bit force x = Ok x' /\ only_flags x x' /\ forall idx, inside full idx -> contribution o bit v idx (flags_at (x_flags x') idx).
Proof.
  intros full o bit force x v Nf Cx Ex U Sv Nx. destruct (zero_flagger full o bit force x v Nf Cx Ex U Sv) as (x' & E & Of & _ & _ & H1 & H2). exists x'. split; [exact E|]. split; [exact Of|].
  intros idx I. destruct (value_at full v idx U Sv I) as (d & Hd). exists d. split; [exact Hd|].
  assert (Hin : In d (v_data v)) by (eapply nth_error_In; exact Hd).
  assert (Dh : holds o (sign d) \/ ~ holds o (sign d)) by (rewrite <- compares_holds; destruct (compares sign (code o) d); auto).
  pose proof (hit_dec o bit (v_data v)) as Dec.
  destruct Dec as [Y|N].
  - destruct (H1 Y) as [_ H]. destruct (H idx d Hd) as [A B]. destruct Dh as [Dh|Dh]; [left; auto|right; auto].
  - specialize (H2 N). assert (flags_at (x_flags x') idx = 0) as ->.
    { destruct force; [rewrite H2; apply null_at|subst x'; rewrite Nx; reflexivity]. }
    destruct Dh as [Dh|Dh]; [left|right; auto]. split; [exact Dh|]. destruct (Z.eq_dec bit 0); [auto|]. exfalso. apply N. eauto.
Qed.
(** ** C117: MergeFlags of X and ZeroFlagger of X *)
Lemma mapr_at : forall {A B} (f : A -> res B) l m, mapr f l = Ok m -> length m = length l /\ forall i x, nth_error l i = Some x -> exists y, nth_error m i = Some y /\ f x = Ok y.
Proof.
  intros A B f. induction l as [|a l IH]; intros m H; cbn in H; [injection H as <-; split; [reflexivity|intros [|i]; discriminate]|].
  destruct (f a) as [b| |] eqn:Ea; cbn in H; try discriminate. destruct (mapr f l) as [r| |]; cbn in H; try discriminate. injection H as <-. destruct (IH r eq_refl) as [L N].
  split; [cbn; congruence|]. intros [|i] x Hi; cbn in *; [injection Hi as <-; eauto|eauto].
Qed.
(** Together with MergeFlags the flags become what was promised: the old flags or-ed with the flag bit where the comparison holds. *)
Theorem merge_zero_flagger : forall full o bit force c, full <> [] -> flags_fit full c -> f_vs c <> [] ->
  Forall (fun x => match x_main x with Some (Cx _) => False | Some (Re v) => usable (v_shape v) (v_data v) /\ subshape (v_shape v) full | None => True end) (f_vs c) ->
  exists z r, zero_getResult sign (code o) bit force c = Ok z /\ merge_getResult [] false [c; z] = Ok r /\
    length (f_vs r) = length (f_vs c) /\
    forall i x, nth_error (f_vs c) i = Some x -> exists x', nth_error (f_vs r) i = Some x' /\ only_flags x x' /\
      forall idx, inside full idx ->
        match x_main x with
        | Some (Re v) => exists z, contribution o bit v idx z /\ forall b, 0 <= b -> Z.testbit (flags_at (x_flags x') idx) b = Z.testbit (flags_at (x_flags x) idx) b || Z.testbit z b
        | _ => forall b, 0 <= b -> Z.testbit (flags_at (x_flags x') idx) b = Z.testbit (flags_at (x_flags x) idx) b
        end.
Proof.
  intros full o bit force c Nf [Sz F] Nc Rv.
  assert (Zf : forall x, In x (f_vs c) -> exists y, zero_flag sign (code o) bit force x = Ok y /\ covered full y /\ flagged_ok full y).
  { intros x Hx. rewrite Forall_forall in F, Rv. destruct (F x Hx) as [Cv Fl]. specialize (Rv x Hx). destruct (x_main x) as [[v|v]|] eqn:Em; [|contradiction|].
    - destruct Rv as [U Sv]. destruct (zero_flagger full o bit force x v Nf Cv Em U Sv) as (y & E & _ & C' & F' & _). exists y. auto.
    - exists x. unfold zero_flag. rewrite Em. auto. }
  assert (Zl : forall l, (forall x, In x l -> In x (f_vs c)) -> exists m, mapr (zero_flag sign (code o) bit force) l = Ok m /\ Forall (fun y => covered full y /\ flagged_ok full y) m).
  { induction l as [|x l IH]; intro H; [exists []; split; [reflexivity|constructor]|]. destruct (Zf x (H x (or_introl eq_refl))) as (y & E & Y). destruct (IH (fun a b => H a (or_intror b))) as (m & Em & Fm).
    exists (y :: m). cbn [mapr]. rewrite E. cbn [bind]. rewrite Em. cbn [bind]. split; [reflexivity|]. constructor; assumption. }
  destruct (Zl (f_vs c) (fun _ H => H)) as (zs & Ez & Fz). destruct (mapr_at _ _ _ Ez) as [Lz Nz].
  set (z := {| f_dims := f_dims c; f_vs := zs |}). exists z.
  destruct (merge_flags full [] false c [z] (-1) [-1]) as [_ M]; [discriminate|exact Nc|split; [reflexivity|right; split; [reflexivity|repeat constructor]]| |].
  { constructor; [split; assumption|]. constructor; [|constructor]. split; [|exact Fz]. destruct Sz as [X|Sz]; [contradiction|right; cbn; congruence]. }
  destruct M as (r & Er & Dr & Lr & Mr).
  { intros (k & m & c' & _ & K2 & _ & _ & (_ & X & _)). destruct k as [|k]; [cbn in K2; injection K2 as <-; apply X; reflexivity|destruct k; discriminate]. }
  exists r. split; [unfold zero_getResult; rewrite Ez; reflexivity|]. split; [exact Er|]. split; [exact Lr|].
  intros i x Hi. destruct (Mr i x Hi) as (x' & X1 & X2 & _ & _ & _ & X3). exists x'. split; [exact X1|]. split; [exact X2|]. intros idx I.
  destruct (Nz i x Hi) as (y & Hy & Ey).
  assert (B : forall b, 0 <= b -> Z.testbit (flags_at (x_flags x') idx) b = Z.testbit (flags_at (x_flags x) idx) b || Z.testbit (flags_at (x_flags y) idx) b).
  { intros b Hb. apply eq_true_iff_eq. rewrite orb_true_iff, (X3 idx b I Hb). split; (intros [A|A]; [now left|right]).
    - destruct A as (m & y' & (k & c' & j & K1 & K2 & K3 & K4) & _ & A). destruct k as [|k]; [|destruct k; discriminate]. cbn in K2. injection K2 as <-. unfold faces in K4. cbn [f_dims z] in K4.
      destruct K4 as [K4|[[_ <-]|[K4 _]]]; [discriminate| |contradiction]. cbn [f_vs z] in K3. congruence.
    - exists (-1), y. split; [exists 0%nat, z, i; split; [reflexivity|]; split; [reflexivity|]; split; [exact Hy|]; right; left; auto|]. split; [apply Z.bits_m1; exact Hb|exact A]. }
  rewrite Forall_forall in F, Rv. pose proof (nth_error_In _ _ Hi) as Hin. destruct (F x Hin) as [Cv _]. specialize (Rv x Hin).
  destruct (x_main x) as [[v|v]|] eqn:Em; [|contradiction|].
  - destruct Rv as [U Sv]. destruct (zero_flagger full o bit force x v Nf Cv Em U Sv) as (y' & E' & _ & _ & _ & H1 & H2). assert (y' = y) as -> by congruence.
    destruct (value_at full v idx U Sv I) as (d & Hd). assert (Hd' : In d (v_data v)) by (eapply nth_error_In; exact Hd).
    exists (if compares sign (code o) d then bit else 0). split.
    + exists d. split; [exact Hd|]. rewrite <- compares_holds. destruct (compares sign (code o) d); [left|right]; split; auto; discriminate.
    + intros b Hb. rewrite B by exact Hb. destruct (hit_dec o bit (v_data v)) as [Y|N].
      * destruct (H1 Y) as [_ H]. destruct (H idx d Hd) as [A1 A2]. rewrite <- compares_holds in A1, A2. destruct (compares sign (code o) d); [rewrite A1 by reflexivity|rewrite A2 by discriminate]; reflexivity.
      * assert (Zc : (if compares sign (code o) d then bit else 0) = 0).
        { destruct (compares sign (code o) d) eqn:Ec; [|reflexivity]. destruct (Z.eq_dec bit 0); [assumption|]. exfalso. apply N. split; [assumption|]. exists d. split; [exact Hd'|]. now apply compares_holds. }
        rewrite Zc, Z.bits_0, orb_false_r. specialize (H2 N). destruct force; [rewrite H2, null_at, Z.bits_0; apply orb_false_r|rewrite H2; apply orb_diag].
  - unfold zero_flag in Ey. rewrite Em in Ey. injection Ey as <-. intros b Hb. rewrite B by exact Hb. apply orb_diag.
Qed.
End Thms.

(** ** C118: replacing flagged values *)
Section Replace.
Context {D C P E : Type}.
Notation val := (val D C). Notation vdata := (vdata val P).
Variable isNull : val -> bool.
Variable compat : val -> bool.
Variable accepts : option (vells Z) -> list val -> val -> bool.
Variable pert_eqb : P -> P -> bool.
Variable perturb : E -> Z -> P -> E.
Variable delta : nat -> Z -> P.
Variable n : nat.
Variable e : E.
Definition array_at {A} (v : vells A) (idx : list Z) : option A := at_index (v_shape v) (v_data v) idx.
(** [w] is [v] with the marked points replaced *)
Definition replaced_array {A} (full : list Z) (mark : list Z -> Prop) (a : A) (v w : vells A) : Prop :=
  v_shape w = v_shape v /\ forall idx, inside full idx -> (mark idx -> array_at w idx = Some a) /\ (~ mark idx -> array_at w idx = array_at v idx).
Definition replaced (full : list Z) (mark : list Z -> Prop) (re : D) (cx : C) (v w : val) : Prop :=
  match v, w with Re v, Re w => replaced_array full mark re v w | Cx v, Cx w => replaced_array full mark cx v w | _, _ => False end.
Definition shape_of (v : val) : list Z := match v with Re v => v_shape v | Cx v => v_shape v end.
Definition array_ok (v : val) : Prop := match v with Re v => usable (v_shape v) (v_data v) | Cx v => usable (v_shape v) (v_data v) end.

Lemma bits_nonzero : forall z, z <> 0 <-> exists b, 0 <= b /\ Z.testbit z b = true.
Proof.
  intro z. split.
  - intro N. destruct (Z_lt_le_dec z 0) as [Lt|Ge].
    + exists (Z.log2 (Z.pred (- z)) + 1). split; [pose proof (Z.log2_nonneg (Z.pred (- z))); lia|]. apply Z.bits_above_log2_neg; lia.
    + exists (Z.log2 z). split; [apply Z.log2_nonneg|]. apply Z.bit_log2. lia.
  - intros (b & _ & H) ->. rewrite Z.bits_0 in H. discriminate.
Qed.
Lemma replaceFlagged_points : forall {A} full (mark : list Z -> Prop) (a : A) (v : vells A) (f : vells Z) w, usable (v_shape v) (v_data v) -> subshape (v_shape v) full -> good full f ->
  (forall idx, inside full idx -> flag_at (v_shape f) (v_data f) idx <> 0 <-> mark idx) ->
  replaceFlagged v (v_shape f) (v_data f) a VellsFullFlagMask = Ok w -> replaced_array full mark a v (plain (v_shape w) (v_data w)).
Proof.
  intros A full mark a v f w U Sv [Uf Sf] Mk H. assert (Pv : proper (v_shape v)) by apply U.
  pose proof (subshape_broadcast _ _ _ Sv Sf) as Br.
  destruct (flagged_values_replaced A v (v_shape f) (v_data f) a VellsFullFlagMask U Uf Br) as [R1 R2].
  assert (Dec : subshape (v_shape f) (v_shape v) \/ ~ subshape (v_shape f) (v_shape v)).
  { unfold subshape. destruct (le_dec (length (v_shape f)) (length (v_shape v))) as [L|L]; [|right; tauto].
    assert (Q : (forall k, In k (seq 0 (length (v_shape f))) -> ext (v_shape f) k = 1 \/ ext (v_shape f) k = ext (v_shape v) k) \/ ~ (forall k, ext (v_shape f) k = 1 \/ ext (v_shape f) k = ext (v_shape v) k)).
    { induction (seq 0 (length (v_shape f))) as [|k l IH]; [left; intros k []|]. destruct IH as [IH|IH]; [|now right].
      destruct (Z.eq_dec (ext (v_shape f) k) 1) as [E1|E1]; [left; intros k' [<-|H']; auto|]. destruct (Z.eq_dec (ext (v_shape f) k) (ext (v_shape v) k)) as [E2|E2]; [left; intros k' [<-|H']; auto|].
      right. intro X. destruct (X k); contradiction. }
    destruct Q as [Q|Q]; [left|right; tauto]. split; [exact L|]. intro k. destruct (lt_dec k (length (v_shape f))) as [Hk|Hk]; [apply Q, in_seq; lia|]. left. unfold ext. apply nth_overflow. lia. }
  destruct Dec as [Sub|Nsub]; [|rewrite (R2 Nsub) in H; discriminate]. destruct (R1 Sub) as (r & Er & Sr & _ & _ & At). rewrite H in Er. injection Er as <-.
  split; [exact Sr|]. intros idx I. destruct (restrict (v_shape v) full idx Pv Sv I) as (idx' & I1 & I2).
  assert (Vx : array_at v idx = array_at v idx') by (unfold array_at, at_index, position; now rewrite (I2 (v_shape v) 0 (le_n _) (fun _ X => X))).
  assert (Wx : array_at (plain (v_shape w) (v_data w)) idx = array_at (plain (v_shape w) (v_data w)) idx') by (unfold array_at, at_index, position; cbn; rewrite Sr; now rewrite (I2 (v_shape v) 0 (le_n _) (fun _ X => X))).
  assert (Fx : flag_at (v_shape f) (v_data f) idx = flag_at (v_shape f) (v_data f) idx').
  { unfold flag_at, at_index, position. rewrite (I2 (v_shape f) 0); [reflexivity|apply Sub|]. intros k Hk. destruct Sub as [_ Sub]. destruct (Sub k) as [X|X]; congruence. }
  specialize (At idx' I1). specialize (Mk idx I). rewrite Fx in Mk. rewrite Vx, Wx. unfold array_at. cbn [plain v_shape v_data]. rewrite At. unfold clear, VellsFullFlagMask. rewrite Z.land_m1_r.
  destruct (Z.eqb_spec (flag_at (v_shape f) (v_data f) idx') 0) as [Z0|Z0]; [split; [intro X; apply Mk in X; contradiction|reflexivity]|split; [reflexivity|tauto]].
Qed.

(** The points marked for replacement: those where a child other than the first has flags that its mask lets through, unless its value is
    identically zero and has no spids. *)
Definition marked (ds : list (option vdata)) (ms : list Z) (idx : list Z) : Prop :=
  exists i d f m b, nth_error ds i = Some (Some d) /\ d_flags d = Some f /\ counts isNull d /\ nth_error ms i = Some m /\
    0 <= b /\ Z.testbit m b = true /\ Z.testbit (flag_at (v_shape f) (v_data f) idx) b = true.
(** The result has the flags of the first child, and as main value and perturbed values those of the first child with the marked points
    replaced. *)
Theorem replace_flagged : forall full re cx d0 ds m0 ms f0 fs d,
  Forall2 (rel perturb delta n e) (Some d0 :: ds) (f0 :: fs) -> length ms = length ds ->
  (forall d' f, In (Some d') ds -> d_flags d' = Some f -> good full f) ->
  (forall e' v, f0 e' = Some v -> array_ok v /\ subshape (shape_of v) full) ->
  replace_compute isNull compat accepts pert_eqb re cx (Some d0 :: ds) (map (fun f => f e) (f0 :: fs)) (m0 :: ms) = Ok d ->
  d_flags d = d_flags d0 /\ d_value d <> None /\
  exists g, tells perturb delta n e d g /\ forall e' w, g e' = Some w -> exists v, f0 e' = Some v /\ replaced full (marked ds ms) re cx v w.
Proof.
  intros full re cx d0 ds m0 ms f0 fs d Rl Lm Gf G0 H.
  destruct (evaluateFlags_spread isNull full ds ms None) as (fl & Ef & Gfl & Nfl & At); [lia|intros d' f A B _; eauto|exact Logic.I|].
  assert (E1 : replace_compute isNull compat accepts pert_eqb re cx (Some d0 :: ds) (map (fun f => f e) (f0 :: fs)) (m0 :: ms) =
               compute_with compat accepts pert_eqb (replace_eval re cx fl) (Some d0 :: ds) (map (fun f => f e) (f0 :: fs)) (d_flags d0)).
  { unfold replace_compute, compute_with. destruct (findSpids (Some d0 :: ds)) as [np sp]. cbn [replace_flags]. rewrite Ef. cbn [bind]. reflexivity. }
  rewrite E1 in H. pose proof (compute_with_ok False True isNull compat accepts pert_eqb (replace_eval re cx fl) perturb delta n e ltac:(tauto) ltac:(tauto) ltac:(tauto) (d_flags d0) (Some d0 :: ds) (f0 :: fs) Rl) as K.
  rewrite H in K. cbn [spec] in K. destruct K as (T & Nv & Fd).
  { destruct (replace_eval _ _ _ _); cbn; tauto. } { intros s k _. destruct (replace_eval _ _ _ _); cbn; tauto. }
  split; [exact Fd|]. split; [exact Nv|]. eexists. split; [exact T|].
  intros e' w Hw. unfold made in Hw. cbn [map] in Hw. destruct (f0 e') as [v|] eqn:Ev; [|discriminate]. exists v. split; [reflexivity|]. destruct (G0 e' v Ev) as [Av Sv].
  cbn [replace_eval] in Hw. destruct fl as [f|].
  - assert (Mk : forall idx, inside full idx -> flag_at (v_shape f) (v_data f) idx <> 0 <-> marked ds ms idx).
    { intros idx I. rewrite bits_nonzero. split.
      - intros (b & Hb & B). destruct (proj1 (At idx b I Hb) B) as [X|(i & d' & f' & m & X1 & X2 & X3 & X4 & X5 & X6)]; [cbn in X; rewrite Z.bits_0 in X; discriminate|]. exists i, d', f', m, b. auto 10.
      - intros (i & d' & f' & m & b & X1 & X2 & X3 & X4 & Hb & X5 & X6). exists b. split; [exact Hb|]. apply (At idx b I Hb). right. exists i, d', f', m. auto 10. }
    destruct v as [v|v]; cbn [array_ok shape_of] in Av, Sv; (destruct (replaceFlagged v _ _ _ _) as [r| |] eqn:Er; cbn [bind] in Hw; try discriminate; injection Hw as <-; cbn [replaced]; eapply replaceFlagged_points; eassumption).
  - injection Hw as <-. assert (Nm : forall idx, inside full idx -> ~ marked ds ms idx).
    { intros idx I (i & d' & f' & m & b & X1 & X2 & X3 & X4 & Hb & X5 & X6). destruct (proj1 Nfl eq_refl) as [_ X]. rewrite (X i d' f' m X1 X2 X3 X4), Z.bits_0 in X5. discriminate. }
    destruct v as [v|v]; cbn [replaced]; (split; [reflexivity|]; intros idx I; split; [intro M; destruct (Nm idx I M)|reflexivity]).
Qed.
(** It succeeds if the values of the first child vary along all axes. *)
Theorem replace_succeeds : forall full re cx d0 ds m0 ms f0 fs,
  (forall v, compat v = true) -> (forall f l v, accepts f l v = true) -> (forall p, pert_eqb p p = true) ->
  Forall2 (rel perturb delta n e) (Some d0 :: ds) (f0 :: fs) -> length ms = length ds ->
  (forall d' f, In (Some d') ds -> d_flags d' = Some f -> good full f) ->
  (forall e', exists v, f0 e' = Some v /\ array_ok v /\ shape_of v = full) ->
  exists d, replace_compute isNull compat accepts pert_eqb re cx (Some d0 :: ds) (map (fun f => f e) (f0 :: fs)) (m0 :: ms) = Ok d.
Proof.
  intros full re cx d0 ds m0 ms f0 fs Cc Ca Ce Rl Lm Gf G0.
  destruct (evaluateFlags_spread isNull full ds ms None) as (fl & Ef & Gfl & Nfl & At); [lia|intros d' f A B _; eauto|exact Logic.I|].
  assert (E1 : replace_compute isNull compat accepts pert_eqb re cx (Some d0 :: ds) (map (fun f => f e) (f0 :: fs)) (m0 :: ms) =
               compute_with compat accepts pert_eqb (replace_eval re cx fl) (Some d0 :: ds) (map (fun f => f e) (f0 :: fs)) (d_flags d0)).
  { unfold replace_compute, compute_with. destruct (findSpids (Some d0 :: ds)) as [np sp]. cbn [replace_flags]. rewrite Ef. cbn [bind]. reflexivity. }
  assert (Ev : forall e' l, exists w, replace_eval re cx fl (f0 e' :: l) = Ok w).
  { intros e' l. destruct (G0 e') as (v & -> & Av & Sv). cbn [replace_eval]. destruct fl as [f|]; [|eauto]. destruct Gfl as [Uf Sf].
    destruct v as [v|v]; cbn [array_ok shape_of] in Av, Sv; subst full.
    - destruct (flagged_values_replaced D v (v_shape f) (v_data f) re VellsFullFlagMask Av Uf) as [R1 _]; [eapply subshape_broadcast; [split; [apply le_n|intro k; right; reflexivity]|exact Sf]|].
      destruct (R1 Sf) as (r & -> & _). cbn [bind]. eauto.
    - destruct (flagged_values_replaced C v (v_shape f) (v_data f) cx VellsFullFlagMask Av Uf) as [R1 _]; [eapply subshape_broadcast; [split; [apply le_n|intro k; right; reflexivity]|exact Sf]|].
      destruct (R1 Sf) as (r & -> & _). cbn [bind]. eauto. }
  rewrite E1. pose proof (compute_with_ok True False isNull compat accepts pert_eqb (replace_eval re cx fl) perturb delta n e ltac:(tauto) ltac:(tauto) ltac:(tauto) (d_flags d0) (Some d0 :: ds) (f0 :: fs) Rl) as K.
  assert (K' : spec True False (compute_with compat accepts pert_eqb (replace_eval re cx fl) (Some d0 :: ds) (map (fun f => f e) (f0 :: fs)) (d_flags d0)) (fun _ => True)).
  { eapply spec_imp; [apply K|auto].
    - destruct (Ev e (map (fun f => f e) fs)) as (w & Hw). cbn [map]. rewrite Hw. exact Logic.I.
    - intros s k _. unfold row_at. cbn [map]. match goal with |- spec _ _ (replace_eval _ _ _ (_ ?x :: ?l)) _ => destruct (Ev x l) as (w & Hw); rewrite Hw end. exact Logic.I. }
  destruct (compute_with compat accepts pert_eqb (replace_eval re cx fl) _ _ _) as [d| |]; [eauto|exfalso; apply K'; exact Logic.I|contradiction].
Qed.
End Replace.

(** ** What the nodes do not do *)
Notation uset := (vellset unit unit unit).
Definition uflags (f : option (vells Z)) : uset := {| x_shape := []; x_flags := f; x_main := None; x_pert := []; x_rest := tt |}.
Definition utensor (l : list (option (vells Z))) : fres unit unit unit := {| f_dims := match l with [_] => [] | _ => [length l] end; f_vs := map uflags l |}.
Lemma utensor_fit : forall full l, Forall (fun o => match o with Some g => good full g | None => True end) l -> flags_fit full (utensor l).
Proof.
  intros full l H. split.
  - right. unfold utensor. cbn [f_vs f_dims]. rewrite map_length. destruct l as [|a [|b l]]; cbn; lia.
  - unfold utensor. cbn [f_vs]. induction H as [|o l Ho H IH]; cbn [map]; constructor; [|exact IH]. split; [|exact Ho].
    split; [constructor|]. split; [cbn; lia|]. intro k. left. unfold ext. cbn. now destruct k.
Qed.
Lemma good4 : forall z, good [2] (plain [2] [z; 0]).
Proof. intro z. split; [split; [split; [repeat constructor; lia|reflexivity]|cbn; lia]|]. split; [cbn; lia|]. intro k. now right. Qed.
(** The flags of a child are not always masked by its mask: those of the first child never are if there are others, and those of a
    single child are not if it has one element, or if the mask is 0. *)
Theorem merge_flags_mask_refuted : ~ (forall full (D C R : Type) masks all (cs : list (fres D C R)) r i x idx b,
  length masks = length cs -> Forall (flags_fit full) cs -> merge_getResult masks all cs = Ok r -> nth_error (f_vs r) i = Some x -> inside full idx -> 0 <= b ->
  Z.testbit (flags_at (x_flags x) idx) b = true ->
  exists k m c j y, nth_error masks k = Some m /\ nth_error cs k = Some c /\ nth_error (f_vs c) j = Some y /\ Z.testbit m b = true /\ Z.testbit (flags_at (x_flags y) idx) b = true).
Proof.
  intro H. set (c := utensor [Some (plain [2] [4; 0])]). set (c2 := utensor [None]).
  destruct (H [2] unit unit unit [1; -1] false [c; c2] c 0%nat (uflags (Some (plain [2] [4; 0]))) [0] 2) as (k & m & c' & j & y & K1 & K2 & K3 & K4 & K5).
  - reflexivity.
  - constructor; [apply utensor_fit; constructor; [apply good4|constructor]|]. constructor; [apply utensor_fit; repeat constructor|constructor].
  - reflexivity.
  - reflexivity.
  - repeat constructor; lia.
  - lia.
  - reflexivity.
  - destruct k as [|[|[|k]]]; cbn in K1, K2; try discriminate.
    + injection K1 as <-. discriminate.
    + injection K2 as <-. destruct j as [|[|j]]; cbn in K3; try discriminate. injection K3 as <-. discriminate.
Qed.
Definition flags_of {D C R} (r : res (fres D C R)) : res (list (option (vells Z))) := bind r (fun r => Ok (map x_flags (f_vs r))).
Example merge_mask_one : merge_getResult [1] false [utensor [Some (plain [2] [4; 0])]] = Ok (utensor [Some (plain [2] [4; 0])]) /\
  merge_getResult [0] false [utensor [Some (plain [2] [4; 0]); None]] = Ok (utensor [Some (plain [2] [4; 0]); None]) /\
  flags_of (merge_getResult [1] false [utensor [Some (plain [2] [5; 0]); Some (plain [2] [0; 3])]]) = Ok [Some (plain [2] [1; 1]); Some (plain [2] [1; 1])].
Proof. split; [|split]; vm_compute; reflexivity. Qed.
(** two elements; a child of two elements with mask 6, a scalar child, and the first two the other way round *)
Example merge_several :
  let two := utensor [Some (plain [2] [1; 0]); None] in let other := utensor [None; Some (plain [1; 3] [2; 9; 4])] in let one := utensor [Some (plain [2] [0; 8])] in
  flags_of (merge_getResult [1; 6; -1] false [two; other; one]) = Ok [Some (plain [2] [1; 8]); Some (plain [2; 3] [2; 0; 4; 10; 8; 12])] /\
  flags_of (merge_getResult [] true [two; other]) = Ok [Some (plain [2; 3] [3; 9; 5; 2; 9; 4]); Some (plain [1; 3] [2; 9; 4])] /\
  flags_of (merge_getResult [] false [one; two; other]) = Ok [Some (plain [2; 3] [3; 9; 5; 10; 9; 12])] /\
  merge_getResult [] false [two; utensor [None; None; None]] = Err /\
  flags_of (merge_getResult [1; 0] false [two; utensor [None; None; None]]) = Ok [Some (plain [2] [1; 0]); None].
Proof. split; [|split; [|split; [|split]]]; vm_compute; reflexivity. Qed.

(** numbers for the examples *)
Definition zsign (d : Z) : option comparison := Some (d ?= 0).
Definition zset (f : option (vells Z)) (v : vells Z) : vellset Z Z unit := {| x_shape := v_shape v; x_flags := f; x_main := Some (Re v); x_pert := []; x_rest := tt |}.
(** "This value is ORed with the flags at all points where the main value OPER 0 is true" (ZeroFlagger.h:45-47): a flag that was there is
    lost as soon as the comparison holds somewhere, even elsewhere. *)
Theorem zero_flagger_refuted : ~ (forall full (D C R : Type) sign o bit force (x x' : vellset D C R) v idx b, full <> [] -> covered full x -> flagged_ok full x -> x_main x = Some (Re v) ->
  usable (v_shape v) (v_data v) -> subshape (v_shape v) full -> zero_flag sign (code o) bit force x = Ok x' -> inside full idx -> 0 <= b ->
  Z.testbit (flags_at (x_flags x) idx) b = true -> Z.testbit (flags_at (x_flags x') idx) b = true).
Proof.
  intro H. set (v := plain [2] [0; 5]). set (x := zset (Some (plain [2] [4; 0])) v).
  assert (U : usable (v_shape v) (v_data v)) by (split; [split; [repeat constructor; lia|reflexivity]|cbn; lia]).
  assert (Sv : subshape [2] [2]) by (split; [cbn; lia|intro k; now right]).
  destruct (zero_flagger (C := Z) (R := unit) zsign [2] NotEqual 1 false x v ltac:(discriminate) (conj (proj1 (proj1 U)) Sv) eq_refl U Sv) as (x' & E & _).
  pose proof (H [2] Z Z unit zsign NotEqual 1 false x x' v [0] 2 ltac:(discriminate) (conj (proj1 (proj1 U)) Sv) (good4 4) eq_refl U Sv E ltac:(repeat constructor; lia) ltac:(lia) eq_refl) as K.
  assert (E2 : bind (zero_flag zsign (code NotEqual) 1 false x) (fun x => Ok (x_flags x)) = Ok (Some (plain [2] [0; 1]))) by (vm_compute; reflexivity).
  rewrite E in E2. cbn [bind] in E2. injection E2 as E2. rewrite E2 in K. vm_compute in K. discriminate.
Qed.
(** A result with a complex value anywhere is refused; no VellSet of it is passed on. *)
Theorem zero_flagger_complex : forall (D C R : Type) (sign : D -> option comparison) op bit force (c : fres D C R) x v,
  In x (f_vs c) -> x_main x = Some (Cx v) -> forall r, zero_getResult sign op bit force c <> Ok r.
Proof.
  intros D C R sign op bit force c x v I E r H. unfold zero_getResult in H.
  destruct (mapr (zero_flag sign op bit force) (f_vs c)) as [l| |] eqn:M; cbn [bind] in H; try discriminate. clear H.
  revert l M. induction (f_vs c) as [|y ys IH]; intros l M; [contradiction|]. cbn [mapr] in M.
  destruct (zero_flag sign op bit force y) as [y'| |] eqn:Z1; cbn [bind] in M; try discriminate.
  destruct (mapr (zero_flag sign op bit force) ys) as [l'| |]; cbn [bind] in M; try discriminate.
  destruct I as [->|I]; [|exact (IH I l' eq_refl)]. unfold zero_flag in Z1. rewrite E in Z1. discriminate.
Qed.
Example zero_flagger_ex :
  let x := zset (Some (plain [3] [4; 0; 4])) (plain [3] [0; 5; -2]) in
  bind (zero_flag zsign LT 8 false x) (fun x => Ok (x_flags x)) = Ok (Some (plain [3] [0; 0; 8])) /\
  bind (zero_flag zsign GE 8 false x) (fun x => Ok (x_flags x)) = Ok (Some (plain [3] [8; 8; 0])) /\
  zero_flag zsign GT 0 false x = Ok x /\
  zero_flag (fun _ => None) NE 1 false x = setDataFlags (plain [3] [1; 1; 1]) x /\
  zero_flag (fun _ => None) LE 1 false x = Ok x /\
  zero_flag zsign Other 1 false x = Err /\
  (let c := {| f_dims := []; f_vs := [x] |} in
   flags_of (bind (zero_getResult zsign NE 1 false c) (fun z => merge_getResult [] false [c; z])) = Ok [Some (plain [3] [4; 1; 5])]).
Proof. repeat (split; [vm_compute; reflexivity|]). vm_compute. reflexivity. Qed.

Notation zd := (vdata (val Z Z) Z).
Definition zdata (v : val Z Z) (f : option (vells Z)) : zd := {| d_value := Some v; d_flags := f; d_spids := []; d_psets := [] |}.
Definition zdata3 (v w : val Z Z) (f : option (vells Z)) : zd := {| d_value := Some v; d_flags := f; d_spids := [3]; d_psets := [{| ps_pert := [1]; ps_val := [w] |}] |}.
Definition znull (v : val Z Z) : bool := match v with Re v => Vel_Model.isNull 0 0 Z.eqb v | Cx v => Vel_Model.isNull 0 0 Z.eqb v end.
Definition zreplace (c0 : zd) (cs : list zd) (masks : list Z) : res zd :=
  replace_compute znull (fun _ => true) (fun _ _ _ => true) Z.eqb 77 99 (map Some (c0 :: cs)) (map d_value (c0 :: cs)) masks.
Example replace_ex :
  zreplace (zdata3 (Re (plain [2] [5; 6])) (Re (plain [2] [5; 7])) (Some (plain [2] [1; 0]))) [zdata (Re (plain [1] [8])) (Some (plain [2] [2; 5])); zdata (Re (plain [1] [8])) None] [-1; 4; -1] =
    Ok (zdata3 (Re (plain [2] [5; 77])) (Re (plain [2] [5; 77])) (Some (plain [2] [1; 0]))) /\
  zreplace (zdata (Cx (plain [2] [5; 6])) None) [zdata (Re (plain [1] [8])) (Some (plain [1] [2]))] [-1; -1] = Ok (zdata (Cx (plain [2] [99; 99])) None) /\
  (* flags that vary along an axis the value does not *)
  zreplace (zdata (Re (plain [1] [5])) None) [zdata (Re (plain [1] [8])) (Some (plain [2] [2; 5]))] [-1; -1] = Err.
Proof. split; [|split]; vm_compute; reflexivity. Qed.
(** "Replaces values in child 0 that are flagged in any of child 1, 2" (ReplaceFlaggedValues.h:39-40): not if that child's value is
    identically zero. *)
Theorem replace_null_refuted : ~ (forall (D C P : Type) isNull compat accepts pert_eqb re cx (d0 d1 d : vdata (val D C) P) f v w idx,
  replace_compute isNull compat accepts pert_eqb re cx [Some d0; Some d1] [d_value d0; d_value d1] [-1; -1] = Ok d ->
  d_flags d1 = Some f -> flag_at (v_shape f) (v_data f) idx <> 0 -> inside (v_shape v) idx -> d_value d0 = Some (Re v) -> d_value d = Some (Re w) ->
  at_index (v_shape w) (v_data w) idx = Some re).
Proof.
  intro H. pose proof (H Z Z Z znull (fun _ => true) (fun _ _ _ => true) Z.eqb 77 99 (zdata (Re (plain [2] [5; 6])) None) (zdata (Re (plain [1] [0])) (Some (plain [2] [1; 0])))
    (zdata (Re (plain [2] [5; 6])) None) (plain [2] [1; 0]) (plain [2] [5; 6]) (plain [2] [5; 6]) [0] eq_refl eq_refl ltac:(discriminate) ltac:(repeat constructor; lia) eq_refl eq_refl) as K.
  vm_compute in K. discriminate.
Qed.
Print Assumptions masks_set.
Print Assumptions merge_flags.
Print Assumptions merge_flags_one.
Print Assumptions merge_flags_mask_refuted.
Print Assumptions zero_flagger.
Print Assumptions zero_flagger_partial.
Print Assumptions zero_flagger_refuted.
Print Assumptions zero_flagger_complex.
Print Assumptions merge_zero_flagger.
Print Assumptions replace_flagged.
Print Assumptions replace_succeeds.
Print Assumptions replace_null_refuted.
