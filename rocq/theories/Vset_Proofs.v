(** Lemmas about VellSet shapes. *)
From Verif Require Import Base Vset_Model Vset_Spec.

Definition pos (s : list nat) : Prop := forall x, In x s -> 1 <= x.
Lemma pos_cons x s : pos (x :: s) <-> 1 <= x /\ pos s.
Proof. unfold pos. split; [intro H; split; [apply H; now left|intros y Hy; apply H; now right]|intros [H1 H2] y [<-|Hy]; auto]. Qed.
Lemma pos_extent s i : pos s -> 1 <= extent s i.
Proof. intro P. unfold extent. destruct (nth_in_or_default i s 1) as [H|H]; [auto|lia]. Qed.
Lemma extent_nil i : extent [] i = 1.
Proof. now destruct i. Qed.
Lemma extent_beyond s i : length s <= i -> extent s i = 1.
Proof. apply nth_overflow. Qed.
Lemma shape_eq a b : length a = length b -> (forall i, extent a i = extent b i) -> a = b.
Proof. intros L E. apply (nth_ext a b 1 1); [auto|]. intros n _. apply E. Qed.

Lemma scalar_iff s : pos s -> isScalar s = true <-> forall i, extent s i = 1.
Proof.
  intro P. unfold isScalar. rewrite Nat.eqb_eq. induction s as [|x s IH]; [cbn; split; [intros _ [|i]; reflexivity|auto]|].
  apply pos_cons in P as [Px P]. cbn [product fold_right]. fold (product s). split.
  - intro H. assert (x = 1 /\ product s = 1) as [-> Hp] by (destruct x as [|[|x]]; [lia|lia|]; destruct (product s) as [|[|n]]; cbn in H; lia). intros [|i]; [reflexivity|]. apply IH; auto.
  - intro H. assert (x = 1) by exact (H 0). subst. rewrite Nat.mul_1_l. apply IH; auto. intro i. exact (H (S i)).
Qed.

(** the loop, on a shape whose zeros mark new axes *)
Definition e1 (x : nat) := Nat.max 1 x.
Lemma loop_ok : forall vs shp, pos vs -> length vs <= length shp ->
  (forall i, i < length vs -> 1 < nth i shp 1 -> 1 < extent vs i -> nth i shp 1 = extent vs i) -> (forall i, length vs <= i -> 1 <= nth i shp 1) ->
  exists c s', adjust_loop shp vs = Ok (c, s') /\ length s' = length shp /\ (forall i, extent s' i = Nat.max (nth i shp 1) (extent vs i)) /\ (c = false -> s' = shp).
Proof.
  induction vs as [|v vs IH]; intros shp P L C N.
  - exists false, shp. split; [reflexivity|]. split; [reflexivity|]. split; [|reflexivity]. intro i. rewrite extent_nil. specialize (N i ltac:(cbn; lia)). unfold extent. lia.
  - destruct shp as [|s shp]; [cbn in L; lia|]. apply pos_cons in P as [Pv P]. cbn [length] in L.
    destruct (IH shp P) as (c & s' & E & Ls & Ex & Ec); [lia|intros i Hi; apply (C (S i)); cbn; lia|intros i Hi; apply (N (S i)); cbn; lia|].
    cbn [adjust_loop]. rewrite E. cbn [bind fst snd]. assert (C0 := C 0 ltac:(cbn; lia)). cbn [nth extent] in C0. unfold extent in C0. cbn [nth] in C0.
    destruct (Nat.ltb_spec 1 v) as [V|V]; [destruct (Nat.leb_spec s 1) as [S1|S1]|destruct (Nat.eqb_spec s 0) as [S0|S0]].
    + exists true, (v :: s'). split; [reflexivity|]. split; [cbn; lia|]. split; [|discriminate]. intros [|i]; [cbn; lia|exact (Ex i)].
    + destruct (Nat.eqb_spec s v) as [->|Ne]; [|lia]. exists c, (v :: s'). split; [reflexivity|]. split; [cbn; lia|]. split. * intros [|i]; [cbn; lia|exact (Ex i)]. * intro H. now rewrite Ec.
    + exists true, (1 :: s'). split; [reflexivity|]. split; [cbn; lia|]. split; [|discriminate]. intros [|i]; [cbn; lia|exact (Ex i)].
    + exists c, (s :: s'). split; [reflexivity|]. split; [cbn; lia|]. split. * intros [|i]; [cbn; lia|exact (Ex i)]. * intro H. now rewrite Ec.
Qed.
Lemma loop_err : forall vs shp i, pos vs -> length vs <= length shp -> 1 < nth i shp 1 -> 1 < extent vs i -> nth i shp 1 <> extent vs i -> adjust_loop shp vs = Err.
Proof.
  induction vs as [|v vs IH]; intros shp i P L H1 H2 H3; [rewrite extent_nil in H2; lia|]. destruct shp as [|s shp]; [cbn in L; lia|]. apply pos_cons in P as [Pv P]. cbn [length adjust_loop] in *. destruct i as [|i].
  - cbn in H1, H2, H3. destruct (Nat.ltb_spec 1 v); [|lia]. destruct (Nat.leb_spec s 1); [lia|]. destruct (Nat.eqb_spec s v); [lia|reflexivity].
  - specialize (IH shp i P ltac:(lia) H1 H2 H3). rewrite IH. cbn [bind]. destruct (Nat.ltb_spec 1 v); [destruct (Nat.leb_spec s 1); [reflexivity|destruct (Nat.eqb s v); reflexivity]|destruct (Nat.eqb s 0); reflexivity].
Qed.
Lemma nth_repeat_lt {A} (x d : A) n i : nth i (repeat x n) d = if Nat.ltb i n then x else d.
Proof. revert i. induction n as [|n IH]; intros [|i]; cbn [repeat nth]; auto. rewrite IH. destruct (Nat.ltb_spec i n), (Nat.ltb_spec (S i) (S n)); auto; lia. Qed.
Lemma resize_nth s n x i : length s <= n -> nth i (resize s n x) 1 = if Nat.ltb i (length s) then nth i s 1 else if Nat.ltb i n then x else 1.
Proof.
  intro L. unfold resize. rewrite firstn_all2 by lia. destruct (Nat.ltb_spec i (length s)) as [H|H]; [now rewrite app_nth1|]. rewrite app_nth2 by lia. rewrite nth_repeat_lt. destruct (Nat.ltb_spec (i - length s) (n - length s)), (Nat.ltb_spec i n); auto; lia.
Qed.
Lemma resize_length s n x : length s <= n -> length (resize s n x) = n.
Proof. intro L. unfold resize. rewrite app_length, firstn_length, repeat_length. lia. Qed.

Lemma compat_iff a b : isCompatible a b = true <-> forall i, i < length a -> i < length b -> nth i a 1 = 1 \/ nth i a 1 = nth i b 1.
Proof.
  revert b. induction a as [|x a IH]; intros [|y b]; cbn [isCompatible].
  - split; [intros _ i H; cbn in H; lia|auto].
  - split; [intros _ i H; cbn in H; lia|auto].
  - split; [intros _ i _ H; cbn in H; lia|auto].
  - rewrite andb_true_iff, orb_true_iff, !Nat.eqb_eq, IH. split.
    + intros [H0 H] [|i] L1 L2; [exact H0|]. cbn in L1, L2. apply H; lia.
    + intro H. split; [apply (H 0); cbn; lia|]. intros i L1 L2. apply (H (S i)); cbn; lia.
Qed.

(** adjust, for shapes without zeros *)
Lemma adjust_ok shp vs : pos shp -> pos vs -> isScalar vs = false -> (forall i, 1 < extent shp i -> 1 < extent vs i -> extent shp i = extent vs i) ->
  exists c s', adjust shp (Some vs) = Ok (c, s') /\ length s' = Nat.max (length shp) (length vs) /\ (forall i, extent s' i = Nat.max (extent shp i) (extent vs i)) /\ (c = false -> s' = shp).
Proof.
  intros P Pv Sc C. unfold adjust. rewrite Sc. destruct shp as [|x shp].
  - exists true, vs. split; [reflexivity|]. split; [reflexivity|]. split; [|discriminate]. intro i. rewrite extent_nil. pose proof (pos_extent vs i Pv). lia.
  - set (s := x :: shp) in *. destruct (Nat.ltb_spec (length s) (length vs)) as [L|L].
    + destruct (loop_ok vs (resize s (length vs) 0)) as (c & s' & E & Ls & Ex & Ec); auto.
      * rewrite resize_length; lia.
      * intros i Hi H1 H2. rewrite resize_nth in * by lia. destruct (Nat.ltb_spec i (length s)) as [Hl|Hl]; [apply C; auto|]. destruct (Nat.ltb i (length vs)); lia.
      * intros i Hi. rewrite resize_nth by lia. destruct (Nat.ltb_spec i (length s)); [lia|]. destruct (Nat.ltb_spec i (length vs)); lia.
      * exists c, s'. rewrite resize_length in Ls by lia. assert (Ex' : forall i, extent s' i = Nat.max (extent s i) (extent vs i)).
        { intro i. rewrite Ex, resize_nth by lia. destruct (Nat.ltb_spec i (length s)) as [Hl|Hl]; [reflexivity|]. rewrite (extent_beyond s i Hl). pose proof (pos_extent vs i Pv). destruct (Nat.ltb i (length vs)); lia. }
        split; [exact E|]. split; [lia|]. split; [exact Ex'|]. intro H. specialize (Ec H). exfalso. specialize (Ex (length s)). rewrite Ec in Ex. unfold extent in Ex at 1. rewrite !resize_nth in Ex by lia. destruct (Nat.ltb_spec (length s) (length s)); [lia|]. destruct (Nat.ltb_spec (length s) (length vs)); [|lia]. pose proof (pos_extent vs (length s) Pv). lia.
    + destruct (loop_ok vs s) as (c & s' & E & Ls & Ex & Ec); auto.
      * intros i Hi. apply C.
      * intros i _. apply (pos_extent s i P).
      * exists c, s'. split; [exact E|]. split; [lia|]. split; [exact Ex|exact Ec].
Qed.
Lemma adjust_err shp vs i : pos shp -> pos vs -> isScalar vs = false -> 1 < extent shp i -> 1 < extent vs i -> extent shp i <> extent vs i -> adjust shp (Some vs) = Err.
Proof.
  intros P Pv Sc H1 H2 H3. unfold adjust. rewrite Sc. destruct shp as [|x shp]; [rewrite extent_nil in H1; lia|]. set (s := x :: shp) in *.
  assert (Li : i < length s) by (destruct (Nat.lt_ge_cases i (length s)); auto; rewrite extent_beyond in H1 by auto; lia).
  destruct (Nat.ltb_spec (length s) (length vs)) as [L|L]; apply (loop_err _ _ i); auto; rewrite ?resize_length, ?resize_nth by lia; try lia; destruct (Nat.ltb_spec i (length s)); auto; lia.
Qed.

(** setShape accepts what adjust produces *)
Lemma set_adjusted s shp : pos (vs_shape s) -> (forall i, extent (vs_shape s) i <= extent shp i) -> length (vs_shape s) <= length shp -> (forall i, 1 < extent (vs_shape s) i -> extent (vs_shape s) i = extent shp i) -> setShape shp s = Ok (with_shape s shp).
Proof.
  intros P Le L C. unfold setShape. destruct (vs_shape s) as [|x sh] eqn:E; [reflexivity|]. rewrite <- E in *. replace (isCompatible (vs_shape s) shp) with true; [reflexivity|]. symmetry. apply compat_iff. intros i L1 L2.
  pose proof (pos_extent _ i P) as X. destruct (Nat.eq_dec (extent (vs_shape s) i) 1); [now left|right]. apply C. lia.
Qed.
Definition wf_vells (v : vells) : Prop := match v with Some s => pos s | None => True end.
Definition vary (v : vells) : list (list nat) := match v with Some s => if isScalar s then [] else [s] | None => [] end.
Definition agree (a b : list nat) : Prop := forall i, 1 < extent a i -> 1 < extent b i -> extent a i = extent b i.

Lemma adjustShape_cases v s : pos (vs_shape s) -> wf_vells v ->
  match vary v with
  | [] => adjustShape v s = Ok s
  | vs :: _ => (agree (vs_shape s) vs -> exists s', adjustShape v s = Ok (with_shape s s') /\ length s' = Nat.max (length (vs_shape s)) (length vs) /\ forall i, extent s' i = Nat.max (extent (vs_shape s) i) (extent vs i)) /\
               (forall i, 1 < extent (vs_shape s) i -> 1 < extent vs i -> extent (vs_shape s) i <> extent vs i -> adjustShape v s = Err)
  end.
Proof.
  intros P W. destruct v as [vs|]; [|reflexivity]. cbn [vary]. cbn [wf_vells] in W. destruct (isScalar vs) eqn:Sc.
  - unfold adjustShape, adjust. rewrite Sc. reflexivity.
  - split.
    + intro C. destruct (adjust_ok _ _ P W Sc C) as (c & s' & E & L & Ex & Ec). unfold adjustShape. rewrite E. cbn [bind fst snd]. destruct c.
      * exists s'. split; [|auto]. apply set_adjusted; auto; [intro i; rewrite Ex; lia|lia|]. intros i H. rewrite Ex. specialize (C i H). pose proof (pos_extent vs i W). destruct (Nat.eq_dec (extent vs i) 1); [lia|]. rewrite <- C by lia. lia.
      * rewrite (Ec eq_refl) in *. exists (vs_shape s). split; [now destruct s|auto].
    + intros i H1 H2 H3. unfold adjustShape. rewrite (adjust_err _ _ i P W Sc H1 H2 H3). reflexivity.
Qed.

(** ** Maxima *)
Lemma is_max_nil : is_max [] [].
Proof. split; [reflexivity|]. intro i. now rewrite extent_nil. Qed.
Lemma is_max_cons l s a : is_max l s -> forall s', length s' = Nat.max (length s) (length a) -> (forall i, extent s' i = Nat.max (extent s i) (extent a i)) -> is_max (a :: l) s'.
Proof. intros [L E] s' L' E'. split; [cbn; rewrite L', L; lia|]. intro i. cbn. rewrite E', E. lia. Qed.
Lemma is_max_pos l s : is_max l s -> pos s.
Proof. intros [_ E] x Hx. apply (In_nth _ _ 1) in Hx as (i & _ & <-). change (nth i s 1) with (extent s i). rewrite E. clear. induction (map _ l); cbn; lia. Qed.
Lemma max_ge l i a : In a l -> extent a i <= fold_right Nat.max 1 (map (fun a => extent a i) l).
Proof. induction l as [|b l IH]; [intros []|]. intros [->|H]; cbn; [lia|]. specialize (IH H). lia. Qed.
Lemma max_in l i : 1 < fold_right Nat.max 1 (map (fun a => extent a i) l) -> exists a, In a l /\ extent a i = fold_right Nat.max 1 (map (fun a => extent a i) l).
Proof.
  induction l as [|b l IH]; cbn; [lia|]. intro H. destruct (Nat.max_spec (extent b i) (fold_right Nat.max 1 (map (fun a => extent a i) l))) as [[H1 H2]|[H1 H2]].
  - rewrite H2. destruct IH as (a & Ha & Ea); [lia|]. exists a. split; [now right|auto].
  - rewrite H2. exists b. split; [now left|auto].
Qed.
Lemma conf_agree l s a : is_max l s -> conforming (a :: l) -> agree s a.
Proof. intros [L E] C i H1 H2. rewrite E in H1. destruct (max_in l i H1) as (b & Hb & Eb). rewrite E, <- Eb. apply C; [now right|now left|lia|auto]. Qed.
Lemma agree_conf l s a : is_max l s -> conforming l -> agree s a -> conforming (a :: l).
Proof.
  intros [L E] C A.
  assert (X : forall b i, In b l -> 1 < extent b i -> extent s i = extent b i).
  { intros b i Hb H. rewrite E. pose proof (max_ge l i b Hb). destruct (max_in l i) as (c & Hc & Ec); [lia|]. rewrite <- Ec. apply C; auto. lia. }
  intros b c i Hb Hc H1 H2. destruct Hb as [<-|Hb], Hc as [<-|Hc]; auto.
  - rewrite <- (X c i Hc H2). symmetry. apply A; [|auto]. rewrite (X c i Hc H2). auto.
  - rewrite <- (X b i Hb H1). apply A; [|auto]. rewrite (X b i Hb H1). auto.
Qed.
Lemma is_max_unique l s s' : is_max l s -> is_max l s' -> s = s'.
Proof. intros [L E] [L' E']. apply shape_eq; [congruence|]. intro i. now rewrite E, E'. Qed.
Lemma disagree a b : ~ agree a b -> exists i, 1 < extent a i /\ 1 < extent b i /\ extent a i <> extent b i.
Proof.
  intro N. assert (D : forall n, (exists i, i < n /\ 1 < extent a i /\ 1 < extent b i /\ extent a i <> extent b i) \/ (forall i, i < n -> 1 < extent a i -> 1 < extent b i -> extent a i = extent b i)).
  { induction n as [|n [(i & H & H')|IH]]; [right; lia|left; exists i; split; [lia|auto]|].
    destruct (Nat.lt_ge_cases 1 (extent a n)) as [H1|H1]; [destruct (Nat.lt_ge_cases 1 (extent b n)) as [H2|H2]; [destruct (Nat.eq_dec (extent a n) (extent b n)) as [H3|H3]|]|].
    - right. intros i Hi. destruct (Nat.eq_dec i n) as [->|]; [auto|apply IH; lia].
    - left. exists n. auto.
    - right. intros i Hi. destruct (Nat.eq_dec i n) as [->|]; [lia|apply IH; lia].
    - right. intros i Hi. destruct (Nat.eq_dec i n) as [->|]; [lia|apply IH; lia]. }
  destruct (D (length a)) as [(i & _ & H)|H]; [eauto|]. exfalso. apply N. intros i H1 H2. apply H; auto. destruct (Nat.lt_ge_cases i (length a)); auto. rewrite extent_beyond in H1 by auto. lia.
Qed.
