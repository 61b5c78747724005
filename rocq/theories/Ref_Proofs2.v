From Coq Require Import Permutation.
From Verif Require Import Base Ref_Model Ref_Spec Ref_Proofs.
Local Open Scope Z_scope.

(** ** Copy-on-write: cloning one level *)
Definition shal (lockm : bool) (x : option ref) : ref :=
  match x with
  | Some mf => match r_t mf with
               | Some o => {| r_t := Some o; r_lock := lockm; r_wr := r_wr mf; r_sh := r_sh mf |}
               | None => {| r_t := None; r_lock := lockm; r_wr := false; r_sh := false |}
               end
  | None => rempty
  end.
Lemma shal_t lockm mf : r_t (shal lockm (Some mf)) = r_t mf.
Proof. unfold shal. destruct (r_t mf); reflexivity. Qed.

Definition plain (fl : rflags) : Prop := f_deep fl = false /\ f_lock fl = false /\ f_sh fl = false /\ f_cow fl = false.
Lemma shallow_members pv lockm fl d : plain fl -> d <= 0 -> forall ms s acc, inv s acc -> (forall m, In m ms -> exists mf, getref s m = Some mf) ->
  exists s', clone_members (fun s' n m => copy_with pv s' n m fl d) lockm s ms acc =
               Done (acc ++ seq (length (refs s)) (length ms)) s' /\
    refs s' = refs s ++ map (fun m => Some (shal lockm (getref s m))) ms /\ length (objs s') = length (objs s).
Proof.
  intros (FD & FL & FS & FC) Hd. induction ms as [|m ms IH]; intros s acc I Hms.
  - exists s. cbn. rewrite !app_nil_r. auto.
  - destruct (Hms m) as (mf & Hm); [now left|]. assert (L := getref_lt _ _ _ Hm).
    set (n := length (refs s)).
    set (nf := shal false (Some mf)). set (nf' := shal lockm (Some mf)).
    assert (EC : copy_with pv (push s) n m fl d = Done tt (ext s nf)).
    { unfold copy_with. destruct (Nat.eqb_spec n m) as [E|_]; [unfold n in E; lia|].
      assert (Hn : getref (push s) n = Some rempty) by (rewrite push_ext, getref_ext, Nat.eqb_refl; reflexivity).
      assert (Hm' : getref (push s) m = Some mf).
      { rewrite push_ext, getref_ext. destruct (Nat.eqb_spec m (length (refs s))); [lia|exact Hm]. }
      unfold detach. rewrite Hn. cbn [r_t rempty]. rewrite Hm', Hn. unfold nf, shal.
      destruct (r_t mf) as [o|] eqn:Et.
      - destruct (i_tgt _ _ I m mf o Hm Et) as (b & Hb). change (getobj (push s) o) with (getobj s o). rewrite Hb.
        rewrite FD, FL, FS, FC. cbn [orb].
        destruct (0 <? d) eqn:E0; [apply Z.ltb_lt in E0; lia|].
        f_equal. apply (set_push s _ o b); auto.
      - unfold setref, push, ext. cbn [refs objs r_t]. unfold n. rewrite setn_last. reflexivity. }
    assert (I1 : inv (ext s nf) (acc ++ [n])).
    { apply ext_inv; [exact I|]. intros o Ho. apply (i_tgt _ _ I m mf o Hm). unfold nf in Ho. now rewrite shal_t in Ho. }
    assert (Hnf : getref (ext s nf) n = Some nf) by (unfold n; now rewrite getref_ext, Nat.eqb_refl).
    set (s2 := if lockm then setref (ext s nf) n (Some nf') else ext s nf).
    assert (I2 : inv s2 (acc ++ [n])).
    { unfold s2. destruct lockm; [|exact I1]. apply (retag_inv _ _ n nf); auto. unfold nf', nf. now rewrite !shal_t. }
    assert (R2 : refs s2 = refs s ++ [Some nf']).
    { unfold s2, nf'. destruct lockm; [|reflexivity]. cbn [refs setref ext]. unfold n. now rewrite setn_last. }
    assert (GR : forall x, (x < n)%nat -> getref s2 x = getref s x).
    { intros x Lx. unfold getref. rewrite R2. now rewrite app_nth1. }
    destruct (IH s2 (acc ++ [n]) I2) as (s' & E' & R' & O').
    { intros m' Hm'. destruct (Hms m') as (mf' & E); [now right|]. exists mf'. rewrite GR; [exact E|]. apply getref_lt in E. exact E. }
    exists s'. split; [|split].
    + cbn [clone_members]. fold (push s). fold n. rewrite EC, Hnf.
      replace (if lockm then _ else ext s nf) with s2.
      * rewrite E'. rewrite R2, app_length, <- app_assoc. cbn [length seq app]. fold n. now rewrite Nat.add_1_r.
      * unfold s2. destruct lockm; [|reflexivity]. f_equal. f_equal. unfold nf', nf, shal. destruct (r_t mf); reflexivity.
    + rewrite R', R2, <- app_assoc. cbn [map app]. rewrite Hm. f_equal. f_equal. apply map_ext_in. intros m' Hm'.
      destruct (Hms m') as (mf' & E); [now right|]. rewrite GR; [reflexivity|]. apply getref_lt in E. exact E.
    + rewrite O'. unfold s2. destruct lockm; cbn [objs setref]; apply (lobjs_ext s nf).
Qed.

(** what a dereference for writing does *)
Record cowed (sh : bool) (s s' : st) (r o : nat) (b : ob) : Prop := {
  c_inv : inv s' [];
  c_grow : grow (eq r) s s';
  c_view : sameview s s';
  c_lobj : length (objs s') = S (length (objs s));
  c_new : getobj s' (length (objs s)) = Some {| o_cnt := 1; o_anon := true; o_sing := false; o_lockm := o_lockm b;
            o_data := o_data b; o_mem := seq (length (refs s)) (length (o_mem b)) |};
  c_refs : exists rf3, r_t rf3 = Some (length (objs s)) /\ r_wr rf3 = true /\ r_sh rf3 = sh /\
      refs s' = setn r (Some rf3) (refs s ++ map (fun m => Some (shal (o_lockm b) (getref s m))) (o_mem b));
  c_old : forall y c, getobj s y = Some c -> exists e, getobj s' y = Some (with_cnt c e)
}.
Lemma priv_shallow f s r rf o b fl d : f_deep fl = false -> d <= 0 -> inv s [] -> getref s r = Some rf -> r_t rf = Some o ->
  getobj s o = Some b ->
  match priv (S f) s r fl d with
  | Done _ s' => (o_anon b = true /\ o_cnt b = 1 /\ r_wr rf = true /\
                   exists rf', r_t rf' = r_t rf /\ r_wr rf' = true /\ s' = setref s r (Some rf')) \/ cowed (f_sh fl) s s' r o b
  | Threw s' => s' = s
  | Undef => False
  | Deep => False
  end.
Proof.
  intros FD Hd I H Et Hb. assert (L := getref_lt _ _ _ H).
  pose proof (priv_ok (S f) s r fl d rf I H) as P. cbn [priv] in *. rewrite H, Et, Hb in *. cbv zeta in *.
  destruct (negb (o_anon b) || negb (o_cnt b =? 1) || negb (r_wr rf) || (0 <? d) || f_deep fl) eqn:Ec.
  2:{ left. rewrite FD in Ec. destruct (o_anon b), (Z.eqb_spec (o_cnt b) 1), (r_wr rf); try discriminate.
      repeat (split; [auto; fail|]). eexists. split; [|split; [|reflexivity]]; reflexivity. }
  unfold clone_with in *. destruct (o_sing b); [reflexivity|].
  assert (Hms : forall m, In m (o_mem b) -> exists mf, getref s m = Some mf).
  { intros m Hm. apply (i_live _ _ I). apply owned_in. exists o, b. auto. }
  destruct (shallow_members (priv f) (o_lockm b) (masked fl) (d - 1)) with (ms := o_mem b) (s := s) (acc := @nil nat) as (s1 & E1 & R1 & O1); auto.
  { unfold plain, masked. cbn. auto. }
  { lia. }
  rewrite E1 in *. cbn [app] in *.
  set (ms := seq (length (refs s)) (length (o_mem b))) in *.
  change {| refs := refs s1; objs := objs s1 ++ _ |} with (newobj s1 b ms) in *.
  destruct (getobj (newobj s1 b ms) o) as [b1|] eqn:Eb1; [|destruct P].
  destruct (getobj (newobj s1 b ms) (length (objs s1))) as [b2|] eqn:Eb2; [|destruct P].
  match type of P with context [getref ?X r] => set (s3 := X) in *; destruct (getref s3 r) as [rf2|] eqn:E3; [|destruct P] end.
  destruct P as (P1 & P2 & P3 & P4 & P5). right.
  assert (Lr1 : (r < length (refs s1))%nat) by (rewrite R1, app_length; lia).
  assert (Erf2 : rf2 = {| r_t := Some (length (objs s1)); r_lock := false; r_wr := negb (f_ro fl); r_sh := false |}).
  { unfold s3 in E3. rewrite getref_setref, Nat.eqb_refl in E3 by exact Lr1. injection E3 as <-. reflexivity. }
  assert (Eb2' : b2 = {| o_cnt := 0; o_anon := false; o_sing := false; o_lockm := o_lockm b; o_data := o_data b; o_mem := ms |}).
  { unfold getobj, newobj in Eb2. cbn [objs] in Eb2. rewrite app_nth2, Nat.sub_diag in Eb2 by lia. cbn in Eb2. now injection Eb2 as <-. }
  assert (Lb1 := getobj_lt _ _ _ Eb1). assert (Lb2 := getobj_lt _ _ _ Eb2).
  constructor.
  - exact P1.
  - exact P2.
  - exact P4.
  - unfold s3, newobj. cbn [objs setref setobj]. rewrite !setn_length, app_length. cbn. lia.
  - rewrite getobj_setref. unfold s3. rewrite getobj_setref. rewrite <- O1. rewrite getobj_setobj, Nat.eqb_refl.
    + rewrite Eb2'. reflexivity.
    + cbn [objs setobj]. rewrite setn_length. exact Lb2.
  - match goal with |- context [setref s3 r (Some ?x)] => exists x end. rewrite Erf2. cbn [r_t r_wr r_sh]. rewrite O1.
    split; [reflexivity|]. split; [reflexivity|]. split; [destruct (f_sh fl), (f_cow fl); reflexivity|].
    unfold s3, newobj. cbn [refs setref setobj]. rewrite setn_setn, R1. reflexivity.
  - intros y c Hy. exact (g_obj _ _ _ P2 y c Hy).
Qed.
Lemma get_wr_ok fuel s r rf : inv s [] -> getref s r = Some rf ->
  match get_wr fuel s r with
  | Done _ s' => exists o b, r_t rf = Some o /\ getobj s o = Some b /\
      (s' = s /\ (r_wr rf = true /\ o_cnt b = 1 \/ r_sh rf = true) \/
       cowed false s s' r o b /\ ~ (r_wr rf = true /\ o_cnt b = 1) /\ r_sh rf = false)
  | Threw s' => s' = s
  | Undef => False
  | Deep => True
  end.
Proof.
  intros I H. assert (L := getref_lt _ _ _ H). unfold get_wr. rewrite H.
  destruct (r_t rf) as [o|] eqn:Et; [|reflexivity]. destruct (i_tgt _ _ I r rf o H Et) as (b & Hb). rewrite Hb.
  destruct ((r_wr rf && (o_cnt b =? 1)) || r_sh rf) eqn:Ed.
  { exists o, b. split; [auto|]. split; [exact Hb|]. left. split; [reflexivity|]. apply orb_true_iff in Ed as [Ed|Ed]; [left|now right].
    apply andb_true_iff in Ed as [E1 E2]. apply Z.eqb_eq in E2. auto. }
  apply orb_false_iff in Ed as [Ed Esh].
  assert (ND : ~ (r_wr rf = true /\ o_cnt b = 1)) by (intros [W C]; rewrite W, C in Ed; discriminate).
  destruct fuel as [|f]; [exact Logic.I|].
  pose proof (priv_shallow f s r rf o b fl0 0 eq_refl (Z.le_refl 0) I H Et Hb) as P.
  destruct (priv (S f) s r fl0 0) as [u s1|s1| |]; auto.
  exists o, b. split; [reflexivity|]. split; [exact Hb|]. right. destruct P as [(_ & C & W & _)|P]; [exfalso; auto|]. auto.
Qed.
Lemma get_wr_leak fuel s r rf s' : inv s [] -> leakfree s -> all_writable s -> getref s r = Some rf -> get_wr fuel s r = Done tt s' -> leakfree s'.
Proof.
  intros I LF AW H G. unfold get_wr in G. rewrite H in G. destruct (r_t rf) as [o|] eqn:Et; [|discriminate].
  destruct (i_tgt _ _ I r rf o H Et) as (b & Hb). rewrite Hb in G.
  destruct ((r_wr rf && (o_cnt b =? 1)) || r_sh rf) eqn:Ed; [injection G as <-; exact LF|].
  pose proof (priv_ok fuel s r fl0 0 rf I H) as P. rewrite G in P. destruct P as (_ & _ & _ & _ & P5). apply P5; [exact LF|].
  intros o' b' E Hb' Ha. rewrite Et in E. injection E as <-. rewrite Hb in Hb'. injection Hb' as <-.
  pose proof (i_cnt _ _ I o b Hb) as C. pose proof (tc_ge1 o (refs s) r rf H Et).
  rewrite (AW r rf o b H Et Hb Ha) in Ed. destruct (Z.eqb_spec (o_cnt b) 1); [discriminate|]. lia.
Qed.
Lemma cowed_writable sh s s' r o b rf : inv s [] -> getref s r = Some rf -> getobj s o = Some b -> cowed sh s s' r o b -> all_writable s -> all_writable s'.
Proof.
  intros I H Hb0 C AW x xf y c Hx Ht Hc Ha. assert (L := getref_lt _ _ _ H).
  destruct (c_refs _ _ _ _ _ _ C) as (rf3 & T3 & W3 & _ & R3).
  unfold getref in Hx. rewrite R3, nth_setn in Hx. rewrite app_length in Hx.
  destruct (Nat.ltb_spec r (length (refs s) + length (map (fun m => Some (shal (o_lockm b) (getref s m))) (o_mem b)))); [|lia].
  rewrite andb_true_r in Hx. destruct (Nat.eqb_spec x r); [injection Hx as <-; exact W3|].
  assert (OLD : forall z zf, getref s z = Some zf -> r_t zf = Some y -> r_wr zf = true).
  { intros z zf Hz Hzt. destruct (i_tgt _ _ I z zf y Hz Hzt) as (c0 & Hc0).
    destruct (c_old _ _ _ _ _ _ C y c0 Hc0) as (e & Hc1). rewrite Hc in Hc1. injection Hc1 as ->.
    exact (AW z zf y c0 Hz Hzt Hc0 Ha). }
  destruct (Nat.ltb_spec x (length (refs s))) as [Lx|Lx].
  - rewrite app_nth1 in Hx by exact Lx. exact (OLD x xf Hx Ht).
  - rewrite app_nth2 in Hx by exact Lx. set (j := (x - length (refs s))%nat) in *.
    assert (Lj : (j < length (o_mem b))%nat).
    { destruct (Nat.ltb_spec j (length (o_mem b))); auto. rewrite nth_overflow in Hx; [discriminate|]. rewrite map_length. lia. }
    set (fn := fun m => Some (shal (o_lockm b) (getref s m))) in *.
    rewrite (nth_indep _ None (fn 0%nat)) in Hx by (rewrite map_length; exact Lj).
    rewrite map_nth in Hx. unfold fn in Hx. injection Hx as <-. set (m := nth j (o_mem b) 0%nat) in *.
    assert (Hm : In m (o_mem b)) by (apply nth_In; exact Lj).
    destruct (i_live _ _ I m) as (mf & Hmf); [apply owned_in; exists o, b; auto|].
    rewrite Hmf in *. unfold shal in *. destruct (r_t mf) as [y'|] eqn:Em; cbn in *; [|discriminate].
    injection Ht as <-. exact (OLD m mf Hmf Em).
Qed.

Lemma write_step fuel : forall p s r v, inv s [] -> live_ref s r ->
  good (write fuel s r p v) (fun s' => inv s' [] /\ (leakfree s -> all_writable s -> leakfree s')).
Proof.
  induction p as [|i p IH]; intros s r v I Lr; destruct (live_get _ _ Lr) as (rf & H); cbn [write];
    pose proof (get_wr_ok fuel s r rf I H) as G; pose proof (fun s' => get_wr_leak fuel s r rf s' I) as GL;
    destruct (get_wr fuel s r) as [[] s1|s1| |]; cbn [good]; auto; try (subst; auto; fail).
  - destruct G as (o & b & Et & Hb & G).
    assert (C : inv s1 [] /\ exists rf1 o1 b1, getref s1 r = Some rf1 /\ r_t rf1 = Some o1 /\ getobj s1 o1 = Some b1).
    { destruct G as [[-> _]|[C _]].
      - split; [exact I|]. exists rf, o, b. auto.
      - split; [apply C|]. destruct (g_refx _ _ _ (c_grow _ _ _ _ _ _ C) r rf H) as (rf1 & E1 & _).
        destruct (c_refs _ _ _ _ _ _ C) as (rf3 & T3 & _ & _ & R3). exists rf3, (length (objs s)).
        pose proof (getref_lt _ _ _ H) as L.
        assert (E3 : getref s1 r = Some rf3).
        { unfold getref. rewrite R3, nth_setn, Nat.eqb_refl, app_length.
          match goal with |- context [Nat.ltb ?a ?b] => destruct (Nat.ltb_spec a b); [reflexivity|lia] end. }
        eexists. split; [exact E3|]. split; [exact T3|]. apply (c_new _ _ _ _ _ _ C). }
    destruct C as (I1 & rf1 & o1 & b1 & E1 & T1 & B1). rewrite E1, T1, B1. cbn [good]. split; [now apply data_inv|].
    intros LF AW. apply data_leak; [|exact B1]. exact (GL s1 LF AW H eq_refl).
  - destruct G as (o & b & Et & Hb & G).
    assert (C : inv s1 [] /\ (all_writable s -> all_writable s1) /\ exists rf1 o1 b1, getref s1 r = Some rf1 /\ r_t rf1 = Some o1 /\ getobj s1 o1 = Some b1).
    { destruct G as [[-> _]|[C _]].
      - split; [exact I|]. split; [auto|]. exists rf, o, b. auto.
      - split; [apply C|]. split; [exact (cowed_writable false s s1 r o b rf I H Hb C)|].
        destruct (c_refs _ _ _ _ _ _ C) as (rf3 & T3 & _ & _ & R3). exists rf3, (length (objs s)).
        pose proof (getref_lt _ _ _ H) as L.
        assert (E3 : getref s1 r = Some rf3).
        { unfold getref. rewrite R3, nth_setn, Nat.eqb_refl, app_length.
          match goal with |- context [Nat.ltb ?a ?b] => destruct (Nat.ltb_spec a b); [reflexivity|lia] end. }
        eexists. split; [exact E3|]. split; [exact T3|]. apply (c_new _ _ _ _ _ _ C). }
    destruct C as (I1 & AW1 & rf1 & o1 & b1 & E1 & T1 & B1). rewrite E1, T1, B1.
    destruct (nth_error (o_mem b1) i) as [m|] eqn:Em.
    + assert (Lm : live_ref s1 m).
      { destruct (i_live _ _ I1 m) as (mf & Hmf); [apply owned_in; exists o1, b1; split; [exact B1|eapply nth_error_In; exact Em]|].
        unfold live_ref. congruence. }
      specialize (IH s1 m v I1 Lm). destruct (write fuel s1 m p v) as [u s2|s2| |]; cbn [good] in *; auto;
        destruct IH as [IH1 IH2]; (split; [exact IH1|]); intros LF AW; apply IH2; auto; exact (GL s1 LF AW H eq_refl).
    + cbn [good]. split; [exact I1|]. intros LF AW. exact (GL s1 LF AW H eq_refl).
Qed.

(** ** The other operations *)
Lemma addobj_inv s ms b : inv s ms -> o_cnt b = 0 -> o_mem b = ms -> inv {| refs := refs s; objs := objs s ++ [Some b] |} [].
Proof.
  intros I Ec Em. set (s' := {| refs := refs s; objs := objs s ++ [Some b] |}).
  assert (GO : forall y, getobj s' y = if Nat.eqb y (length (objs s)) then Some b else getobj s y).
  { intros y. unfold getobj, s'. cbn [objs]. destruct (Nat.eqb_spec y (length (objs s))) as [->|N].
    - rewrite app_nth2, Nat.sub_diag by lia. reflexivity.
    - destruct (Nat.ltb_spec y (length (objs s))); [now rewrite app_nth1 by lia|]. rewrite !nth_overflow; auto. rewrite app_length. cbn. lia. }
  assert (Ow : owned (objs s') = owned (objs s) ++ ms).
  { unfold s', owned. cbn [objs]. rewrite flat_map_app. cbn. rewrite app_nil_r. now rewrite Em. }
  constructor.
  - intros x xf y Hx Ht. rewrite GO. destruct (Nat.eqb_spec y (length (objs s))); [eauto|]. exact (i_tgt _ _ I x xf y Hx Ht).
  - intros y c Hy. rewrite GO in Hy. destruct (Nat.eqb_spec y (length (objs s))) as [->|]; [|exact (i_cnt _ _ I y c Hy)].
    injection Hy as <-. rewrite Ec. assert (Z0 : tc (length (objs s)) (refs s) = 0%nat); [|change (refs s') with (refs s); lia].
    apply tc_zero. intros x xf Hx Hxt. destruct (i_tgt _ _ I x xf _ Hx Hxt) as (c & Hc). apply getobj_lt in Hc. lia.
  - cbn [app]. rewrite Ow. apply (Permutation_NoDup (Permutation_app_comm _ _)). apply I.
  - intros m Hm. cbn [app] in Hm. rewrite Ow in Hm. apply (i_live _ _ I). apply in_app_or in Hm as [Hm|Hm]; apply in_or_app; auto.
Qed.
Lemma pushes_inv k : forall s ws, inv s ws -> inv {| refs := refs s ++ repeat (Some rempty) k; objs := objs s |} (ws ++ seq (length (refs s)) k).
Proof.
  induction k as [|k IH]; intros s ws I.
  - cbn. rewrite !app_nil_r. destruct s; exact I.
  - pose proof (ext_inv s ws rempty I) as I1. specialize (I1 ltac:(discriminate)).
    specialize (IH _ _ I1). rewrite length_ext in IH. cbn [ext refs objs rempty r_t] in IH. cbn [repeat seq].
    rewrite <- !app_assoc in IH. exact IH.
Qed.
Lemma setmem_inv s ws ws' o b m' : inv s ws -> getobj s o = Some b -> Permutation (ws' ++ m') (ws ++ o_mem b) ->
  inv (setobj s o (Some (with_mem b m'))) ws'.
Proof.
  intros I Hb P. assert (Lo := getobj_lt _ _ _ Hb).
  destruct (owned_setn o (Some (with_mem b m')) (objs s) Lo) as (rest & P1 & P2). fold (getobj s o) in P1. rewrite Hb in P1.
  cbn [mems with_mem o_mem] in P1, P2.
  assert (PP : Permutation (ws' ++ owned (objs (setobj s o (Some (with_mem b m'))))) (ws ++ owned (objs s))).
  { cbn [objs setobj]. rewrite P1, P2, !app_assoc. now apply Permutation_app_tail. }
  constructor.
  - intros x xf y Hx Ht. rewrite getobj_setobj by exact Lo. destruct (Nat.eqb_spec y o); [eauto|]. exact (i_tgt _ _ I x xf y Hx Ht).
  - intros y c Hy. rewrite getobj_setobj in Hy by exact Lo. destruct (Nat.eqb_spec y o) as [->|]; [|exact (i_cnt _ _ I y c Hy)].
    injection Hy as <-. exact (i_cnt _ _ I o b Hb).
  - apply (Permutation_NoDup (Permutation_sym PP)). apply I.
  - intros m Hm. apply (Permutation_in _ PP) in Hm. exact (i_live _ _ I m Hm).
Qed.
Lemma mem_leak s o b m' : leakfree s -> getobj s o = Some b -> leakfree (setobj s o (Some (with_mem b m'))).
Proof.
  intros LF Hb y c Hy Ha. rewrite getobj_setobj in Hy by (eapply getobj_lt; exact Hb).
  destruct (Nat.eqb_spec y o); [|exact (LF y c Hy Ha)]. injection Hy as <-. exact (LF o b Hb Ha).
Qed.
Lemma remove_perm {A} i (l : list A) m : nth_error l i = Some m -> Permutation ([m] ++ firstn i l ++ skipn (S i) l) l.
Proof.
  revert i. induction l as [|y l IH]; intros [|i] H; cbn in *; try discriminate.
  - injection H as ->. reflexivity.
  - rewrite perm_swap. apply perm_skip. apply IH. exact H.
Qed.

Lemma step_ok fuel s a : inv s [] -> valid_op s a ->
  good (step fuel s a) (fun s' => inv s' [] /\ (leakfree s -> careful s a -> leakfree s')).
Proof.
  intros I V. destruct a; cbn [step].
  - (* NewRef *) cbn [good]. change {| refs := refs s ++ [Some rempty]; objs := objs s |} with (ext s rempty). split.
    + apply (inv_nil _ ([] ++ [length (refs s)])). apply ext_inv; [exact I|discriminate].
    + intros LF _. now apply ext_leak.
  - (* NewObj *) cbn [good]. split.
    + pose proof (pushes_inv k s [] I) as I1. cbn [app] in I1.
      exact (addobj_inv _ (seq (length (refs s)) k) {| o_cnt := 0; o_anon := false; o_sing := sing; o_lockm := lockm; o_data := v; o_mem := empties (length (refs s)) k |} I1 eq_refl eq_refl).
    + intros LF _ y c Hy Ha. unfold getobj in Hy. cbn [objs] in Hy.
      destruct (Nat.ltb_spec y (length (objs s))) as [Ly|Ly].
      * rewrite app_nth1 in Hy by exact Ly. exact (LF y c Hy Ha).
      * rewrite app_nth2 in Hy by exact Ly. destruct (y - length (objs s))%nat as [|[|]]; cbn in Hy; try discriminate.
        injection Hy as <-. discriminate.
  - (* AddMember *) destruct (liveo_get _ _ V) as (b & Hb). rewrite Hb. cbn [good].
    change {| refs := refs s ++ [Some rempty]; objs := setn o (Some (with_mem b (o_mem b ++ [length (refs s)]))) (objs s) |}
      with (setobj (ext s rempty) o (Some (with_mem b (o_mem b ++ [length (refs s)])))). split.
    + apply (setmem_inv _ ([] ++ [length (refs s)]) []); [apply ext_inv; [exact I|discriminate]|exact Hb|].
      cbn [app]. apply Permutation_sym, (Permutation_app_comm [length (refs s)] (o_mem b)).
    + intros LF _. apply mem_leak; [exact LF|exact Hb].
  - (* DropMember *) destruct (liveo_get _ _ V) as (b & Hb). rewrite Hb.
    destruct (nth_error (o_mem b) i) as [m|] eqn:Em; [|cbn [good]; auto].
    set (s1 := setobj s o _).
    assert (I1 : inv s1 [m]) by (apply (setmem_inv s []); [exact I|exact Hb|cbn [app]; exact (remove_perm i _ m Em)]).
    destruct (kill_ok (length (refs s)) s1 [m] I1 (nlive_le s1)) as (s' & K & I' & _ & LF').
    rewrite K. cbn [good]. split; [exact I'|]. intros LF _. apply LF'. apply mem_leak; [exact LF|exact Hb].
  - pose proof (attach_step fuel s r o fl I V) as A. destruct (attach fuel s r o fl); cbn [good] in *; auto; destruct A; auto.
  - pose proof (copy_step fuel s r x fl depth I V) as A. destruct (copy fuel s r x fl depth); cbn [good] in *; auto; destruct A; auto.
  - exact (xfer_step fuel s r x fl depth I V).
  - (* Detach *) destruct (live_get _ _ V) as (rf & H). pose proof (detach_ok s r rf I H) as D.
    destruct (detach s r) as [u s1|s1| |]; cbn [good]; auto.
    + destruct D as (D1 & _ & D3 & _). auto.
    + destruct D as (-> & _). auto.
  - (* Privatize *) destruct (live_get _ _ V) as (rf & H). pose proof (priv_ok fuel s r fl depth rf I H) as P.
    destruct (priv fuel s r fl depth) as [u s1|s1| |] eqn:Ep; cbn [good]; auto.
    + destruct P as (P1 & _ & _ & _ & P5). split; [exact P1|]. intros LF C. cbn in C.
      destruct fuel as [|f]; [discriminate|]. cbn [priv] in Ep. rewrite H in Ep.
      destruct (r_t rf) as [o|] eqn:Et; [|discriminate]. destruct (i_tgt _ _ I r rf o H Et) as (b & Hb).
      destruct C as [C|[C W]].
      * apply P5; [exact LF|]. intros o' b' E Hb' Ha. injection E as <-.
        pose proof (tc_ge1 o (refs s) r rf H Et). destruct (Nat.eq_dec (tc o (refs s)) 1); [|lia].
        exfalso. apply C. exists rf, o, b'. auto.
      * destruct (Nat.eq_dec (tc o (refs s)) 1) as [E1|E1].
        2:{ apply P5; [exact LF|]. intros o' b' E Hb' Ha. injection E as <-. pose proof (tc_ge1 o (refs s) r rf H Et). lia. }
        destruct (o_anon b) eqn:Ea.
        2:{ apply P5; [exact LF|]. intros o' b' E Hb' Ha. injection E as <-. congruence. }
        rewrite Hb in Ep. pose proof (i_cnt _ _ I o b Hb) as C1. rewrite E1 in C1. change (Z.of_nat 1) with 1 in C1.
        rewrite Ea, C1, (W rf H) in Ep. cbn [negb orb Z.eqb Pos.eqb] in Ep.
        destruct ((0 <? depth) || f_deep fl) eqn:Ed.
        { exfalso. apply C. apply orb_true_iff in Ed as [Ed|Ed]; [right; now apply Z.ltb_lt|now left]. }
        cbv zeta in Ep. injection Ep as _ <-. exact LF.
    + destruct P as (P1 & _ & _ & P5). auto.
  - destruct (live_get _ _ V) as (rf & H). rewrite H. cbn [good]. split; [apply (retag_inv _ _ r rf); auto|auto].
  - destruct (live_get _ _ V) as (rf & H). rewrite H. cbn [good]. split; [apply (retag_inv _ _ r rf); auto|auto].
  - destruct (live_get _ _ V) as (rf & H). rewrite H. destruct (r_t rf) eqn:Et; cbn [good]; auto.
    split; [apply (retag_inv _ _ r rf); auto|auto].
  - (* Destroy *) destruct V as [Lr Nr]. destruct (live_get _ _ Lr) as (rf & H).
    assert (I1 : inv s [r]).
    { constructor; try apply I.
      - cbn. constructor; [exact Nr|apply I].
      - intros m [<-|Hm]; [eauto|apply (i_live _ _ I); exact Hm]. }
    destruct (kill_ok (length (refs s)) s [r] I1 (nlive_le s)) as (s' & K & I' & _ & LF').
    rewrite K. cbn [good]. auto.
  - pose proof (write_step fuel path s r v I V) as W. destruct (write fuel s r path v); cbn [good] in *; auto.
  - (* DeleteObj *) destruct V as (b & Hb & Ha & Hn). rewrite Hb, Ha. assert (Lo := getobj_lt _ _ _ Hb).
    assert (I1 : inv (setobj s o None) (o_mem b)).
    { destruct (owned_setn o None (objs s) Lo) as (rest & P1 & P2). fold (getobj s o) in P1. rewrite Hb in P1.
      cbn [mems] in P1, P2. cbn [app] in P2.
      assert (PP : Permutation (o_mem b ++ owned (objs (setobj s o None))) (owned (objs s))) by (cbn [objs setobj]; rewrite P1, P2; reflexivity).
      constructor.
      - intros x xf y Hx Ht. rewrite getobj_setobj by exact Lo. destruct (Nat.eqb_spec y o) as [->|].
        + exfalso. exact (proj1 (tc_zero o (refs s)) Hn x xf Hx Ht).
        + exact (i_tgt _ _ I x xf y Hx Ht).
      - intros y c Hy. rewrite getobj_setobj in Hy by exact Lo. destruct (Nat.eqb_spec y o); [discriminate|]. exact (i_cnt _ _ I y c Hy).
      - apply (Permutation_NoDup (Permutation_sym PP)). apply I.
      - intros m Hm. apply (Permutation_in _ PP) in Hm. exact (i_live _ _ I m Hm). }
    destruct (kill_ok (length (refs s)) _ (o_mem b) I1 (nlive_le (setobj s o None))) as (s' & K & I' & _ & LF').
    rewrite K. cbn [good]. split; [exact I'|]. intros LF _. apply LF'. intros y c Hy Hya.
    rewrite getobj_setobj in Hy by exact Lo. destruct (Nat.eqb_spec y o); [discriminate|]. exact (LF y c Hy Hya).
Qed.

Lemma inv_init : inv init [].
Proof.
  constructor.
  - intros [|r] rf o H; discriminate.
  - intros [|o] b H; discriminate.
  - constructor.
  - intros m [].
Qed.
Lemma reach_inv s : reach s -> inv s [].
Proof.
  induction 1 as [|s a fuel s' R IH V A]; [exact inv_init|].
  pose proof (step_ok fuel s a IH V) as G. destruct A as [(u & E)|E]; rewrite E in G; apply G.
Qed.
Lemma careful_reach s : reach_careful s -> reach s.
Proof. induction 1; [constructor|]. eapply reach_step; eauto. Qed.
Lemma careful_leakfree s : reach_careful s -> leakfree s.
Proof.
  induction 1 as [|s a fuel s' R IH V C A]; [intros [|o] b H; discriminate|].
  pose proof (step_ok fuel s a (reach_inv _ (careful_reach _ R)) V) as G. destruct A as [(u & E)|E]; rewrite E in G; apply G; auto.
Qed.

(** ** References to anonymous objects stay writable *)
Lemma aw_mono s s' : inv s [] -> all_writable s ->
  (forall x xf, getref s' x = Some xf -> r_t xf = None \/ r_wr xf = true \/
     exists z zf, getref s z = Some zf /\ r_t zf = r_t xf /\ r_wr zf = r_wr xf) ->
  (forall y c0 c, getobj s y = Some c0 -> getobj s' y = Some c -> o_anon c = true -> o_anon c0 = true \/ tc y (refs s) = 0%nat) ->
  all_writable s'.
Proof.
  intros I AW R O x xf y c Hx Ht Hc Ha. destruct (R x xf Hx) as [E|[E|(z & zf & Hz & Ez & Ew)]]; [congruence|exact E|].
  rewrite Ht in Ez. destruct (i_tgt _ _ I z zf y Hz Ez) as (c0 & Hc0).
  destruct (O y c0 c Hc0 Hc Ha) as [Ha0|Z0].
  - rewrite <- Ew. exact (AW z zf y c0 Hz Ez Hc0 Ha0).
  - exfalso. exact (proj1 (tc_zero _ _) Z0 z zf Hz Ez).
Qed.
Lemma shrink_aw s s' ws : inv s [] -> all_writable s -> shrink s s' ws -> all_writable s'.
Proof.
  intros I AW Sh. apply (aw_mono s); auto.
  - intros x xf Hx. right; right. exists x, xf. destruct (k_ref _ _ _ Sh x) as [E|[E _]]; [|congruence]. rewrite <- E. auto.
  - intros y c0 c H0 H1 Ha. left. destruct (k_obj _ _ _ Sh y c0 H0) as [(e & E)|[E _]]; [|congruence]. rewrite H1 in E. injection E as ->. exact Ha.
Qed.
Lemma detach_aw s r rf s1 u : inv s [] -> all_writable s -> getref s r = Some rf -> detach s r = Done u s1 -> all_writable s1.
Proof.
  intros I AW H D. pose proof (detach_ok s r rf I H) as DO. rewrite D in DO. destruct DO as (_ & Sh & _). apply (aw_mono s); auto.
  - intros x xf Hx. destruct (Nat.eq_dec x r) as [->|N].
    + left. destruct (d_r _ _ _ Sh) as [(rf' & E & T & _)|[E _]]; congruence.
    + right; right. exists x, xf. destruct (d_ref _ _ _ Sh x N) as [E|[E _]]; [|congruence]. rewrite <- E. auto.
  - intros y c0 c H0 H1 Ha. left. destruct (d_obj _ _ _ Sh y c0 H0) as [(e & E)|[E _]]; [|congruence]. rewrite H1 in E. injection E as ->. exact Ha.
Qed.
Lemma priv_aw fuel s r rf fl d : f_deep fl = false -> d <= 0 -> inv s [] -> all_writable s -> getref s r = Some rf ->
  good (priv fuel s r fl d) all_writable.
Proof.
  intros FD Hd I AW H. destruct fuel as [|f]; [exact Logic.I|].
  destruct (r_t rf) as [o|] eqn:Et.
  2:{ cbn [priv]. rewrite H, Et. exact AW. }
  destruct (i_tgt _ _ I r rf o H Et) as (b & Hb).
  pose proof (priv_shallow f s r rf o b fl d FD Hd I H Et Hb) as P.
  destruct (priv (S f) s r fl d) as [u s1|s1| |]; cbn [good]; auto.
  - destruct P as [(_ & _ & _ & rf' & T & W & ->)|C].
    + apply (aw_mono s); auto.
      * intros x xf Hx. rewrite getref_setref in Hx by (eapply getref_lt; exact H).
        destruct (Nat.eqb_spec x r); [injection Hx as <-; auto|]. right; right. exists x, xf. auto.
      * intros y c0 c H0 H1 Ha. rewrite getobj_setref in H1. left. congruence.
    + exact (cowed_writable _ s s1 r o b rf I H Hb C AW).
  - now subst.
Qed.
Lemma clone_shallow_aw pv s o b fl : plain fl -> inv s [] -> all_writable s -> getobj s o = Some b ->
  match clone_with pv s b fl 0 with
  | Done o2 s2 => exists ms s1, o2 = length (objs s1) /\ s2 = newobj s1 b ms /\ length (objs s1) = length (objs s) /\
      refs s1 = refs s ++ map (fun m => Some (shal (o_lockm b) (getref s m))) (o_mem b)
  | Threw s' => s' = s
  | _ => False
  end.
Proof.
  intros PL I AW Hb. unfold clone_with. destruct (o_sing b); [reflexivity|].
  assert (Hms : forall m, In m (o_mem b) -> exists mf, getref s m = Some mf).
  { intros m Hm. apply (i_live _ _ I). apply owned_in. exists o, b. auto. }
  destruct (shallow_members pv (o_lockm b) fl 0 PL (Z.le_refl 0) (o_mem b) s [] I Hms) as (s1 & E1 & R1 & O1).
  rewrite E1. eexists _, s1. split; [reflexivity|]. split; [reflexivity|]. split; [exact O1|exact R1].
Qed.

Lemma write_aw fuel : forall p s r v, inv s [] -> all_writable s -> live_ref s r -> good (write fuel s r p v) all_writable.
Proof.
  induction p as [|i p IH]; intros s r v I AW Lr; destruct (live_get _ _ Lr) as (rf & H); cbn [write];
    pose proof (get_wr_ok fuel s r rf I H) as G; destruct (get_wr fuel s r) as [[] s1|s1| |]; cbn [good]; auto; try (subst; auto; fail).
  - destruct G as (o & b & Et & Hb & G).
    assert (AW1 : all_writable s1).
    { destruct G as [[-> _]|[C _]]; [exact AW|]. exact (cowed_writable _ s s1 r o b rf I H Hb C AW). }
    assert (I1 : inv s1 []) by (destruct G as [[-> _]|[C _]]; [exact I|apply C]).
    destruct (getref s1 r) as [rf1|] eqn:E1; cbn [good]; auto.
    2:{ destruct G as [[-> _]|[C _]]; [congruence|]. destruct (g_refx _ _ _ (c_grow _ _ _ _ _ _ C) r rf H) as (? & ? & _). congruence. }
    destruct (r_t rf1) as [o1|] eqn:T1; cbn [good]; auto. destruct (i_tgt _ _ I1 r rf1 o1 E1 T1) as (b1 & B1). rewrite B1. cbn [good].
    apply (aw_mono s1); auto.
    + intros x xf Hx. right; right. exists x, xf. auto.
    + intros y c0 c H0 H1 Ha. left. rewrite getobj_setobj in H1 by (eapply getobj_lt; exact B1).
      destruct (Nat.eqb_spec y o1) as [->|]; [|congruence]. injection H1 as <-. rewrite B1 in H0. injection H0 as <-. exact Ha.
  - destruct G as (o & b & Et & Hb & G).
    assert (AW1 : all_writable s1).
    { destruct G as [[-> _]|[C _]]; [exact AW|]. exact (cowed_writable _ s s1 r o b rf I H Hb C AW). }
    assert (I1 : inv s1 []) by (destruct G as [[-> _]|[C _]]; [exact I|apply C]).
    destruct (getref s1 r) as [rf1|] eqn:E1; cbn [good]; auto.
    2:{ destruct G as [[-> _]|[C _]]; [congruence|]. destruct (g_refx _ _ _ (c_grow _ _ _ _ _ _ C) r rf H) as (? & ? & _). congruence. }
    destruct (r_t rf1) as [o1|] eqn:T1; cbn [good]; auto. destruct (i_tgt _ _ I1 r rf1 o1 E1 T1) as (b1 & B1). rewrite B1.
    destruct (nth_error (o_mem b1) i) as [m|] eqn:Em; cbn [good]; auto. apply IH; auto.
    destruct (i_live _ _ I1 m) as (mf & Hmf); [apply owned_in; exists o1, b1; split; [exact B1|eapply nth_error_In; exact Em]|].
    unfold live_ref. congruence.
Qed.

Lemma nondeep fl d : f_deep fl = false -> d <= 0 -> f_deep fl || (0 <? d) = false.
Proof. intros -> H. cbn. apply Z.ltb_ge. exact H. Qed.

Lemma step_aw fuel s a : inv s [] -> valid_op s a -> gentle a -> all_writable s -> good (step fuel s a) all_writable.
Proof.
  intros I V Ge AW. destruct a; cbn [step].
  - cbn [good]. change {| refs := refs s ++ [Some rempty]; objs := objs s |} with (ext s rempty). apply (aw_mono s); auto.
    + intros x xf Hx. rewrite getref_ext in Hx. destruct (Nat.eqb_spec x (length (refs s))); [injection Hx as <-; auto|].
      right; right. exists x, xf. auto.
    + intros y c0 c H0 H1 Ha. left. unfold ext in H1. unfold getobj in *. cbn [objs rempty r_t] in H1. congruence.
  - cbn [good]. apply (aw_mono s); auto.
    + intros x xf Hx. unfold getref in Hx. cbn [refs] in Hx. destruct (Nat.ltb_spec x (length (refs s))) as [Lx|Lx].
      * rewrite app_nth1 in Hx by exact Lx. right; right. exists x, xf. auto.
      * rewrite app_nth2 in Hx by exact Lx. left. assert (In (Some xf) (repeat (Some rempty) k)) as Hin.
        { rewrite <- Hx. apply nth_In. apply nth_some_lt in Hx. exact Hx. }
        apply repeat_spec in Hin. injection Hin as ->. reflexivity.
    + intros y c0 c H0 H1 Ha. left. assert (Ly := getobj_lt _ _ _ H0). unfold getobj in *. cbn [objs] in H1.
      rewrite app_nth1 in H1 by exact Ly. congruence.
  - destruct (liveo_get _ _ V) as (b & Hb). rewrite Hb. cbn [good]. apply (aw_mono s); auto.
    + intros x xf Hx. change (getref (ext s rempty) x = Some xf) in Hx. rewrite getref_ext in Hx.
      destruct (Nat.eqb_spec x (length (refs s))); [injection Hx as <-; auto|]. right; right. exists x, xf. auto.
    + intros y c0 c H0 H1 Ha. left. change (getobj (setobj s o (Some (with_mem b (o_mem b ++ [length (refs s)])))) y = Some c) in H1.
      rewrite getobj_setobj in H1 by (eapply getobj_lt; exact Hb). destruct (Nat.eqb_spec y o) as [->|]; [|congruence].
      injection H1 as <-. rewrite Hb in H0. injection H0 as <-. exact Ha.
  - destruct (liveo_get _ _ V) as (b & Hb). rewrite Hb.
    destruct (nth_error (o_mem b) i) as [m|] eqn:Em; [|cbn [good]; auto].
    set (s1 := setobj s o _).
    assert (I1 : inv s1 [m]) by (apply (setmem_inv s []); [exact I|exact Hb|cbn [app]; exact (remove_perm i _ m Em)]).
    destruct (kill_ok (length (refs s)) s1 [m] I1 (nlive_le s1)) as (s' & K & _ & Sh & _).
    rewrite K. cbn [good]. apply (shrink_aw s1 s' [m]); [exact (inv_nil _ _ I1)| |exact Sh]. apply (aw_mono s); auto.
    + intros x xf Hx. right; right. exists x, xf. auto.
    + intros y c0 c H0 H1 Ha. left. unfold s1 in H1. rewrite getobj_setobj in H1 by (eapply getobj_lt; exact Hb).
      destruct (Nat.eqb_spec y o) as [->|]; [|congruence]. injection H1 as <-. rewrite Hb in H0. injection H0 as <-. exact Ha.
  - (* Attach *) destruct V as (Lr & Lo & K). unfold attach. destruct (live_get _ _ Lr) as (rf0 & H0). rewrite H0.
    destruct (match r_t rf0 with Some o' => Nat.eqb o o' | None => false end) eqn:Es; [cbn; auto|].
    destruct (liveo_get _ _ Lo) as (b0 & Hb0). rewrite Hb0.
    assert (K' : keeps s r (fun s1 => live_obj s1 o)).
    { apply K. intros rf E. rewrite H0 in E. injection E as <-. intros E. rewrite E, Nat.eqb_refl in Es. discriminate. }
    pose proof (detach_dest s r _ I Lr K') as D. pose proof (fun s1 u => detach_aw s r rf0 s1 u I AW H0) as DA.
    destruct (detach s r) as [u s1|s1| |]; cbn [good]; auto.
    2:{ now subst. }
    specialize (DA s1 u eq_refl).
    destruct D as (I1 & Lo1 & _ & rf & H & Et). destruct (liveo_get _ _ Lo1) as (b & Hb). rewrite Hb, H. cbv zeta.
    assert (Lob := getobj_lt _ _ _ Hb). assert (Lr1 := getref_lt _ _ _ H).
    assert (HK : forall b' nf, r_t nf = Some o -> r_wr nf = o_anon b' || negb (f_ro fl) ->
        (o_anon b' = o_anon b \/ tc o (refs s1) = 0%nat) ->
        all_writable (setref (setobj s1 o (Some b')) r (Some nf))).
    { intros b' nf En Ew Hb' x xf y c Hx Ht Hc Ha. rewrite getref_setref in Hx by exact Lr1. rewrite getobj_setref, getobj_setobj in Hc by exact Lob.
      destruct (Nat.eqb_spec x r) as [->|Nx].
      - injection Hx as <-. rewrite En in Ht. injection Ht as <-. rewrite Nat.eqb_refl in Hc. injection Hc as <-. rewrite Ew, Ha. reflexivity.
      - rewrite getref_setobj in Hx. destruct (Nat.eqb_spec y o) as [->|Ny].
        + injection Hc as <-. destruct Hb' as [E|Z0]; [|exfalso; exact (proj1 (tc_zero _ _) Z0 x xf Hx Ht)].
          apply (DA x xf o b Hx Ht Hb). congruence.
        + exact (DA x xf y c Hx Ht Hc Ha). }
    destruct (Z.eqb_spec (o_cnt b) 0) as [Ec|Ec].
    + assert (Z0 : tc o (refs s1) = 0%nat) by (rewrite (i_cnt _ _ I1 o b Hb) in Ec; lia).
      destruct (f_own fl) eqn:Ew.
      * rewrite getobj_setobj, Nat.eqb_refl by exact Lob. cbn [good]. unfold setobj at 1. cbn [objs setobj refs]. rewrite setn_setn.
        apply HK; auto.
      * rewrite getobj_setobj, Nat.eqb_refl by exact Lob. cbn [good]. unfold setobj at 1. cbn [objs setobj refs]. rewrite setn_setn.
        apply HK; auto.
      * match goal with |- context [clone_with ?p s1 b ?fl' 0] => pose proof (clone_shallow_aw p s1 o b fl') as C;
          pose proof (clone_with_ok p s1 b o fl' 0 (priv_ok fuel) I1 Hb) as C2;
          destruct (clone_with p s1 b fl' 0) as [o2 s2|s2| |] end.
        -- cbn in Ge. destruct C as (ms & s3 & -> & -> & O3 & R3); auto; [unfold plain; cbn; auto|].
           destruct C2 as (ms' & s3' & E1 & E2 & I3 & G3 & Hms & _).
           assert (s3' = s3 /\ ms' = ms) as [-> ->].
           { unfold newobj in E2. injection E2 as Er Eo. apply app_inj_tail in Eo as [Eo Eb]. injection Eb as Em. split; [|congruence].
             destruct s3, s3'. cbn in *. congruence. }
           clear E1 E2.
           assert (E2 : getobj (newobj s3 b ms) (length (objs s3)) =
              Some {| o_cnt := 0; o_anon := false; o_sing := false; o_lockm := o_lockm b; o_data := o_data b; o_mem := ms |}).
           { unfold getobj, newobj. cbn [objs]. rewrite app_nth2, Nat.sub_diag by lia. reflexivity. }
           rewrite E2. assert (L2 := getobj_lt _ _ _ E2).
           rewrite getobj_setobj, Nat.eqb_refl by exact L2. cbn [good with_anon with_cnt o_cnt o_anon o_sing o_lockm o_data o_mem].
           assert (H3 : getref s3 r = Some rf) by (rewrite (g_ref _ _ _ G3 r Lr1 (fun F => F)); exact H).
           match goal with |- all_writable ?X => assert (E3 : exists nf, r_t nf = Some (length (objs s3)) /\ r_wr nf = true /\ X = give s3 b ms r nf None) end.
           { eexists. split; [|split; [|unfold give, newobj, setref, setobj; cbn [refs objs]; rewrite !setn_last; reflexivity]]; reflexivity. }
           destruct E3 as (nf & En & Wn & ->). apply (aw_mono s1); auto.
           ++ intros x xf Hx. rewrite getref_give in Hx by (eapply getref_lt; exact H3).
              destruct (Nat.eqb_spec x r); [injection Hx as <-; auto|]. unfold getref in Hx. rewrite R3 in Hx.
              destruct (Nat.ltb_spec x (length (refs s1))) as [Lx|Lx].
              ** rewrite app_nth1 in Hx by exact Lx. right; right. exists x, xf. auto.
              ** rewrite app_nth2 in Hx by exact Lx. set (j := (x - length (refs s1))%nat) in *.
                 assert (Lj : (j < length (o_mem b))%nat).
                 { destruct (Nat.ltb_spec j (length (o_mem b))); auto. rewrite nth_overflow in Hx; [discriminate|]. rewrite map_length. lia. }
                 set (fn := fun m => Some (shal (o_lockm b) (getref s1 m))) in *.
                 rewrite (nth_indep _ None (fn 0%nat)) in Hx by (rewrite map_length; exact Lj).
                 rewrite map_nth in Hx. unfold fn in Hx. injection Hx as <-. set (m := nth j (o_mem b) 0%nat) in *.
                 assert (Hm : In m (o_mem b)) by (apply nth_In; exact Lj).
                 destruct (i_live _ _ I1 m) as (mf & Hmf); [apply owned_in; exists o, b; auto|]. rewrite Hmf.
                 destruct (r_t mf) as [y|] eqn:Emf; [right; right|left; unfold shal; rewrite Emf; reflexivity].
                 exists m, mf. split; [exact Hmf|]. unfold shal. rewrite Emf. auto.
           ++ intros y c0 c Hy Hc Ha. left. rewrite getobj_give in Hc by discriminate. assert (Ly := getobj_lt _ _ _ Hy).
              destruct (Nat.eqb_spec y (length (objs s3))); [lia|]. destruct (g_obj _ _ _ G3 y c0 Hy) as (e & E). rewrite E in Hc.
              injection Hc as <-. exact Ha.
        -- cbn [good]. destruct (C ltac:(cbn in Ge; unfold plain; cbn; auto) I1 DA Hb). exact DA.
        -- destruct C2.
        -- exact Logic.I.
    + cbn [good]. apply HK; auto.
  - (* Copy *) destruct V as (Lr & Lx & K). destruct Ge as [FD Hd]. unfold copy, copy_with. destruct (Nat.eqb_spec r x) as [E|N]; [cbn; auto|].
    destruct (live_get _ _ Lr) as (rf0 & H0).
    pose proof (detach_dest s r _ I Lr (K N)) as D. pose proof (fun s1 u => detach_aw s r rf0 s1 u I AW H0) as DA.
    destruct (detach s r) as [u s1|s1| |]; cbn [good]; auto.
    2:{ now subst. }
    specialize (DA s1 u eq_refl).
    destruct D as (I1 & Lx1 & LF1 & rf & H & Et). destruct (live_get _ _ Lx1) as (xf & Hx). rewrite Hx, H.
    assert (Lr1 := getref_lt _ _ _ H).
    destruct (r_t xf) as [o|] eqn:Ex.
    2:{ cbn [good]. apply (aw_mono s1); auto.
        - intros z zf Hz. rewrite getref_setref in Hz by exact Lr1. destruct (Nat.eqb_spec z r); [injection Hz as <-; auto|].
          right; right. exists z, zf. auto.
        - intros y c0 c H1 H2 Ha. rewrite getobj_setref in H2. left. congruence. }
    destruct (i_tgt _ _ I1 x xf o Hx Ex) as (b & Hb). rewrite Hb. rewrite (nondeep fl depth FD Hd). cbn [good]. apply (aw_mono s1); auto.
    + intros z zf Hz. rewrite getref_setref in Hz by exact Lr1. destruct (Nat.eqb_spec z r).
      * injection Hz as <-. right; right. exists x, xf. auto.
      * right; right. exists z, zf. auto.
    + intros y c0 c H1 H2 Ha. rewrite getobj_setref, getobj_setobj in H2 by (eapply getobj_lt; exact Hb). left.
      destruct (Nat.eqb_spec y o) as [->|]; [|congruence]. injection H2 as <-. rewrite Hb in H1. injection H1 as <-. exact Ha.
  - (* Xfer *) destruct V as (Lr & Lx & K). destruct Ge as [FD Hd]. unfold xfer. destruct (Nat.eqb_spec r x) as [E|N]; [cbn; auto|].
    destruct (live_get _ _ Lr) as (rf0 & H0).
    pose proof (detach_dest s r _ I Lr (K N)) as D. pose proof (fun s1 u => detach_aw s r rf0 s1 u I AW H0) as DA.
    destruct (detach s r) as [u s1|s1| |]; cbn [good]; auto.
    2:{ now subst. }
    specialize (DA s1 u eq_refl).
    destruct D as (I1 & Lx1 & LF1 & rf & H & Et). destruct (live_get _ _ Lx1) as (xf & Hx). rewrite Hx, H.
    assert (Lr1 := getref_lt _ _ _ H). assert (Lxl := getref_lt _ _ _ Hx).
    destruct (r_t xf) as [o|] eqn:Ex.
    2:{ cbn [good]. apply (aw_mono s1); auto.
        - intros z zf Hz. rewrite getref_setref in Hz by exact Lr1. destruct (Nat.eqb_spec z r); [injection Hz as <-; auto|].
          right; right. exists z, zf. auto.
        - intros y c0 c H1 H2 Ha. rewrite getobj_setref in H2. left. congruence. }
    destruct (i_tgt _ _ I1 x xf o Hx Ex) as (b & Hb). rewrite Hb. destruct (r_lock xf); [exact DA|].
    rewrite (nondeep fl depth FD Hd). cbn [good]. apply (aw_mono s1); auto.
    + intros z zf Hz. rewrite getref_setref in Hz by (cbn; rewrite setn_length; exact Lxl).
      destruct (Nat.eqb_spec z x); [injection Hz as <-; auto|]. rewrite getref_setref in Hz by exact Lr1. destruct (Nat.eqb_spec z r).
      * injection Hz as <-. right; right. exists x, xf. auto.
      * right; right. exists z, zf. auto.
    + intros y c0 c H1 H2 Ha. rewrite !getobj_setref in H2. left. congruence.
  - destruct (live_get _ _ V) as (rf & H). pose proof (fun s1 u => detach_aw s r rf s1 u I AW H) as DA. pose proof (detach_ok s r rf I H) as D.
    destruct (detach s r) as [u s1|s1| |]; cbn [good]; auto.
    + exact (DA s1 u eq_refl).
    + destruct D as (-> & _). auto.
  - destruct Ge as [FD Hd]. destruct (live_get _ _ V) as (rf & H). exact (priv_aw fuel s r rf fl depth FD Hd I AW H).
  - destruct (live_get _ _ V) as (rf & H). rewrite H. cbn [good]. apply (aw_mono s); auto.
    + intros z zf Hz. rewrite getref_setref in Hz by (eapply getref_lt; exact H). right; right. destruct (Nat.eqb_spec z r) as [->|].
      * injection Hz as <-. exists r, rf. auto.
      * exists z, zf. auto.
    + intros y c0 c H1 H2 Ha. rewrite getobj_setref in H2. left. congruence.
  - destruct (live_get _ _ V) as (rf & H). rewrite H. cbn [good]. apply (aw_mono s); auto.
    + intros z zf Hz. rewrite getref_setref in Hz by (eapply getref_lt; exact H). right; right. destruct (Nat.eqb_spec z r) as [->|].
      * injection Hz as <-. exists r, rf. auto.
      * exists z, zf. auto.
    + intros y c0 c H1 H2 Ha. rewrite getobj_setref in H2. left. congruence.
  - destruct (live_get _ _ V) as (rf & H). rewrite H. cbn in Ge. destruct (r_t rf) eqn:Et; cbn [good]; auto. rewrite Ge. apply (aw_mono s); auto.
    + intros z zf Hz. rewrite getref_setref in Hz by (eapply getref_lt; exact H). right; right. destruct (Nat.eqb_spec z r) as [->|].
      * injection Hz as <-. exists r, rf. auto.
      * exists z, zf. auto.
    + intros y c0 c H1 H2 Ha. rewrite getobj_setref in H2. left. congruence.
  - destruct V as [Lr Nr]. destruct (live_get _ _ Lr) as (rf & H).
    assert (I1 : inv s [r]).
    { constructor; try apply I.
      - cbn. constructor; [exact Nr|apply I].
      - intros m [<-|Hm]; [eauto|apply (i_live _ _ I); exact Hm]. }
    destruct (kill_ok (length (refs s)) s [r] I1 (nlive_le s)) as (s' & K & I' & Sh & LF').
    rewrite K. cbn [good]. exact (shrink_aw s s' [r] I AW Sh).
  - exact (write_aw fuel path s r v I AW V).
  - pose proof (step_ok fuel s (DeleteObj o) I V) as G. cbn [step] in G. destruct V as (b & Hb & Ha & Hn). rewrite Hb, Ha in *. assert (Lo := getobj_lt _ _ _ Hb).
    assert (I1 : inv (setobj s o None) (o_mem b)).
    { destruct (owned_setn o None (objs s) Lo) as (rest & P1 & P2). fold (getobj s o) in P1. rewrite Hb in P1.
      cbn [mems] in P1, P2. cbn [app] in P2.
      assert (PP : Permutation (o_mem b ++ owned (objs (setobj s o None))) (owned (objs s))) by (cbn [objs setobj]; rewrite P1, P2; reflexivity).
      constructor.
      - intros x xf y Hx Ht. rewrite getobj_setobj by exact Lo. destruct (Nat.eqb_spec y o) as [->|].
        + exfalso. exact (proj1 (tc_zero o (refs s)) Hn x xf Hx Ht).
        + exact (i_tgt _ _ I x xf y Hx Ht).
      - intros y c Hy. rewrite getobj_setobj in Hy by exact Lo. destruct (Nat.eqb_spec y o); [discriminate|]. exact (i_cnt _ _ I y c Hy).
      - apply (Permutation_NoDup (Permutation_sym PP)). apply I.
      - intros m Hm. apply (Permutation_in _ PP) in Hm. exact (i_live _ _ I m Hm). }
    destruct (kill_ok (length (refs s)) _ (o_mem b) I1 (nlive_le (setobj s o None))) as (s' & K & I' & Sh & LF').
    rewrite K. cbn [good]. apply (shrink_aw (setobj s o None) s' (o_mem b)); [exact (inv_nil _ _ I1)| |exact Sh].
    apply (aw_mono s); auto.
    + intros z zf Hz. right; right. exists z, zf. auto.
    + intros y c0 c H1 H2 Hc. rewrite getobj_setobj in H2 by exact Lo. left. destruct (Nat.eqb_spec y o); [discriminate|congruence].
Qed.

Lemma gentle_reach s : reach_gentle s -> reach s /\ all_writable s /\ leakfree s.
Proof.
  induction 1 as [|s a fuel s' R (IH1 & IH2 & IH3) V Ge A].
  - split; [constructor|]. split; [intros [|r] rf o b H; discriminate|intros [|o] b H; discriminate].
  - split; [eapply reach_step; eauto|]. pose proof (reach_inv s IH1) as I.
    pose proof (step_aw fuel s a I V Ge IH2) as W. pose proof (step_ok fuel s a I V) as G.
    assert (C : careful s a).
    { destruct a; cbn in *; auto.
      - left. intros [D|D]; destruct Ge; [congruence|lia].
      - destruct Ge as [FD Hd]. destruct (live_get _ _ V) as (rf & H).
        destruct (r_t rf) as [o|] eqn:Et.
        + destruct (i_tgt _ _ I r rf o H Et) as (b & Hb). destruct (o_anon b) eqn:Ea.
          * right. split; [intros [D|D]; [congruence|lia]|]. intros rf' H'. rewrite H in H'. injection H' as <-. exact (IH2 r rf o b H Et Hb Ea).
          * left. intros (rf' & o' & b' & A1 & A2 & A3 & A4 & _). congruence.
        + left. intros (rf' & o' & b' & A1 & A2 & _). congruence. }
    destruct A as [(u & E)|E]; rewrite E in W, G; cbn [good] in *; (split; [exact W|]; apply G; auto).
Qed.
