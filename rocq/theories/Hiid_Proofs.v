From Verif Require Import Base Bytes_Model Bytes_Proofs Hiid_Model Hiid_Spec.
Local Open Scope Z_scope.

Ltac aidcases :=
  unfold aid_matches, isAny, isWildcard, AidAny, AidWildcard in *.

(** ** Patterns always describe something *)
Lemma denotes_inhabited p : exists s, concrete s /\ denotes p s.
Proof.
  induction p as [|a p IH]; [exists []; split; constructor|].
  destruct IH as (s & Hc & Hd).
  destruct (Z.eq_dec a (-2)) as [->|H2]; [exists []; split; [constructor|apply den_star]|].
  destruct (Z.eq_dec a (-1)) as [->|H1].
  - exists (0 :: s); split; [constructor; auto; lia | now constructor].
  - exists (a :: s); split; [constructor; auto | now constructor].
Qed.

Lemma denotes_nil_inv p : denotes p [] <-> (p = [] \/ exists q, p = -2 :: q).
Proof.
  split.
  - inversion 1; subst; eauto.
  - intros [->|(q & ->)]; constructor.
Qed.

(** ** matches = languages intersect *)
Lemma matches_sound x : forall y, hiid_matches x y = true ->
  exists s, concrete s /\ denotes x s /\ denotes y s.
Proof.
  induction x as [|a x IH]; intros y H.
  - destruct y as [|b y]; cbn in H; [exists []; repeat split; constructor|].
    aidcases. assert (b = -2) as -> by lia. exists []; repeat split; constructor.
  - destruct y as [|b y]; cbn in H.
    + aidcases. assert (a = -2) as -> by lia. exists []; repeat split; constructor.
    + destruct (Z.eq_dec a (-2)) as [->|Ha2].
      { destruct (denotes_inhabited (b :: y)) as (s & Hc & Hd).
        exists s; repeat split; auto; constructor. }
      destruct (Z.eq_dec b (-2)) as [->|Hb2].
      { destruct (denotes_inhabited (a :: x)) as (s & Hc & Hd).
        exists s; repeat split; auto; constructor. }
      aidcases.
      destruct ((a =? -2) || (b =? -2)) eqn:E; [lia|].
      destruct (negb _) eqn:E2; [discriminate|].
      apply IH in H. destruct H as (s & Hc & Hx & Hy).
      destruct (Z.eq_dec a (-1)) as [->|Ha1]; destruct (Z.eq_dec b (-1)) as [->|Hb1].
      * exists (0 :: s); repeat split; constructor; auto; lia.
      * exists (b :: s); repeat split; constructor; auto.
      * exists (a :: s); repeat split; constructor; auto.
      * assert (a = b) as -> by lia. exists (b :: s); repeat split; constructor; auto.
Qed.

Lemma matches_complete x : forall y s,
  denotes x s -> denotes y s -> hiid_matches x y = true.
Proof.
  induction x as [|a x IH]; intros y s Hx Hy.
  - inversion Hx; subst. apply denotes_nil_inv in Hy. destruct Hy as [->|(q & ->)]; reflexivity.
  - destruct y as [|b y].
    + inversion Hy; subst. apply denotes_nil_inv in Hx. destruct Hx as [E|(q & E)]; [discriminate|].
      injection E as -> ->. reflexivity.
    + cbn. aidcases. destruct ((a =? -2) || (b =? -2)) eqn:E; [reflexivity|].
      inversion Hx; subst; inversion Hy; subst; try lia.
      all: match goal with |- (if negb ?c then _ else _) = _ => assert (c = true) as -> by lia end.
      all: cbn [negb]; eapply IH; eauto.
Qed.

Lemma matches_iff x y : hiid_matches x y = true <->
  exists s, concrete s /\ denotes x s /\ denotes y s.
Proof.
  split; [apply matches_sound|]. intros (s & _ & Hx & Hy). eapply matches_complete; eauto.
Qed.

Lemma matches_obj_iff same x y : (same = true -> x = y) ->
  (hiid_matches_obj same x y = true <-> exists s, concrete s /\ denotes x s /\ denotes y s).
Proof.
  intros Hs. unfold hiid_matches_obj. destruct same; [|apply matches_iff].
  rewrite <- Hs by reflexivity. split; [|reflexivity]. intros _.
  destruct (denotes_inhabited x) as (s & Hc & Hd). eauto.
Qed.

Lemma matches_sym x y : hiid_matches x y = hiid_matches y x.
Proof.
  apply eq_true_iff_eq. rewrite !matches_iff. firstorder.
Qed.

Lemma denotes_app_star p s : concrete s ->
  (denotes (p ++ [-2]) s <-> exists t u, s = t ++ u /\ denotes p t).
Proof.
  intros Hc; split.
  - revert s Hc; induction p as [|a p IH]; intros s Hc H.
    + exists [], s; split; [reflexivity|constructor].
    + cbn in H. inversion H; subst.
      * exists [], s; split; [reflexivity|constructor].
      * inversion Hc; subst. match goal with Hd : denotes (p ++ [-2]) ?s0, Hs : Forall _ ?s0 |- _ => destruct (IH s0 Hs Hd) as (t & u & -> & Ht) end.
        exists (a0 :: t), u; split; [reflexivity|now constructor].
      * inversion Hc; subst. match goal with Hd : denotes (p ++ [-2]) ?s0, Hs : Forall _ ?s0 |- _ => destruct (IH s0 Hs Hd) as (t & u & -> & Ht) end.
        exists (a :: t), u; split; [reflexivity|now constructor].
  - intros (t & u & -> & Ht). clear Hc. induction Ht; cbn; now constructor.
Qed.

Lemma prefixedBy_iff x p : hiid_prefixedBy x p = true <->
  exists t u, concrete (t ++ u) /\ denotes x (t ++ u) /\ denotes p t.
Proof.
  unfold hiid_prefixedBy. rewrite matches_iff. split.
  - intros (s & Hc & Hx & Hp). apply denotes_app_star in Hp; [|exact Hc].
    destruct Hp as (t & u & -> & Hp). eauto.
  - intros (t & u & Hc & Hx & Hp). exists (t ++ u). repeat split; auto.
    apply denotes_app_star; eauto.
Qed.

(** for a concrete identifier [s], matching means being described *)
Lemma denotes_concrete_self s t : concrete s -> (denotes s t <-> t = s).
Proof.
  intros Hc; split.
  - revert t; induction Hc as [|a s [H1 H2] Hs IH]; intros t H; inversion H; subst; try lia; f_equal; auto.
  - intros ->. induction Hc as [|a s [H1 H2] Hs IH]; constructor; auto.
Qed.

Lemma matches_concrete p s : concrete s -> (hiid_matches p s = true <-> denotes p s).
Proof.
  intros Hc. rewrite matches_iff. split.
  - intros (t & Ht & Hp & Hs). apply denotes_concrete_self in Hs; [|exact Hc]. now subst.
  - intros Hp. exists s; repeat split; auto. now apply denotes_concrete_self.
Qed.

(** ** subsetOf = language inclusion *)
Lemma subset_sound x : forall y, hiid_subset x y = true ->
  forall s, denotes x s -> denotes y s.
Proof.
  induction x as [|a x IH]; intros y H s Hs.
  - destruct y as [|b y]; cbn in H; [exact Hs|].
    aidcases. assert (b = -2) as -> by lia. constructor.
  - destruct y as [|b y]; cbn in H; [lia|].
    aidcases. destruct (Z.eq_dec b (-2)) as [->|Hb]; [constructor|].
    destruct (b =? -2) eqn:E; [lia|].
    match type of H with (if ?c then _ else _) = _ => destruct c eqn:E2; [discriminate|] end.
    inversion Hs; subst; try lia.
    + assert (b = -1) as -> by lia. constructor. eapply IH; eauto.
    + destruct (Z.eq_dec b (-1)) as [->|Hb1]; [constructor; eapply IH; eauto|].
      assert (a = b) as -> by lia. constructor; auto; eapply IH; eauto.
Qed.

(** an atom different from two given ones and from the special ones *)
Definition fresh_atom (b : Z) : Z := if b =? 0 then 1 else 0.

Lemma subset_complete x : forall y,
  (forall s, concrete s -> denotes x s -> denotes y s) -> hiid_subset x y = true.
Proof.
  induction x as [|a x IH]; intros y H.
  - assert (Hn : denotes y []) by (apply H; constructor).
    apply denotes_nil_inv in Hn. destruct Hn as [->|(q & ->)]; reflexivity.
  - destruct (denotes_inhabited x) as (sx & Hcx & Hdx).
    destruct y as [|b y].
    + (* x describes a non-empty identifier *)
      exfalso.
      destruct (Z.eq_dec a (-2)) as [->|H2];
        [assert (Hd : denotes [] [0]) by (apply H; [constructor; [lia|constructor]|constructor]); inversion Hd|].
      destruct (Z.eq_dec a (-1)) as [->|H1].
      * assert (Hd : denotes [] (0 :: sx)) by (apply H; [constructor; auto; lia|now constructor]). inversion Hd.
      * assert (Hd : denotes [] (a :: sx)) by (apply H; [constructor; auto|now constructor]). inversion Hd.
    + cbn. aidcases. destruct (Z.eq_dec b (-2)) as [->|Hb2]; [reflexivity|].
      destruct (b =? -2) eqn:E; [lia|].
      assert (Ha2 : a <> -2).
      { intros ->. assert (Hd : denotes (b :: y) []) by (apply H; constructor).
        inversion Hd; subst; lia. }
      assert (Hany : a = -1 -> b = -1).
      { intros ->. destruct (Z.eq_dec b (-1)) as [|Hb1]; [assumption|exfalso].
        assert (Hd : denotes (b :: y) (fresh_atom b :: sx)).
        { apply H; [constructor; auto; unfold fresh_atom; destruct (b =? 0); lia | now constructor]. }
        unfold fresh_atom in Hd. destruct (b =? 0) eqn:E0; inversion Hd; subst; lia. }
      assert (Hab : b <> -1 -> a = b).
      { intros Hb1. destruct (Z.eq_dec a (-1)) as [->|Ha1]; [lia|].
        assert (Hd : denotes (b :: y) (a :: sx)) by (apply H; [constructor; auto|now constructor]).
        inversion Hd; subst; lia. }
      match goal with |- (if ?c then _ else _) = _ => assert (c = false) as -> by lia end.
      apply IH. intros s Hc Hs.
      destruct (Z.eq_dec a (-1)) as [->|Ha1].
      * assert (Hd : denotes (b :: y) (0 :: s)) by (apply H; [constructor; auto; lia|now constructor]).
        inversion Hd; subst; auto; lia.
      * assert (Hd : denotes (b :: y) (a :: s)) by (apply H; [constructor; auto|now constructor]).
        inversion Hd; subst; auto; lia.
Qed.

Lemma subset_iff x y : hiid_subset x y = true <->
  forall s, concrete s -> denotes x s -> denotes y s.
Proof. split; [intros H s _; now apply subset_sound | apply subset_complete]. Qed.

Lemma subset_obj_iff same x y : (same = true -> x = y) ->
  (hiid_subset_obj same x y = true <-> forall s, concrete s -> denotes x s -> denotes y s).
Proof.
  intros Hs. unfold hiid_subset_obj. destruct same; [|apply subset_iff].
  rewrite <- Hs by reflexivity. split; auto.
Qed.

Lemma subset_refl x : hiid_subset x x = true.
Proof. apply subset_iff; auto. Qed.
Lemma subset_trans x y z :
  hiid_subset x y = true -> hiid_subset y z = true -> hiid_subset x z = true.
Proof. rewrite !subset_iff. auto. Qed.
Lemma subset_matches_mono x y z :
  hiid_subset x y = true -> hiid_matches x z = true -> hiid_matches y z = true.
Proof. rewrite subset_iff, !matches_iff. intros H (s & Hc & Hx & Hz). eauto. Qed.

(** ** equality and order *)
Lemma hiid_eqb_iff x y : hiid_eqb x y = true <-> x = y.
Proof.
  unfold hiid_eqb. revert y; induction x as [|a x IH]; intros [|b y]; cbn; try (split; congruence).
  specialize (IH y).
  destruct (Nat.eqb (length x) (length y)) eqn:E.
  - rewrite andb_true_iff, IH, Z.eqb_eq. split; [intros [-> ->]|intros [=]]; auto.
  - split; [discriminate|]. intros [=]; subst. rewrite Nat.eqb_refl in E. discriminate.
Qed.

Lemma hiid_ltb_iff x y : hiid_ltb x y = true <-> lex_lt x y.
Proof.
  revert y; induction x as [|a x IH]; intros y.
  - destruct y; cbn; split; intros H; try constructor; inversion H; congruence.
  - destruct y as [|b y]; cbn; [split; [discriminate|inversion 1]|].
    destruct (a <? b) eqn:E; [split; [intros _; apply lex_head; lia|reflexivity]|].
    destruct (a >? b) eqn:E2; [split; [discriminate|inversion 1; subst; lia]|].
    assert (a = b) as -> by lia. rewrite IH. split; [now constructor|].
    inversion 1; subst; [lia|assumption].
Qed.

Lemma lex_irrefl x : ~ lex_lt x x.
Proof. induction x as [|a x IH]; inversion 1; subst; [lia|auto]. Qed.
Lemma lex_trans x y z : lex_lt x y -> lex_lt y z -> lex_lt x z.
Proof.
  intros H; revert z; induction H; intros z Hz; inversion Hz; subst; try (constructor; auto; lia).
Qed.
Lemma lex_total x y : lex_lt x y \/ x = y \/ lex_lt y x.
Proof.
  revert y; induction x as [|a x IH]; intros [|b y].
  - auto.
  - left; constructor.
  - right; right; constructor.
  - destruct (Z.lt_trichotomy a b) as [H|[->|H]].
    + left; now constructor.
    + destruct (IH y) as [H|[->|H]]; [left; now constructor|auto|right; right; now constructor].
    + right; right; now constructor.
Qed.

Lemma hiid_order_strict_total :
  (forall x, hiid_ltb x x = false) /\
  (forall x y z, hiid_ltb x y = true -> hiid_ltb y z = true -> hiid_ltb x z = true) /\
  (forall x y,
     (hiid_ltb x y = true /\ hiid_eqb x y = false /\ hiid_ltb y x = false) \/
     (hiid_ltb x y = false /\ hiid_eqb x y = true /\ hiid_ltb y x = false) \/
     (hiid_ltb x y = false /\ hiid_eqb x y = false /\ hiid_ltb y x = true)).
Proof.
  assert (F : forall x y, hiid_ltb x y = false <-> ~ lex_lt x y).
  { intros x y. rewrite <- hiid_ltb_iff. destruct (hiid_ltb x y); split; congruence. }
  assert (E : forall x y, hiid_eqb x y = false <-> x <> y).
  { intros x y. rewrite <- hiid_eqb_iff. destruct (hiid_eqb x y); split; congruence. }
  split; [|split].
  - intros x. apply F, lex_irrefl.
  - intros x y z. rewrite !hiid_ltb_iff. apply lex_trans.
  - intros x y. rewrite !F, !E, !hiid_eqb_iff, !hiid_ltb_iff.
    destruct (lex_total x y) as [H|[->|H]].
    + left. repeat split; auto.
      * intros ->. now apply (lex_irrefl y).
      * intros H'. apply (lex_irrefl x). eapply lex_trans; eauto.
    + right; left. repeat split; auto using lex_irrefl.
    + right; right. repeat split; auto.
      * intros H'. apply (lex_irrefl x). eapply lex_trans; eauto.
      * intros ->. now apply (lex_irrefl y).
Qed.

(** ** pack / unpack *)

Lemma hiid_pack_ok x nleft : (hiid_packSize x <= nleft)%nat ->
  exists bs, hiid_pack x nleft = Ok (bs, hiid_packSize x, (nleft - hiid_packSize x)%nat) /\
             length bs = hiid_packSize x.
Proof.
  intros H. unfold hiid_pack, hiid_packSize in *.
  destruct (Nat.ltb_spec nleft (4 * length x)); [lia|].
  eexists; split; [reflexivity|]. apply enc_i32s_length.
Qed.

Lemma hiid_pack_unpack x nleft bs n nl rest :
  hiid_ok x -> hiid_pack x nleft = Ok (bs, n, nl) ->
  hiid_unpack (bs ++ rest) n = Ok x.
Proof.
  unfold hiid_pack, hiid_unpack. intros Hok H.
  destruct (Nat.ltb nleft (4 * length x)) eqn:E; [discriminate|].
  assert (E1 : bs = enc_i32s x /\ n = (4 * length x)%nat) by (split; congruence).
  destruct E1 as [-> ->]. clear H.
  assert ((4 * length x) mod 4 = 0)%nat as -> by (rewrite Nat.mul_comm; apply Nat.mod_mul; lia).
  cbn [Nat.eqb negb].
  rewrite app_length, enc_i32s_length.
  destruct (Nat.ltb_spec (4 * length x + length rest) (4 * length x)); [lia|].
  assert ((4 * length x) / 4 = length x)%nat as -> by (rewrite Nat.mul_comm; apply Nat.div_mul; lia).
  f_equal. apply dec_enc_i32s. exact Hok.
Qed.

Lemma hiid_unpack_pack block x : Forall (fun b => byte_ok b = true) block ->
  hiid_unpack block (length block) = Ok x ->
  hiid_ok x /\ hiid_pack x (length block) = Ok (block, length block, O).
Proof.
  intros Hb. unfold hiid_unpack, hiid_pack.
  destruct (Nat.eqb (length block mod 4) 0) eqn:E; [cbn [negb]|discriminate].
  destruct (Nat.ltb_spec (length block) (length block)); [lia|].
  intros [=<-]. apply Nat.eqb_eq in E.
  assert (Hl : (length block = 4 * (length block / 4))%nat).
  { pose proof (Nat.div_mod (length block) 4 ltac:(lia)) as D. rewrite E in D. lia. }
  split.
  - apply dec_i32s_ok; [lia|assumption].
  - rewrite dec_i32s_length.
    destruct (Nat.ltb_spec (length block) (4 * (length block / 4))); [lia|].
    rewrite enc_dec_i32s by assumption. do 2 f_equal; [f_equal|]; lia.
Qed.

(** ** slashes *)
Lemma findFirstSlash_spec x :
  match findFirstSlash x with
  | None => ~ In AidSlash x
  | Some n => exists rest, x = firstn n x ++ AidSlash :: rest /\ ~ In AidSlash (firstn n x) /\ (n < length x)%nat
  end.
Proof.
  induction x as [|a x IH]; cbn; [auto|].
  destruct (a =? AidSlash) eqn:E.
  - apply Z.eqb_eq in E. subst. exists x. cbn. repeat split; auto. lia.
  - assert (a <> AidSlash) by lia.
    destruct (findFirstSlash x) as [n|]; cbn.
    + destruct IH as (rest & Hx & Hn & Hl). exists rest. repeat split; [now f_equal| |lia].
      intros [->|Hi]; [congruence|auto].
    + intros [->|Hi]; [congruence|auto].
Qed.

Lemma pop_front_skipn x n : pop_front x n = skipn n x.
Proof.
  unfold pop_front. destruct (Nat.leb_spec (length x) n); [|reflexivity].
  now rewrite skipn_all2 by lia.
Qed.

Lemma splitAtSlash_spec x :
  (~ In AidSlash x /\ splitAtSlash x = (x, [])) \/
  (exists pre post, x = pre ++ AidSlash :: post /\ ~ In AidSlash pre /\
                    splitAtSlash x = (pre, post)).
Proof.
  unfold splitAtSlash. pose proof (findFirstSlash_spec x) as H.
  destruct (findFirstSlash x) as [n|].
  - right. destruct H as (rest & Hx & Hn & Hl).
    exists (firstn n x), rest. repeat split; auto. f_equal.
    rewrite pop_front_skipn. rewrite Hx at 1.
    assert (Hf : length (firstn n x) = n) by (rewrite firstn_length; lia).
    rewrite skipn_app, Hf. replace (n + 1 - n)%nat with 1%nat by lia.
    rewrite skipn_all2 by lia. reflexivity.
  - left. auto.
Qed.

(** repeated splitting, [while(!id.empty()) parts.push_back(id.splitAtSlash())] *)
Fixpoint split_all (fuel : nat) (x : hiid) : list hiid :=
  match fuel with
  | O => []
  | S f => match x with
           | [] => []
           | _ => let '(h, t) := splitAtSlash x in h :: split_all f t
           end
  end.

Lemma splitAtSlash_joined c comps :
  Forall (fun c => ~ In AidSlash c) (c :: comps) ->
  splitAtSlash (joined (c :: comps)) = (c, joined comps).
Proof.
  intros H. inversion H as [|? ? Hc Hcs]; subst.
  destruct comps as [|d comps].
  - cbn. destruct (splitAtSlash_spec c) as [(_ & E)|(pre & post & E & _)]; [exact E|].
    exfalso. apply Hc. rewrite E. apply in_or_app; right; left; reflexivity.
  - change (joined (c :: d :: comps)) with (c ++ AidSlash :: joined (d :: comps)).
    remember (joined (d :: comps)) as post eqn:Hp. clear Hp.
    destruct (splitAtSlash_spec (c ++ AidSlash :: post)) as [(Hn & _)|(pre & po & E & Hpre & E2)].
    + exfalso. apply Hn. apply in_or_app; right; left; reflexivity.
    + rewrite E2. clear E2. revert pre E Hpre. clear H Hcs.
      induction c as [|a c IH]; intros pre E Hpre.
      * destruct pre as [|b pre]; [cbn in E; congruence|].
        cbn in E. injection E as Eb _. exfalso. apply Hpre. left; now rewrite <- Eb.
      * destruct pre as [|b pre].
        -- cbn in E. injection E as Ea _. exfalso. apply Hc. left; exact Ea.
        -- cbn in E. injection E as -> E. cbn in Hc, Hpre.
           assert (IH' := IH (fun h => Hc (or_intror h)) _ E (fun h => Hpre (or_intror h))). congruence.
Qed.

Lemma split_all_joined comps : forall fuel,
  Forall (fun c => ~ In AidSlash c) comps ->
  last comps [1] <> [] -> (length comps <= fuel)%nat ->
  split_all fuel (joined comps) = comps.
Proof.
  induction comps as [|c comps IH]; intros fuel H Hl Hf; [destruct fuel; reflexivity|].
  destruct fuel as [|fuel]; [cbn in Hf; lia|].
  cbn [split_all].
  assert (Hne : joined (c :: comps) <> []).
  { destruct comps as [|d comps]; cbn in *; [auto|]. destruct c; discriminate. }
  destruct (joined (c :: comps)) as [|z zs] eqn:E; [congruence|].
  rewrite <- E. rewrite splitAtSlash_joined by assumption. f_equal.
  inversion H; subst. destruct comps as [|d comps]; [destruct fuel; reflexivity|].
  apply IH; auto. cbn in *; lia.
Qed.

(** ** push_front *)
Definition push_front_expected (x : hiid) (a : aid) (n : nat) : hiid := repeat a n ++ x.

Lemma push_front_refuted_lemma : exists x a n,
  hiid_ok x /\ push_front x a n <> push_front_expected x a n.
Proof.
  exists [10;20;30], 5, 1%nat. split; [repeat constructor|]. vm_compute. discriminate.
Qed.

Lemma push_front_empty a n : push_front [] a n = push_front_expected [] a n.
Proof.
  unfold push_front, push_front_expected. destruct n as [|n]; [reflexivity|].
  cbn [Nat.eqb]. f_equal. cbn [length plus]. rewrite skipn_all2; [reflexivity|].
  rewrite dec_i32s_length. lia.
Qed.

Lemma skipn_dec_i32s n k bs : skipn n (dec_i32s (n + k) bs) = dec_i32s k (skipn (4 * n) bs).
Proof.
  revert bs; induction n as [|n IH]; intros bs; [reflexivity|].
  cbn [plus dec_i32s]. rewrite skipn_cons. rewrite IH.
  f_equal. replace (4 * S n)%nat with (4 + 4 * n)%nat by lia.
  clear. generalize (4*n)%nat as m. intros m.
  do 4 (destruct bs as [|? bs]; [now rewrite ?skipn_nil|]). reflexivity.
Qed.

Lemma push_front_single b a n : 0 <= b < 256 ->
  push_front [b] a n = push_front_expected [b] a n.
Proof.
  intros Hb. unfold push_front, push_front_expected. destruct n as [|n]; [reflexivity|].
  cbn [Nat.eqb]. f_equal. cbn [length].
  rewrite (Nat.add_comm 1 (S n)), skipn_dec_i32s.
  unfold memmove.
  remember (enc_i32s ([b] ++ repeat 0 (S n))) as m eqn:Hm.
  assert (Hlen : length m = (4 * S (S n))%nat).
  { rewrite Hm, enc_i32s_length, app_length, repeat_length. cbn. lia. }
  rewrite skipn_app_len by (rewrite firstn_length; lia).
  assert (Hf : firstn 1 (skipn 0 m) = [b]).
  { rewrite Hm. cbn. f_equal. rewrite Z.mod_small; lia. }
  rewrite Hf.
  assert (Ht : skipn (4 * S n + 1) m = [0;0;0]).
  { rewrite Hm. assert (Hr : repeat 0 (S n) = repeat 0 n ++ [0]) by apply repeat_cons.
    rewrite Hr, app_assoc, enc_i32s_app, skipn_app.
    rewrite enc_i32s_length, app_length, repeat_length.
    replace (4 * S n + 1 - 4 * (length [b] + n))%nat with 1%nat by (cbn; lia).
    rewrite skipn_all2; [reflexivity|].
    rewrite enc_i32s_length, app_length, repeat_length. cbn. lia. }
  rewrite Ht. cbn [app].
  cbn [dec_i32s firstn skipn]. f_equal. unfold dec_i32, to_signed, le_val.
  change (2 ^ (8 * Z.of_nat 4 - 1)) with 2147483648.
  destruct (_ <? _) eqn:E; lia.
Qed.

(** ** indices at the ends *)
Lemma popLeadIndex_spec x :
  (exists i r, x = i :: r /\ 0 <= i /\ popLeadIndex x = (i, r)) \/
  ((forall i r, x = i :: r -> i < 0) /\ popLeadIndex x = (0, x)).
Proof.
  destruct x as [|a x]; [right; split; [discriminate|reflexivity]|].
  cbn. unfold aid_index. destruct (0 <=? a) eqn:E.
  - left. exists a, x. repeat split; auto; [lia|].
    destruct (a <? 0) eqn:E2; [lia|]. now rewrite pop_front_skipn.
  - right. split; [intros i r [= -> ->]; lia|]. reflexivity.
Qed.

Lemma popTrailIndex_spec x :
  (exists r i, x = r ++ [i] /\ 0 <= i /\ popTrailIndex x = (i, r)) \/
  ((forall r i, x = r ++ [i] -> i < 0) /\ popTrailIndex x = (0, x)).
Proof.
  destruct x as [|a x]; [right; split; [intros [|]; discriminate|reflexivity]|].
  assert (Hne : a :: x <> []) by discriminate.
  destruct (exists_last Hne) as (r & i & E).
  rewrite E.
  assert (Hp : popTrailIndex (r ++ [i]) =
    let ret := aid_index (last (r ++ [i]) 0) in
    if ret <? 0 then (0, r ++ [i]) else (ret, removelast (r ++ [i]))) by (destruct r; reflexivity).
  rewrite Hp. cbv zeta. rewrite !last_last, removelast_last.
  unfold aid_index. destruct (0 <=? i) eqn:Ei.
  - left. exists r, i. destruct (i <? 0) eqn:E2; [lia|]. repeat split; auto. lia.
  - right. split; [|reflexivity].
    intros r' i' H. apply app_inj_tail in H. destruct H; subst; lia.
Qed.

Lemma popLeadSlashes_spec x :
  exists r, x = repeat AidSlash (fst (popLeadSlashes x)) ++ r /\
            snd (popLeadSlashes x) = r /\ (forall s, r <> AidSlash :: s).
Proof.
  unfold popLeadSlashes. cbn [fst snd]. rewrite pop_front_skipn.
  induction x as [|a x IH]; cbn [leadSlashes].
  - exists []. repeat split. discriminate.
  - destruct (a =? AidSlash) eqn:E.
    + apply Z.eqb_eq in E. subst. destruct IH as (r & Hx & Hr & Hn).
      exists r. cbn [repeat skipn app]. repeat split; auto. now f_equal.
    + exists (a :: x). cbn. repeat split. intros s [= -> _]. now rewrite Z.eqb_refl in E.
Qed.
