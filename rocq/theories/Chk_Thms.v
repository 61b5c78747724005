(** The cells of a node's result: C158. *)
From Verif Require Import Base Flt_Model Vset_Model Vset_Spec Vset_Proofs Vset_Thms Chk_Model Chk_Spec.
Open Scope nat_scope.
Open Scope list_scope.

Lemma find_snoc {T} (p : T -> bool) l c : find p (l ++ [c]) = match find p l with Some x => Some x | None => if p c then Some c else None end.
Proof. induction l as [|x l IH]; [reflexivity|]. cbn. destruct (p x); [reflexivity|exact IH]. Qed.
Lemma find_app2 {T} (p : T -> bool) l m : find p (l ++ m) = match find p l with Some x => Some x | None => find p m end.
Proof. induction l as [|x l IH]; [reflexivity|]. cbn. destruct (p x); [reflexivity|exact IH]. Qed.
Lemma snoc_split {T} (l : list T) c a x b : l ++ [c] = a ++ x :: b -> (b = [] /\ a = l /\ x = c) \/ exists b', b = b' ++ [c] /\ l = a ++ x :: b'.
Proof.
  destruct b as [|y b] using rev_ind; intros E.
  - apply app_inj_tail in E. destruct E as [-> ->]. left. auto.
  - change (a ++ x :: b ++ [y]) with (a ++ (x :: b) ++ [y]) in E. rewrite app_assoc in E. apply app_inj_tail in E. destruct E as [-> ->]. right. exists b. auto.
Qed.

Section Thms.
Variable A : arith.
Notation child := (child A).
Notation cells := (cells A).
Notation G := (list (num A * num A)).

(** ** one child *)
Definition domok (rc : cells) : Prop := forall i, k_grid rc i <> [] -> k_dom rc i = range A (k_grid rc i).
(** what happens to an axis, by grids only *)
Definition verdict (s s1 : list nat) (i : nat) (g g1 : G) : option G :=
  if Nat.eqb (length g1) 0 then Some g
  else if Nat.eqb (length g) 0 then Some g1
  else if Nat.eqb (extent s i) 1 then if Nat.ltb 1 (extent s1 i) then Some g1 else Some g
  else if Nat.eqb (extent s1 i) 1 then Some g
  else if negb (Nat.eqb (length g) (length g1)) then None
  else if far A (fst (range A g)) (fst (range A g1)) || far A (snd (range A g)) (snd (range A g1)) then None
  else Some g.
Lemma deg_extent s i : Nat.leb (length s) i || Nat.eqb (nth i s 0) 1 = Nat.eqb (extent s i) 1.
Proof.
  unfold extent. destruct (Nat.leb_spec (length s) i) as [H|H].
  - rewrite (nth_overflow s 1) by exact H. reflexivity.
  - cbn [orb]. rewrite (nth_indep s 0 1 H). reflexivity.
Qed.
Lemma nondeg_extent s i : Nat.ltb i (length s) && Nat.ltb 1 (nth i s 0) = Nat.ltb 1 (extent s i).
Proof.
  unfold extent. destruct (Nat.ltb_spec i (length s)) as [H|H].
  - cbn [andb]. rewrite (nth_indep s 0 1 H). reflexivity.
  - rewrite (nth_overflow s 1) by exact H. reflexivity.
Qed.
Lemma len0 {T} (l : list T) : Nat.eqb (length l) 0 = true <-> l = [].
Proof. destruct l; cbn; split; congruence. Qed.
Lemma axis_step s s1 cc rc i : domok rc -> domok cc ->
  match check_axis A s s1 cc rc i with
  | None => verdict s s1 i (k_grid rc i) (k_grid cc i) = None
  | Some rc' => verdict s s1 i (k_grid rc i) (k_grid cc i) = Some (k_grid rc' i) /\ (forall j, j <> i -> k_grid rc' j = k_grid rc j) /\ domok rc' /\ (k_obj rc' = None \/ k_obj rc' = k_obj rc)
  end.
Proof.
  intros Dr Dc. unfold check_axis, verdict. rewrite deg_extent, nondeg_extent, deg_extent.
  assert (M : let rc' := merge_axis A rc cc i in k_grid rc' i = k_grid cc i /\ (forall j, j <> i -> k_grid rc' j = k_grid rc j) /\ domok rc' /\ (k_obj rc' = None \/ k_obj rc' = k_obj rc)).
  { cbn. rewrite Nat.eqb_refl. split; [reflexivity|]. split; [intros j Hj; destruct (Nat.eqb_spec j i); [contradiction|reflexivity]|]. split; [intros j _; reflexivity|left; reflexivity]. }
  cbv zeta in M. destruct M as (M1 & M2 & M3 & M4).
  destruct (Nat.eqb (length (k_grid cc i)) 0) eqn:E1; [auto|].
  destruct (Nat.eqb (length (k_grid rc i)) 0) eqn:E2; [rewrite M1; auto|].
  destruct (Nat.eqb (extent s i) 1); [destruct (Nat.ltb 1 (extent s1 i)); [rewrite M1; auto|auto]|].
  destruct (Nat.eqb (extent s1 i) 1); [auto|]. destruct (negb _); [reflexivity|].
  rewrite Dr by (intros X; apply len0 in X; congruence). rewrite Dc by (intros X; apply len0 in X; congruence).
  destruct (far A (fst (range A (k_grid rc i))) (fst (range A (k_grid cc i))) || far A (snd (range A (k_grid rc i))) (snd (range A (k_grid cc i)))); auto.
Qed.
Lemma axes_steps s s1 cc : domok cc -> forall is rc, NoDup is -> domok rc ->
  match check_axes A s s1 cc is rc with
  | None => exists i, In i is /\ verdict s s1 i (k_grid rc i) (k_grid cc i) = None
  | Some rc' => (forall i, In i is -> verdict s s1 i (k_grid rc i) (k_grid cc i) = Some (k_grid rc' i)) /\ (forall i, ~ In i is -> k_grid rc' i = k_grid rc i) /\
                domok rc' /\ (k_obj rc' = None \/ k_obj rc' = k_obj rc)
  end.
Proof.
  intros Dc. induction is as [|i is IH]; intros rc N D.
  - cbn. split; [intros i []|]. split; [reflexivity|]. split; [exact D|right; reflexivity].
  - apply NoDup_cons_iff in N. destruct N as [Ni N]. cbn [check_axes]. pose proof (axis_step s s1 cc rc i D Dc) as S.
    destruct (check_axis A s s1 cc rc i) as [rc1|]; [|exists i; split; [left; reflexivity|exact S]].
    destruct S as (S1 & S2 & S3 & S4). specialize (IH rc1 N S3). destruct (check_axes A s s1 cc is rc1) as [rc2|].
    + destruct IH as (I1 & I2 & I3 & I4). split; [|split; [|split; [exact I3|]]].
      * intros j [<-|Hj]; [rewrite (I2 i Ni); exact S1|]. rewrite <- S2 by (intros ->; contradiction). apply I1, Hj.
      * intros j Hj. rewrite I2 by (intros X; apply Hj; right; exact X). apply S2. intros ->. apply Hj. left. reflexivity.
      * destruct I4 as [I4|I4]; [left; exact I4|]. rewrite I4. exact S4.
    + destruct IH as (j & Hj & Ej). exists j. split; [right; exact Hj|]. rewrite <- S2 by (intros ->; contradiction). exact Ej.
Qed.

(** ** the invariant *)
Record inv (pre : list child) (rc : cells) (s : list nat) : Prop := {
  i_ne : pre <> [];
  i_pos : forall x, In x s -> 1 <= x;
  i_len : length s = fold_right Nat.max 0 (map (fun c => length (shape A c)) pre);
  i_ext : forall i, extent s i = fold_right Nat.max 1 (map (fun c => extent (shape A c) i) pre);
  i_dom : domok rc;
  i_axis : forall i, axisOf A pre i (k_grid rc i);
  i_clash : forall i, ~ clash A pre i;
  i_obj : k_obj rc = None \/ exists c, In c pre /\ k_obj rc = k_obj (h_cells c) }.
Lemma max_in (f : child -> nat) l i : i < fold_right Nat.max 0 (map f l) <-> exists d, In d l /\ i < f d.
Proof.
  induction l as [|x l IH]; cbn [map fold_right].
  - split; [lia|intros (d & [] & _)].
  - rewrite Nat.max_lt_iff, IH. split.
    + intros [H|(d & H1 & H2)]; [exists x; split; [left; reflexivity|exact H]|exists d; split; [right; exact H1|exact H2]].
    + intros (d & [<-|H1] & H2); [left; exact H2|right; exists d; split; assumption].
Qed.
Lemma ext_find pre i : Nat.eqb (fold_right Nat.max 1 (map (fun c => extent (shape A c) i) pre)) 1 = match find (variesb A i) pre with Some _ => false | None => true end.
Proof.
  induction pre as [|c pre IH]; [reflexivity|]. cbn [map fold_right find]. unfold variesb at 1.
  assert (P : 1 <= fold_right Nat.max 1 (map (fun c => extent (shape A c) i) pre)) by (clear; induction pre; cbn; lia).
  destruct (Nat.ltb_spec 1 (extent (shape A c) i)) as [H|H].
  - apply Nat.eqb_neq. lia.
  - rewrite <- IH. f_equal. lia.
Qed.
Lemma offers_first i c : offers A i [] c <-> grid A c i <> [].
Proof. unfold offers. split; [intros [H _]; exact H|]. intros H. split; [exact H|left; reflexivity]. Qed.
Lemma varies_grid c i : proper A c -> variesb A i c = true -> grid A c i <> [].
Proof.
  intros (_ & _ & H & _) V X. specialize (H i V). rewrite X in H. unfold variesb in V. apply Nat.ltb_lt in V. cbn in H. lia.
Qed.
Lemma no_offer_snoc i pre c : nobodyOffers A i pre -> ~ offers A i pre c -> nobodyOffers A i (pre ++ [c]).
Proof.
  intros N O p d q E. apply snoc_split in E. destruct E as [(-> & -> & ->)|(b & -> & ->)]; [exact O|]. apply (N p d b). reflexivity.
Qed.
Lemma inv_first c : proper A c -> inv [c] (h_cells c) (shape A c).
Proof.
  intros P. pose proof P as (P0 & P1 & P2 & P3 & P4). constructor.
  - discriminate.
  - exact P1.
  - cbn. rewrite Nat.max_0_r. reflexivity.
  - intros i. cbn. pose proof (pos_extent (shape A c) i P1). lia.
  - exact P3.
  - intros i. destruct (variesb A i c) eqn:V.
    + left. exists c. cbn [find]. rewrite V. auto.
    + right. destruct (grid A c i) as [|x g] eqn:E.
      * right. split; [cbn [find]; rewrite V; reflexivity|]. split; [|exact E]. intros pre d post X. destruct pre as [|y [|]]; cbn in X; [|discriminate|discriminate].
        injection X as -> ->. intros [O _]. congruence.
      * left. split; [cbn [find]; rewrite V; reflexivity|]. exists [], c, []. split; [reflexivity|]. split; [apply offers_first; congruence|]. split; [|reflexivity].
        intros pre d post X. destruct pre; discriminate.
  - intros i (pre & f & d & post & E & F & _). destruct pre as [|y [|]]; cbn in E; [discriminate F|discriminate|discriminate].
  - right. exists c. split; [left; reflexivity|reflexivity].
Qed.
Lemma find_some_in i pre f : find (variesb A i) pre = Some f -> In f pre /\ variesb A i f = true.
Proof. apply find_some. Qed.

Lemma inv_step pre rc s c : inv pre rc s -> (forall d, In d pre -> proper A d) -> proper A c ->
  match check_axes A s (shape A c) (h_cells c) (seq 0 (Nat.max (length s) (length (shape A c)))) rc with
  | None => exists i, clash A (pre ++ [c]) i
  | Some rc' => exists s', mergeShape s (shape A c) = Some s' /\ inv (pre ++ [c]) rc' s'
  end.
Proof.
  intros I Pp Pc. pose proof Pc as (P0 & P1 & P2 & P3 & P4). set (s1 := shape A c) in *.
  pose proof (axes_steps s s1 (h_cells c) P3 (seq 0 (Nat.max (length s) (length s1))) rc (seq_NoDup _ _) (i_dom _ _ _ I)) as S.
  assert (Ds : forall i, Nat.eqb (extent s i) 1 = match find (variesb A i) pre with Some _ => false | None => true end) by (intros i; rewrite (i_ext _ _ _ I); apply ext_find).
  assert (Dc : forall i, Nat.eqb (extent s1 i) 1 = negb (variesb A i c)).
  { intros i. unfold variesb. fold s1. pose proof (pos_extent s1 i P1). destruct (Nat.ltb_spec 1 (extent s1 i)); [apply Nat.eqb_neq|apply Nat.eqb_eq]; lia. }
  assert (Gf : forall i f, find (variesb A i) pre = Some f -> k_grid rc i = grid A f i /\ grid A f i <> []).
  { intros i f F. destruct (i_axis _ _ _ I i) as [(f' & F' & E)|[(F' & _)|(F' & _)]]; try congruence. rewrite F in F'. injection F' as <-. split; [exact E|].
    apply find_some_in in F. apply varies_grid; [apply Pp|]; apply F. }
  assert (MM : forall i f, find (variesb A i) pre = Some f -> variesb A i c = true ->
     verdict s s1 i (k_grid rc i) (k_grid (h_cells c) i) = None <-> mismatch A i f c).
  { intros i f F V. destruct (Gf i f F) as [E N]. rewrite E. pose proof (varies_grid c i Pc V) as Nc. fold (grid A c i). unfold verdict. rewrite Ds, F, Dc, V. cbn [negb].
    destruct (Nat.eqb (length (grid A c i)) 0) eqn:X1; [apply len0 in X1; contradiction|]. destruct (Nat.eqb (length (grid A f i)) 0) eqn:X2; [apply len0 in X2; contradiction|].
    unfold mismatch. destruct (Nat.eqb_spec (length (grid A f i)) (length (grid A c i))) as [Q|Q]; cbn [negb].
    - unfold differ, far. destruct (nltb A _ _) eqn:Y1; cbn [orb]; [|destruct (nltb A (nmul A _ _) (nabs A (nsub A (snd _) _))) eqn:Y2].
      + split; [intros _; right; left; reflexivity|reflexivity].
      + split; [intros _; right; right; reflexivity|reflexivity].
      + split; [discriminate|]. intros [X|[X|X]]; [contradiction|discriminate|discriminate].
    - split; [intros _; left; exact Q|reflexivity]. }
  assert (VN : forall i, verdict s s1 i (k_grid rc i) (k_grid (h_cells c) i) = None -> exists f, find (variesb A i) pre = Some f /\ variesb A i c = true).
  { intros i V. unfold verdict in V. rewrite Ds, Dc in V. destruct (Nat.eqb _ 0); [discriminate|]. destruct (Nat.eqb _ 0); [discriminate|].
    destruct (find (variesb A i) pre) as [f|]; [|destruct (Nat.ltb _ _); discriminate]. destruct (variesb A i c); [|discriminate]. exists f. auto. }
  destruct (check_axes A s s1 (h_cells c) _ rc) as [rc'|].
  - destruct S as (S1 & S2 & S3 & S4).
    assert (Vd : forall i, verdict s s1 i (k_grid rc i) (k_grid (h_cells c) i) <> None \/ ~ In i (seq 0 (Nat.max (length s) (length s1)))).
    { intros i. destruct (in_dec Nat.eq_dec i (seq 0 (Nat.max (length s) (length s1)))) as [H|H]; [left; rewrite (S1 i H); discriminate|right; exact H]. }
    assert (Out : forall i, ~ In i (seq 0 (Nat.max (length s) (length s1))) -> length s <= i /\ length s1 <= i) by (intros i H; rewrite in_seq in H; lia).
    assert (Vis : forall i, variesb A i c = true -> i < length s1).
    { intros i V. destruct (Nat.lt_ge_cases i (length s1)) as [H|H]; [exact H|]. unfold variesb in V. fold s1 in V. unfold extent in V. rewrite nth_overflow in V by exact H. discriminate. }
    assert (NC : forall i f, find (variesb A i) pre = Some f -> variesb A i c = true -> ~ mismatch A i f c).
    { intros i f F V X. apply (MM i f F V) in X. destruct (Vd i) as [Y|Y]; [contradiction|]. apply Out in Y. specialize (Vis i V). lia. }
    pose proof (mergeShape_is_max s s1 (i_pos _ _ _ I) P1) as Mx. destruct (mergeShape s s1) as [s'|] eqn:Em.
    + destruct Mx as (_ & L & E). cbn in L. rewrite Nat.max_0_r in L. exists s'. split; [reflexivity|]. constructor.
      * destruct pre; discriminate.
      * intros x Hx. apply (In_nth _ _ 1) in Hx. destruct Hx as (n & _ & <-). change (nth n s' 1) with (extent s' n). rewrite E. cbn. lia.
      * rewrite L, (i_len _ _ _ I), map_app, fold_right_app. cbn [map fold_right]. fold s1. clear. induction (map (fun c0 : child => length (shape A c0)) pre) as [|x l IH]; cbn [fold_right]; lia.
      * intros i. rewrite E, map_app, fold_right_app. cbn [map fold_right]. rewrite (i_ext _ _ _ I). fold s1. clear. induction (map (fun c0 : child => extent (shape A c0) i) pre) as [|x l IH]; cbn [fold_right]; lia.
      * exact S3.
      * intros i. pose proof (i_axis _ _ _ I i) as Ax.
        assert (Ln : forall d, In d pre -> length (shape A d) <= length s).
        { intros d Hd. destruct (Nat.le_gt_cases (length (shape A d)) (length s)) as [H|H]; [exact H|]. exfalso.
          assert (X : length s < fold_right Nat.max 0 (map (fun c => length (shape A c)) pre)) by (apply max_in; exists d; auto). rewrite <- (i_len _ _ _ I) in X. lia. }
        destruct (find (variesb A i) pre) as [f|] eqn:F.
        -- (* somebody varies already *)
           left. exists f. rewrite find_snoc, F. split; [reflexivity|]. destruct (Gf i f F) as [Eg Ng]. rewrite <- Eg.
           destruct (in_dec Nat.eq_dec i (seq 0 (Nat.max (length s) (length s1)))) as [H|H]; [|apply S2, H].
           pose proof (S1 i H) as V. unfold verdict in V. rewrite Ds, F, Dc in V.
           destruct (Nat.eqb (length (k_grid (h_cells c) i)) 0); [congruence|]. destruct (Nat.eqb (length (k_grid rc i)) 0) eqn:X; [apply len0 in X; congruence|].
           destruct (negb (variesb A i c)); [congruence|]. destruct (negb _); [discriminate|]. destruct (_ || _); congruence.
        -- destruct Ax as [(f & F' & _)|[(_ & p & d & q & Ep & Od & Np & Eg)|(_ & Np & Eg)]]; [congruence| |].
           ++ (* offered *)
              assert (Ng : k_grid rc i <> []) by (rewrite Eg; apply Od).
              destruct (variesb A i c) eqn:Vc.
              ** left. exists c. rewrite find_snoc, F, Vc. split; [reflexivity|].
                 assert (H : In i (seq 0 (Nat.max (length s) (length s1)))) by (apply in_seq; specialize (Vis i Vc); lia).
                 pose proof (S1 i H) as V. unfold verdict in V. rewrite Ds, F in V. unfold variesb in Vc. fold s1 in Vc. rewrite Vc in V.
                 destruct (Nat.eqb (length (k_grid (h_cells c) i)) 0) eqn:X; [apply len0 in X; destruct (varies_grid c i Pc); [unfold variesb; fold s1; exact Vc|exact X]|].
                 destruct (Nat.eqb (length (k_grid rc i)) 0) eqn:X'; [apply len0 in X'; contradiction|]. injection V as V. symmetry. exact V.
              ** right. left. rewrite find_snoc, F, Vc. split; [reflexivity|]. exists p, d, (q ++ [c]). split; [rewrite Ep, <- app_assoc; reflexivity|]. split; [exact Od|]. split; [exact Np|].
                 rewrite <- Eg. destruct (in_dec Nat.eq_dec i (seq 0 (Nat.max (length s) (length s1)))) as [H|H]; [|apply S2, H].
                 pose proof (S1 i H) as V. unfold verdict in V. rewrite Ds, F in V. unfold variesb in Vc. fold s1 in Vc. rewrite Vc in V.
                 destruct (Nat.eqb (length (k_grid (h_cells c) i)) 0); [congruence|]. destruct (Nat.eqb (length (k_grid rc i)) 0) eqn:X'; [apply len0 in X'; contradiction|]. congruence.
           ++ (* nobody yet *)
              destruct (in_dec Nat.eq_dec i (seq 0 (Nat.max (length s) (length s1)))) as [H|H].
              ** pose proof (S1 i H) as V. unfold verdict in V. rewrite Eg in V. cbn [length Nat.eqb] in V. fold (grid A c i) in V.
                 destruct (Nat.eqb (length (grid A c i)) 0) eqn:X.
                 --- apply len0 in X. injection V as V. right. right. assert (Vc : variesb A i c = false) by (destruct (variesb A i c) eqn:Y; [destruct (varies_grid c i Pc Y X)|reflexivity]).
                     rewrite find_snoc, F, Vc. split; [reflexivity|]. split; [|symmetry; exact V]. apply no_offer_snoc; [exact Np|]. intros [O _]. contradiction.
                 --- injection V as V. assert (X' : grid A c i <> []) by (intros Y; apply len0 in Y; congruence).
                     destruct (variesb A i c) eqn:Vc; [left; exists c; rewrite find_snoc, F, Vc; split; [reflexivity|symmetry; exact V]|].
                     right. left. rewrite find_snoc, F, Vc. split; [reflexivity|]. exists pre, c, []. split; [reflexivity|]. split; [|split; [exact Np|symmetry; exact V]].
                     split; [exact X'|]. right. apply in_seq in H. destruct (Nat.lt_ge_cases i (length s1)) as [L1|L1].
                     +++ exists c. split; [apply in_or_app; right; left; reflexivity|exact L1].
                     +++ assert (L2 : i < length s) by lia. rewrite (i_len _ _ _ I) in L2. apply max_in in L2. destruct L2 as (d & D1 & D2). exists d. split; [apply in_or_app; left; exact D1|exact D2].
              ** destruct (Out i H) as [O1 O2]. assert (Vc : variesb A i c = false) by (destruct (variesb A i c) eqn:Y; [specialize (Vis i Y); lia|reflexivity]).
                 right. right. rewrite find_snoc, F, Vc. split; [reflexivity|]. split; [|rewrite (S2 i H); exact Eg]. apply no_offer_snoc; [exact Np|].
                 intros [_ [O|(d & D1 & D2)]]; [exact (i_ne _ _ _ I O)|]. apply in_app_or in D1. destruct D1 as [D1|[<-|[]]]; [specialize (Ln d D1); lia|fold s1 in D2; lia].
      * intros i (p & f & d & q & Ep & Ff & Vd' & Mm). apply snoc_split in Ep. destruct Ep as [(-> & -> & ->)|(b & -> & ->)].
        -- exact (NC i f Ff Vd' Mm).
        -- apply (i_clash _ _ _ I i). exists p, f, d, b. auto.
      * destruct S4 as [S4|S4]; [left; exact S4|]. destruct (i_obj _ _ _ I) as [O|(d & D1 & D2)]; [left; congruence|]. right. exists d. split; [apply in_or_app; left; exact D1|congruence].
    + exfalso. apply Mx. intros a b i Ha Hb La Lb.
      assert (K : 1 < extent s i -> 1 < extent s1 i -> extent s i = extent s1 i).
      { intros L1 L2. assert (F : exists f, find (variesb A i) pre = Some f).
        { specialize (Ds i). destruct (find (variesb A i) pre) as [f|]; [exists f; reflexivity|]. apply Nat.eqb_eq in Ds. lia. }
        destruct F as [f F]. assert (V : variesb A i c = true) by (unfold variesb; fold s1; apply Nat.ltb_lt; exact L2).
        pose proof (P2 i V) as Lc. fold s1 in Lc. rewrite <- Lc.
        assert (Lf : forall d, In d pre -> variesb A i d = true -> length (grid A d i) = length (grid A f i)).
        { intros d Hd Vd'. destruct (Nat.eq_dec (length (grid A d i)) (length (grid A f i))) as [Q|Q]; [exact Q|]. exfalso.
          apply in_split in Hd. destruct Hd as (p & q & Ep). destruct (find (variesb A i) p) as [f'|] eqn:F'.
          - apply (i_clash _ _ _ I i). exists p, f', d, q. split; [exact Ep|]. split; [exact F'|]. split; [exact Vd'|]. left.
            assert (f' = f) by (rewrite Ep, find_app2, F' in F; congruence). subst. congruence.
          - rewrite Ep in F. rewrite find_app2, F' in F. cbn [find] in F. rewrite Vd' in F. congruence. }
        assert (Ml : ~ mismatch A i f c) by (apply NC; assumption). assert (Lfc : length (grid A f i) = length (grid A c i)).
        { destruct (Nat.eq_dec (length (grid A f i)) (length (grid A c i))) as [Q|Q]; [exact Q|]. destruct Ml. left. exact Q. }
        rewrite <- Lfc. rewrite (i_ext _ _ _ I). rewrite (i_ext _ _ _ I) in L1. clear -Lf L1 Pp.
        assert (X : forall l, (forall d, In d l -> In d pre) -> 1 < fold_right Nat.max 1 (map (fun c => extent (shape A c) i) l) -> fold_right Nat.max 1 (map (fun c => extent (shape A c) i) l) = length (grid A f i)).
        { induction l as [|d l IH]; intros Hl L; [cbn in L; lia|]. cbn [map fold_right] in *. specialize (IH (fun x h => Hl x (or_intror h))).
          assert (Y : 1 < extent (shape A d) i -> extent (shape A d) i = length (grid A f i)).
          { intros Z. assert (Vd : variesb A i d = true) by (apply Nat.ltb_lt; exact Z). rewrite <- (Lf d (Hl d (or_introl eq_refl)) Vd). symmetry. apply (Pp d (Hl d (or_introl eq_refl))), Vd. }
          destruct (Nat.le_gt_cases (extent (shape A d) i) 1), (Nat.le_gt_cases (fold_right Nat.max 1 (map (fun c => extent (shape A c) i) l)) 1); lia. }
        apply X; [auto|exact L1]. }
      destruct Ha as [<-|[<-|[]]], Hb as [<-|[<-|[]]]; [reflexivity|apply K; assumption|symmetry; apply K; assumption|reflexivity].
  - destruct S as (i & Hi & V). exists i. destruct (VN i V) as (f & F & Vc). exists pre, f, c, []. split; [reflexivity|]. split; [exact F|]. split; [exact Vc|]. apply MM; assumption.
Qed.

Lemma present_cons o (l : list (option child)) : present A (o :: l) = match o with Some c => [c] | None => [] end ++ present A l.
Proof. reflexivity. Qed.
Lemma loop_ok l : forall pre rc s, inv pre rc s -> (forall d, In d pre -> proper A d) -> (forall c, In c (present A l) -> proper A c) ->
  NoDup (map (fun c => k_obj (h_cells c)) (pre ++ present A l)) ->
  match check_loop A l (Some (rc, s)) with
  | Ok (Some rc') => exists s', inv (pre ++ present A l) rc' s'
  | Err => exists i, clash A (pre ++ present A l) i
  | _ => False
  end.
Proof.
  induction l as [|o l IH]; intros pre rc s I Pp Pc N.
  - cbn. rewrite app_nil_r. exists s. exact I.
  - rewrite present_cons in *. destruct o as [c|]; [|exact (IH pre rc s I Pp Pc N)]. cbn [check_loop app] in *.
    assert (So : same_obj A rc (h_cells c) = false).
    { unfold same_obj. destruct (i_obj _ _ _ I) as [->|(d & D1 & ->)]; [reflexivity|].
      destruct (k_obj (h_cells d)) as [x|] eqn:Ed; [|reflexivity]. destruct (k_obj (h_cells c)) as [y|] eqn:Ec; [|reflexivity]. apply Nat.eqb_neq. intros ->.
      rewrite map_app in N. cbn [map] in N. apply NoDup_remove_2 in N. apply N, in_or_app. left. rewrite Ec, <- Ed. apply (in_map (fun c => k_obj (h_cells c))), D1. }
    rewrite So. assert (Pcc : proper A c) by (apply Pc; left; reflexivity). destruct (h_shape c) as [s1|] eqn:Es; [|destruct Pcc; congruence].
    pose proof (inv_step pre rc s c I Pp Pcc) as S. assert (E1 : shape A c = s1) by (unfold shape; rewrite Es; reflexivity). rewrite E1 in S.
    replace (pre ++ c :: present A l) with ((pre ++ [c]) ++ present A l) in * by (rewrite <- app_assoc; reflexivity).
    destruct (check_axes A s s1 (h_cells c) _ rc) as [rc'|].
    + destruct S as (s' & -> & I'). apply IH; [exact I'| |intros d Hd; apply Pc; right; exact Hd|exact N].
      intros d Hd. apply in_app_or in Hd. destruct Hd as [Hd|[<-|[]]]; [apply Pp, Hd|exact Pcc].
    + destruct S as (i & p & f & d & q & E & F & V & M). exists i, p, f, d, (q ++ present A l). split; [rewrite E, <- app_assoc; reflexivity|]. auto.
Qed.
Lemma loop_first (l : list (option child)) : (forall c, In c (present A l) -> proper A c) ->
  match present A l with
  | [] => check_loop A l None = Ok None
  | c :: cs => exists l', present A l' = cs /\ check_loop A l None = check_loop A l' (Some (h_cells c, shape A c))
  end.
Proof.
  induction l as [|o l IH]; intros P; [reflexivity|]. rewrite present_cons in *. destruct o as [c|]; [|exact (IH P)].
  cbn [app] in *. exists l. split; [reflexivity|]. cbn [check_loop]. unfold shape. destruct (h_shape c) as [s1|] eqn:E; [reflexivity|]. destruct (P c (or_introl eq_refl)). congruence.
Qed.

(** cells kept in different objects: an error iff two children vary along an axis on different grids, and otherwise every axis is
    that of the first child that varies along it, or else has it *)
Theorem chk_cells (l : list (option child)) : (forall c, In c (present A l) -> proper A c) -> NoDup (map (fun c => k_obj (h_cells c)) (present A l)) ->
  match checkChildCells A false l with
  | Ok None => present A l = []
  | Ok (Some rc) => present A l <> [] /\ (forall i, ~ clash A (present A l) i) /\ (forall i, axisOf A (present A l) i (k_grid rc i)) /\
                    (forall i, k_grid rc i <> [] -> k_dom rc i = ends A (k_grid rc i))
  | Err => exists i, clash A (present A l) i
  | UB => False
  end.
Proof.
  intros P N. assert (G : match check_loop A l None with
    | Ok None => present A l = []
    | Ok (Some rc) => exists s, inv (present A l) rc s
    | Err => exists i, clash A (present A l) i
    | UB => False
    end).
  { pose proof (loop_first l P) as F. destruct (present A l) as [|c cs] eqn:E; [rewrite F; reflexivity|]. destruct F as (l' & El & ->). subst cs.
    pose proof (loop_ok l' [c] (h_cells c) (shape A c) (inv_first c (P c (or_introl eq_refl)))) as L. cbn [app] in L.
    specialize (L ltac:(intros d [<-|[]]; apply P; left; reflexivity) ltac:(intros d Hd; apply P; right; exact Hd) N).
    destruct (check_loop A l' _) as [[rc|]| |]; try contradiction; exact L. }
  assert (H : match checkChildCells A false l with
    | Ok None => present A l = []
    | Ok (Some rc) => exists s, inv (present A l) rc s
    | Err => exists i, clash A (present A l) i
    | UB => False
    end).
  { destruct l as [|o [|o2 l]]; [exact G| |exact G]. cbn. destruct o as [c|]; [|reflexivity]. exists (shape A c). apply inv_first, P. left. reflexivity. }
  destruct (checkChildCells A false l) as [[rc|]| |]; try exact H. destruct H as [s I]. split; [exact (i_ne _ _ _ I)|]. split; [exact (i_clash _ _ _ I)|]. split; [exact (i_axis _ _ _ I)|exact (i_dom _ _ _ I)].
Qed.

(** cells kept in one object: that object, whatever the shapes *)
Theorem chk_same_object (l : list (option child)) k o : k_obj k = Some o -> present A l <> [] ->
  (forall c, In c (present A l) -> h_cells c = k) -> (forall c, In c (present A l) -> h_shape c <> None) ->
  checkChildCells A false l = Ok (Some k).
Proof.
  intros Ek Ne Hk Hs.
  assert (L : forall l s, (forall c, In c (present A l) -> h_cells c = k) -> check_loop A l (Some (k, s)) = Ok (Some k)).
  { clear l Ne Hk Hs. induction l as [|x l IH]; intros s H; [reflexivity|]. rewrite present_cons in H. destruct x as [c|]; [|exact (IH s H)]. cbn [check_loop].
    rewrite (H c (or_introl eq_refl)). unfold same_obj. rewrite Ek, Nat.eqb_refl. apply IH. intros d Hd. apply H. right. exact Hd. }
  assert (M : check_loop A l None = Ok (Some k)).
  { induction l as [|x l IH]; [contradiction|]. rewrite present_cons in *. destruct x as [c|]; [|exact (IH Ne Hk Hs)]. cbn [check_loop].
    destruct (h_shape c) as [s|] eqn:E; [|destruct (Hs c (or_introl eq_refl)); exact E]. rewrite (Hk c (or_introl eq_refl)). apply L. intros d Hd. apply Hk. right. exact Hd. }
  destruct l as [|x [|y l]]; [contradiction| |exact M]. destruct x as [c|]; [|contradiction]. cbn. rewrite (Hk c); [reflexivity|]. left. reflexivity.
Qed.

(** a child whose cells are the object held is not counted: a third child on any other grid takes over, and there is no error *)
Theorem chk_shared_refuted (c1 c2 d : child) : proper A c1 -> proper A d -> shape A c1 = [] -> h_cells c2 = h_cells c1 -> k_obj (h_cells d) <> k_obj (h_cells c1) ->
  exists rc, checkChildCells A false [Some c1; Some c2; Some d] = Ok (Some rc) /\ forall i, variesb A i d = true -> k_grid rc i = grid A d i.
Proof.
  intros P1 Pd E1 E2 Eo.
  assert (X : checkChildCells A false [Some c1; Some c2; Some d] = checkChildCells A false [Some c1; Some d]).
  { cbn [checkChildCells check_loop]. destruct (h_shape c1) as [s|]; [|reflexivity]. rewrite E2. unfold same_obj at 1. destruct P1 as (_ & _ & _ & _ & P1).
    destruct (k_obj (h_cells c1)) as [o|]; [|congruence]. rewrite Nat.eqb_refl. reflexivity. }
  rewrite X. clear X.
  assert (N : NoDup (map (fun c => k_obj (h_cells c)) [c1; d])).
  { cbn [map]. constructor; [|constructor; [intros []|constructor]]. intros [H|[]]. congruence. }
  pose proof (chk_cells [Some c1; Some d] ltac:(intros c [<-|[<-|[]]]; assumption) N) as C. change (present A [Some c1; Some d]) with [c1; d] in C.
  assert (V1 : forall i, variesb A i c1 = false) by (intros i; unfold variesb; rewrite E1; destruct i; reflexivity).
  destruct (checkChildCells A false [Some c1; Some d]) as [[rc|]| |]; [|discriminate| |contradiction].
  - exists rc. split; [reflexivity|]. intros i Vi. destruct C as (_ & _ & Ax & _). destruct (Ax i) as [(c & F & ->)|[(F & _)|(F & _)]]; cbn [find] in F; rewrite V1, Vi in F; [|discriminate|discriminate]. congruence.
  - destruct C as (i & p & f & e & q & E & F & _). exfalso. destruct p as [|x [|y p]]; cbn [app] in E; [discriminate F| |].
    + injection E as <- E. cbn [find] in F. rewrite V1 in F. discriminate.
    + injection E as <- <- E. destruct p; discriminate.
Qed.
(** children without any shape: the cells of the first, and the axes of the others are lost *)
Theorem chk_constants_refuted (c : child) (l : list (option child)) : h_shape c = Some [] -> (forall d, In d (present A l) -> h_shape d = Some []) ->
  checkChildCells A false (Some c :: l) = Ok (Some (h_cells c)).
Proof.
  intros E H.
  assert (L : forall l, (forall d, In d (present A l) -> h_shape d = Some []) -> check_loop A l (Some (h_cells c, [])) = Ok (Some (h_cells c))).
  { clear l H. induction l as [|x l IH]; intros H; [reflexivity|]. rewrite present_cons in H. destruct x as [d|]; [|exact (IH H)]. cbn [check_loop].
    assert (H' : forall d, In d (present A l) -> h_shape d = Some []) by (intros e He; apply H; right; exact He).
    destruct (same_obj A (h_cells c) (h_cells d)); [exact (IH H')|]. rewrite (H d (or_introl eq_refl)). cbn. exact (IH H'). }
  destruct l as [|o l]; [reflexivity|]. change (checkChildCells A false (Some c :: o :: l)) with (check_loop A (Some c :: o :: l) None). cbn [check_loop]. rewrite E.
  change (check_loop A (o :: l) (Some (h_cells c, [])) = Ok (Some (h_cells c))). apply L, H.
Qed.
End Thms.
Print Assumptions chk_cells.
Print Assumptions chk_same_object.
Print Assumptions chk_shared_refuted.
Print Assumptions chk_constants_refuted.

(** ** Examples, in rational numbers: grids of unit cells *)
Definition exGrid (x0 n : nat) : list (num qc * num qc) := map (fun k => (nofZ qc (Z.of_nat (x0 + k)), nofZ qc 1)) (seq 0 n).
Definition exCells (o : nat) (t f : list (num qc * num qc)) : cells qc :=
  let grid i := match i with 0 => t | 1 => f | _ => [] end in {| k_obj := Some o; k_grid := grid; k_dom := fun i => range qc (grid i) |}.
Definition exChild o t f s : option (child qc) := Some {| h_cells := exCells o t f; h_shape := Some s |}.
(** numbers of cells in time and frequency, and the object *)
Definition exLook (r : res (option (cells qc))) : option (nat * nat * option nat) :=
  match r with Ok (Some rc) => Some (length (k_grid rc 0), length (k_grid rc 1), k_obj rc) | _ => None end.
Definition exErr (r : res (option (cells qc))) : bool := match r with Err => true | _ => false end.
(** one child varies in time, another in frequency *)
Example chk_cells_ex :
  exLook (checkChildCells qc false [exChild 1 (exGrid 5 4) [] [4]; None; exChild 2 (exGrid 5 1) (exGrid 9 3) [1; 3]; exChild 3 (exGrid 5 4) (exGrid 9 3) [4; 3]]) = Some (4, 3, None) /\
  exErr (checkChildCells qc false [exChild 1 (exGrid 5 4) [] [4]; exChild 2 (exGrid 6 4) [] [4]]) = true /\
  exErr (checkChildCells qc false [exChild 1 (exGrid 5 4) [] [4]; exChild 2 (exGrid 5 3) [] [3]]) = true /\
  exLook (checkChildCells qc false [exChild 1 (exGrid 5 4) [] []; exChild 2 (exGrid 7 3) [] [3]]) = Some (3, 0, None).
Proof. split; [|split; [|split]]; vm_compute; reflexivity. Qed.
Example chk_same_object_ex :
  exLook (checkChildCells qc false [exChild 1 (exGrid 5 4) (exGrid 0 2) [4]; exChild 1 (exGrid 5 4) (exGrid 0 2) [1; 2]]) = Some (4, 2, Some 1).
Proof. vm_compute. reflexivity. Qed.
(** the second child varies over 4 points of time, the third over 3 *)
Example chk_shared_refuted_ex :
  exLook (checkChildCells qc false [exChild 1 (exGrid 5 4) [] []; exChild 1 (exGrid 5 4) [] [4]; exChild 2 (exGrid 7 3) [] [3]]) = Some (3, 0, None).
Proof. vm_compute. reflexivity. Qed.
(** the frequency axis of the second child is lost *)
Example chk_constants_refuted_ex :
  exLook (checkChildCells qc false [exChild 1 (exGrid 5 4) [] []; exChild 2 [] (exGrid 0 2) []]) = Some (4, 0, Some 1).
Proof. vm_compute. reflexivity. Qed.
