(** What the registry knows after any registrations. *)
From Verif Require Import Base Bytes_Model Hiid_Model Nam_Model Nam_Spec Nam_Proofs.
Local Open Scope Z_scope.

Definition run (r : registry) (H : list reg_event) : registry :=
  fold_left (fun r e => reg_step r (ev_key e) (ev_name e) (ev_over e)) H r.

Lemma run_app r H e : run r (H ++ [e]) = reg_step (run r H) (ev_key e) (ev_name e) (ev_over e).
Proof. unfold run. rewrite fold_left_app. reflexivity. Qed.

Lemma map_find_app k m j v : map_find k (m ++ [(j, v)]) =
  match map_find k m with Some s => Some s | None => if k =? j then Some v else None end.
Proof.
  induction m as [|[k' v'] m IH]; cbn [map_find app]; [reflexivity|].
  destruct (k =? k'); [reflexivity|exact IH].
Qed.
Lemma rmap_find_app s m t k : rmap_find s (m ++ [(t, k)]) =
  match rmap_find s m with Some j => Some j | None => if str_eqb s t then Some k else None end.
Proof.
  induction m as [|[s' k'] m IH]; cbn [rmap_find app]; [reflexivity|].
  destruct (str_eqb s s'); [reflexivity|exact IH].
Qed.
Lemma map_find_set k m j v v0 : map_find j m = Some v0 ->
  map_find k (map_set j v m) = if k =? j then Some v else map_find k m.
Proof.
  induction m as [|[k' v'] m IH]; cbn [map_find map_set]; [discriminate|].
  destruct (j =? k') eqn:E.
  - intros _. cbn [map_find]. apply Z.eqb_eq in E. subst k'.
    destruct (k =? j); reflexivity.
  - intros F. cbn [map_find]. rewrite (IH F).
    destruct (k =? k') eqn:E2; [|reflexivity].
    replace (k =? j) with false by lia. reflexivity.
Qed.

Lemma latest_app A e k : latest (A ++ [e]) k = if ev_key e =? k then Some (ev_name e) else latest A k.
Proof.
  induction A as [|a A IH]; cbn [latest app]; [reflexivity|].
  rewrite IH. destruct (ev_key e =? k); [reflexivity|reflexivity].
Qed.

Lemma first_with_app A e s : first_with (A ++ [e]) s =
  match first_with A s with
  | Some k => Some k
  | None => if str_eqb (lower_str (ev_name e)) s then Some (ev_key e) else None
  end.
Proof.
  unfold first_with. induction A as [|a A IH]; cbn [find app option_map].
  - unfold str_eqb. destruct (list_eq_dec Z.eq_dec (lower_str (ev_name e)) s); reflexivity.
  - destruct (list_eq_dec Z.eq_dec (lower_str (ev_name a)) s); [reflexivity|exact IH].
Qed.

Lemma str_eqb_sym a b : str_eqb a b = str_eqb b a.
Proof. destruct (str_eqb_spec a b), (str_eqb_spec b a); congruence. Qed.

Definition knows (r : registry) (A : list reg_event) : Prop :=
  (forall k, map_find k (r_map r) = latest A k) /\
  (forall s, rmap_find s (r_rmap r) = first_with A s).

Lemma knows_empty : knows reg_empty [].
Proof. split; reflexivity. Qed.

Lemma step_eq r k v o : reg_step r k v o =
  match bi_add k v (lower_str v) o r with Ok r' => r' | _ => r end.
Proof. destruct o; reflexivity. Qed.

Lemma knows_rmap r A e : knows r A -> forall s,
  rmap_find s (match rmap_find (lower_str (ev_name e)) (r_rmap r) with
               | None => r_rmap r ++ [(lower_str (ev_name e), ev_key e)]
               | Some _ => r_rmap r end) = first_with (A ++ [e]) s.
Proof.
  intros [K1 K2] s. rewrite first_with_app, <- K2.
  destruct (rmap_find (lower_str (ev_name e)) (r_rmap r)) eqn:E.
  - destruct (rmap_find s (r_rmap r)) eqn:E2; [reflexivity|].
    destruct (str_eqb_spec (lower_str (ev_name e)) s); [congruence|reflexivity].
  - rewrite rmap_find_app, str_eqb_sym. reflexivity.
Qed.

Lemma knows_yes r A e : knows r A ->
  ev_over e = true \/ latest A (ev_key e) = None \/ latest A (ev_key e) = Some (ev_name e) ->
  knows (reg_step r (ev_key e) (ev_name e) (ev_over e)) (A ++ [e]).
Proof.
  intros K C. pose proof K as [K1 K2]. rewrite step_eq. unfold bi_add, uni_add. rewrite K1.
  destruct (latest A (ev_key e)) as [v0|] eqn:E.
  - destruct (str_eqb_spec v0 (ev_name e)) as [->|N]; cbn [bind r_map r_rmap].
    + split; [|apply (knows_rmap r A e K)]. cbn [r_map]. intros k. rewrite latest_app, K1.
      destruct (ev_key e =? k) eqn:Ek; [|reflexivity]. apply Z.eqb_eq in Ek. subst k. exact E.
    + assert (Ho : ev_over e = true) by (destruct C as [C|[C|C]]; congruence). rewrite Ho. cbn [bind].
      split; [|apply (knows_rmap r A e K)]. cbn [r_map]. intros k.
      rewrite latest_app. rewrite <- K1 in E. rewrite (map_find_set k _ _ (ev_name e) _ E), K1.
      rewrite Z.eqb_sym. reflexivity.
  - cbn [bind]. split; [|apply (knows_rmap r A e K)]. cbn [r_map]. intros k.
    rewrite map_find_app, latest_app, K1.
    destruct (ev_key e =? k) eqn:Ek.
    + apply Z.eqb_eq in Ek. subst k. rewrite E, Z.eqb_refl. reflexivity.
    + rewrite Z.eqb_sym, Ek. destruct (latest A k); reflexivity.
Qed.

Lemma knows_no r A e s : knows r A -> ev_over e = false -> latest A (ev_key e) = Some s ->
  s <> ev_name e -> reg_step r (ev_key e) (ev_name e) (ev_over e) = r.
Proof.
  intros [K1 K2] O L N. rewrite step_eq. unfold bi_add, uni_add. rewrite K1, L, O.
  destruct (str_eqb_spec s (ev_name e)); [contradiction|reflexivity].
Qed.

Lemma history_knows H A : takes_effect H A -> knows (run reg_empty H) A.
Proof.
  induction 1 as [|H A e T IH C|H A e s T IH O L N].
  - exact knows_empty.
  - rewrite run_app. apply knows_yes; assumption.
  - rewrite run_app, (knows_no _ A e s); assumption.
Qed.

Lemma takes_effect_total H : exists A, takes_effect H A.
Proof.
  induction H as [|e H [A IH]] using rev_ind; [exists []; constructor|].
  destruct (latest A (ev_key e)) as [s|] eqn:L.
  - destruct (ev_over e) eqn:O; [exists (A ++ [e]); constructor; auto|].
    destruct (list_eq_dec Z.eq_dec s (ev_name e)) as [->|N].
    + exists (A ++ [e]). constructor; auto.
    + exists A. eapply te_no; eauto.
  - exists (A ++ [e]). constructor; auto.
Qed.

Lemma latest_in A k s : latest A k = Some s -> exists e, In e A /\ ev_key e = k /\ ev_name e = s.
Proof.
  induction A as [|a A IH]; cbn [latest]; [discriminate|].
  destruct (latest A k) as [t|] eqn:L.
  - intros E. destruct (IH E) as [e [I P]]. exists e. split; [right; exact I|exact P].
  - destruct (ev_key a =? k) eqn:Ek; [|discriminate]. intros E. apply Z.eqb_eq in Ek.
    exists a. split; [left; reflexivity|split; congruence].
Qed.

Lemma first_with_unique A e : In e A ->
  (forall e', In e' A -> lower_str (ev_name e') = lower_str (ev_name e) -> ev_key e' = ev_key e) ->
  first_with A (lower_str (ev_name e)) = Some (ev_key e).
Proof.
  intros I U. unfold first_with.
  destruct (find (fun e0 => if list_eq_dec Z.eq_dec (lower_str (ev_name e0)) (lower_str (ev_name e))
                            then true else false) A) as [e'|] eqn:F.
  - apply find_some in F as [I' E']. cbn. f_equal. apply U; [exact I'|].
    destruct (list_eq_dec Z.eq_dec (lower_str (ev_name e')) (lower_str (ev_name e))); [assumption|discriminate].
  - exfalso. pose proof (find_none _ _ F e I) as N. cbn in N.
    destruct (list_eq_dec Z.eq_dec (lower_str (ev_name e)) (lower_str (ev_name e))); [discriminate|contradiction].
Qed.
