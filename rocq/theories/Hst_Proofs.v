(** Proofs about histories. *)
From Verif Require Import Base Hst_Model Hst_Spec.
Local Open Scope nat_scope.

Section Items.
Variable A : Type.
Set Default Proof Using "Type".
Notation st := (hstate A).
Notation ev := (event A).

Lemma remove_skipn : forall n (l : list A), remove_first A n l = skipn n l.
Proof. induction n as [|n IH]; intros l; [reflexivity|]. cbn [remove_first]. rewrite IH. destruct l; [now rewrite skipn_nil|reflexivity]. Qed.
Lemma trim_none m (l : list A) : (m <= 0)%Z -> trim A m l = l.
Proof. intros H. unfold trim. now destruct (Z.ltb_spec 0 m); [lia|]. Qed.
Lemma trim_some m (l : list A) : (0 < m)%Z -> trim A m l = skipn (length l - Z.to_nat m) l.
Proof. intros H. unfold trim. destruct (Z.ltb_spec 0 m); [|lia]. rewrite remove_skipn. f_equal. lia. Qed.
Lemma trim_suffix m (l : list A) : exists b, l = b ++ trim A m l.
Proof. destruct (Z.le_gt_cases m 0) as [H|H]; [exists []; now rewrite trim_none|]. rewrite trim_some by lia. exists (firstn (length l - Z.to_nat m) l). now rewrite firstn_skipn. Qed.

Lemma acc_dec rec : accepted rec \/ ~ accepted rec.
Proof. unfold accepted. destruct rec as [[| |] [| |[]] [| |m] [| |v] l]; cbn; try (right; intros (H1 & H2 & H3 & H4); congruence); left; repeat split; congruence. Qed.
Lemma set_acc s rec : accepted rec -> setState A s rec =
  ({| h_max := get (f_max rec) (h_max s); h_verbose := get (f_verbose rec) (h_verbose s); r_max := get (f_max rec) (r_max s); r_verbose := get (f_verbose rec) (r_verbose s);
      h_list := if f_list rec then [] else h_list s |}, true).
Proof. intros (H1 & H2 & H3 & H4). unfold setState, set_impl. rewrite H1. destruct (f_labels rec); try congruence; destruct (f_max rec); try congruence; destruct (f_verbose rec); try congruence; reflexivity. Qed.
Lemma set_rej s rec : ~ accepted rec -> setState A s rec = (if match f_base rec with BaseProtected => true | _ => false end then s else again A s, false).
Proof.
  intros H. unfold setState, set_impl. destruct (f_base rec) eqn:B; try reflexivity. destruct (f_labels rec) eqn:L; cbn [isbad]; try reflexivity; destruct (f_max rec) eqn:M; cbn [isbad]; try reflexivity;
    destruct (f_verbose rec) eqn:V; cbn [isbad]; try reflexivity; exfalso; apply H; unfold accepted; rewrite B, L, M, V; repeat split; congruence.
Qed.
(** members and record say the same *)
Definition agrees (s : st) : Prop := h_max s = r_max s /\ h_verbose s = r_verbose s.
Lemma react_agrees s e : agrees s -> agrees (fst (react A s e)).
Proof.
  intros (M & V). destruct e as [[x|]|rec| |]; cbn [react]; try (split; assumption).
  destruct (acc_dec rec) as [H|H]; [rewrite set_acc by exact H; unfold agrees; cbn; now rewrite M, V|]. rewrite set_rej by exact H. cbn [fst]. destruct (f_base rec); split; (reflexivity || assumption).
Qed.
Lemma reacts_agrees es : forall s, agrees s -> agrees (reacts A s es).
Proof. induction es as [|e es IH]; intros s H; [exact H|]. cbn [reacts]. apply IH. now apply react_agrees. Qed.
Lemma reacts_app es es' : forall s, reacts A s (es ++ es') = reacts A (reacts A s es) es'.
Proof. induction es as [|e es IH]; intros s; [reflexivity|]. cbn [reacts app]. apply IH. Qed.

(** fields that follow the records *)
Definition sets_none {T} (f : hrec -> field T) (es : list ev) : Prop := forall rec v, In (Set_state rec) es -> accepted rec -> f rec <> Given v.
Lemma sets_tl {T} (f : hrec -> field T) e es : sets_none f (e :: es) -> sets_none f es.
Proof. intros H rec v I. apply H. now right. Qed.
Lemma react_keeps s e : agrees s -> (sets_none f_max [e] -> h_max (fst (react A s e)) = h_max s) /\ (sets_none f_verbose [e] -> h_verbose (fst (react A s e)) = h_verbose s).
Proof.
  intros (M & V). destruct e as [[x|]|rec| |]; cbn [react]; try (split; reflexivity).
  destruct (acc_dec rec) as [H|H].
  - rewrite set_acc by exact H. cbn [fst h_max h_verbose]. split; intros N; specialize (fun v => N rec v (or_introl eq_refl) H); [destruct (f_max rec)|destruct (f_verbose rec)]; try reflexivity; exfalso; eapply N; reflexivity.
  - rewrite set_rej by exact H. cbn [fst]. destruct (f_base rec); split; intros _; cbn; congruence.
Qed.
Lemma sets_hd {T} (f : hrec -> field T) e es : sets_none f (e :: es) -> sets_none f [e].
Proof. intros H rec v [->|[]]. apply H. now left. Qed.
Lemma reacts_keeps es : forall s, agrees s -> (sets_none f_max es -> h_max (reacts A s es) = h_max s) /\ (sets_none f_verbose es -> h_verbose (reacts A s es) = h_verbose s).
Proof.
  induction es as [|e es IH]; intros s G; [split; reflexivity|]. cbn [reacts]. destruct (react_keeps s e G) as (K1 & K2). destruct (IH _ (react_agrees s e G)) as (I1 & I2).
  split; intros N; [rewrite I1, K1; try reflexivity; eauto using sets_tl, sets_hd|rewrite I2, K2; try reflexivity; eauto using sets_tl, sets_hd].
Qed.
Lemma last_max m0 es m : last_set f_max m0 es m -> forall s, agrees s -> h_max s = m0 -> h_max (reacts A s es) = m.
Proof.
  intros [es' N|before rec v after H E N] s G M.
  - now rewrite (proj1 (reacts_keeps es' s G) N).
  - rewrite reacts_app. cbn [reacts]. assert (G' := reacts_agrees before s G). rewrite (proj1 (reacts_keeps after _ (react_agrees _ (Set_state rec) G')) N). cbn [react fst]. rewrite set_acc by exact H. cbn [fst h_max]. now rewrite E.
Qed.
Lemma last_verbose v0 es v : last_set f_verbose v0 es v -> forall s, agrees s -> h_verbose s = v0 -> h_verbose (reacts A s es) = v.
Proof.
  intros [es' N|before rec w after H E N] s G M.
  - now rewrite (proj2 (reacts_keeps es' s G) N).
  - rewrite reacts_app. cbn [reacts]. assert (G' := reacts_agrees before s G). rewrite (proj2 (reacts_keeps after _ (react_agrees _ (Set_state rec) G')) N). cbn [react fst]. rewrite set_acc by exact H. cbn [fst h_verbose]. now rewrite E.
Qed.

(** the list *)
Lemma clears_empty s e : clears e -> h_list (fst (react A s e)) = [].
Proof.
  destruct e as [i|rec| |]; cbn [clears react]; try contradiction; [|reflexivity]. intros [(H & L)|(H & P)].
  - rewrite set_acc by exact H. cbn [fst h_list]. now rewrite L.
  - rewrite set_rej by exact H. destruct (f_base rec); try congruence; reflexivity.
Qed.
Lemma not_clears s e : ~ clears e -> h_list (fst (react A s e)) = match e with Result (Some x) => trim A (h_max s) (h_list s ++ [x]) | _ => h_list s end.
Proof.
  intros N. destruct e as [[x|]|rec| |]; cbn [react]; try reflexivity; [|exfalso; apply N; exact I]. cbn [clears] in N.
  destruct (acc_dec rec) as [H|H].
  - rewrite set_acc by exact H. cbn [fst h_list]. destruct (f_list rec) eqn:L; [exfalso; apply N; left; now split|reflexivity].
  - rewrite set_rej by exact H. destruct (f_base rec) eqn:B; cbn [fst]; try reflexivity; exfalso; apply N; right; (split; [exact H|congruence]).
Qed.
Lemma tail_suffix es : forall s, Forall (fun e => ~ clears e) es -> exists b, h_list s ++ items es = b ++ h_list (reacts A s es).
Proof.
  induction es as [|e es IH]; intros s F; [exists []; cbn; now rewrite app_nil_r|]. inversion F as [|? ? N F']; subst. cbn [reacts].
  destruct (IH (fst (react A s e)) F') as (b & B). rewrite not_clears in B by exact N.
  destruct e as [[x|]|rec| |]; cbn [items]; try (exists b; exact B).
  destruct (trim_suffix (h_max s) (h_list s ++ [x])) as (c & C). exists (c ++ b). rewrite <- app_assoc, <- B, app_assoc, <- C, <- app_assoc. reflexivity.
Qed.
Lemma tail_all m es : (m <= 0)%Z -> forall s, agrees s -> h_max s = m -> sets_none f_max es -> Forall (fun e => ~ clears e) es -> h_list (reacts A s es) = h_list s ++ items es.
Proof.
  intros Hm. induction es as [|e es IH]; intros s G M S F; [cbn; now rewrite app_nil_r|]. inversion F as [|? ? N F']; subst. cbn [reacts].
  rewrite IH; [|now apply react_agrees|apply react_keeps; [exact G|eauto using sets_hd]|eauto using sets_tl|exact F']. rewrite not_clears by exact N.
  destruct e as [[x|]|rec| |]; cbn [items]; try reflexivity. rewrite trim_none by exact Hm. now rewrite <- app_assoc.
Qed.
Lemma skip_skip (a b : nat) : forall (l : list A), skipn a (skipn b l) = skipn (b + a) l.
Proof. induction b as [|b IH]; intros l; [reflexivity|]. destruct l; [now rewrite !skipn_nil|]. cbn [skipn Nat.add]. apply IH. Qed.
Lemma tail_last m es : (0 < m)%Z -> forall s, agrees s -> h_max s = m -> sets_none f_max es -> Forall (fun e => ~ clears e) es -> length (h_list s) <= Z.to_nat m ->
  h_list (reacts A s es) = skipn (length (h_list s ++ items es) - Z.to_nat m) (h_list s ++ items es).
Proof.
  intros Hm. induction es as [|e es IH]; intros s G M S F L; [cbn; rewrite app_nil_r; replace (length (h_list s) - Z.to_nat m) with 0 by lia; reflexivity|]. inversion F as [|? ? N F']; subst. cbn [reacts].
  assert (LE : length (h_list (fst (react A s e))) <= Z.to_nat (h_max s)).
  { rewrite not_clears by exact N. destruct e as [[x|]|rec| |]; try exact L. rewrite trim_some by exact Hm. rewrite skipn_length, app_length. cbn [length]. lia. }
  rewrite IH; [|now apply react_agrees|apply react_keeps; [exact G|eauto using sets_hd]|eauto using sets_tl|exact F'|exact LE]. rewrite not_clears by exact N.
  destruct e as [[x|]|rec| |]; cbn [items]; try reflexivity. rewrite trim_some by exact Hm.
  change (x :: items es) with ([x] ++ items es). rewrite (app_assoc (h_list s)). set (l := h_list s ++ [x]) in *. set (k := length l - Z.to_nat (h_max s)).
  rewrite <- (firstn_skipn k l) at 3 4. rewrite <- app_assoc. rewrite (app_length (firstn k l)), firstn_length. replace (Nat.min k (length l)) with k by lia.
  set (r := skipn k l ++ items es). destruct (Nat.le_gt_cases (length r) (Z.to_nat (h_max s))) as [C|C].
  - replace (length r - Z.to_nat (h_max s)) with 0 by lia. cbn [skipn]. destruct (Nat.eq_dec k 0) as [Z|Z].
    + rewrite Z. cbn [firstn app]. replace (0 + length r - Z.to_nat (h_max s)) with 0 by lia. reflexivity.
    + assert (Q : length (skipn k l) = Z.to_nat (h_max s)) by (rewrite skipn_length; lia). unfold r in *. rewrite app_length in *. replace (k + (length (skipn k l) + length (items es)) - Z.to_nat (h_max s)) with (length (firstn k l) + 0) by (rewrite firstn_length; lia).
      rewrite <- skip_skip, skipn_app, Nat.sub_diag, skipn_all. reflexivity.
  - replace (k + length r - Z.to_nat (h_max s)) with (length (firstn k l) + (length r - Z.to_nat (h_max s))) by (rewrite firstn_length; lia). rewrite <- skip_skip, skipn_app, Nat.sub_diag, skipn_all. reflexivity.
Qed.
End Items.
