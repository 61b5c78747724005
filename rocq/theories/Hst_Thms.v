(** What a HistoryCollect node keeps and gives. *)
From Verif Require Import Base Hst_Model Hst_Spec Hst_Proofs.
Local Open Scope nat_scope.

Lemma since_state A s0 es tail : agrees A s0 -> h_list s0 = [] -> since_cleared es tail ->
  exists s, agrees A s /\ h_list s = [] /\ reacts A s0 es = reacts A s tail /\ Forall (fun e => ~ clears e) tail.
Proof.
  intros G L (F & [->|(before & e & -> & C)]); [exists s0; auto|]. exists (fst (react A (reacts A s0 before) e)).
  split; [apply react_agrees, reacts_agrees, G|]. split; [now apply clears_empty|]. split; [now rewrite reacts_app|exact F].
Qed.
Lemma make_agrees A m v : agrees A (make A m v).
Proof. split; reflexivity. Qed.
(** With one limit from the time the history was last cleared: that many of the items that came in since, the last ones, in order. *)
Theorem hst_kept : forall A max verbose es tail m, since_cleared es tail -> last_set f_max (match max with Given m => m | _ => (-1)%Z end) es m ->
  (forall rec v, In (Set_state rec) tail -> accepted rec -> f_max rec <> Given v) ->
  if (0 <? m)%Z then last_of (Z.to_nat m) (items tail) (h_list (reacts A (make A max verbose) es)) else h_list (reacts A (make A max verbose) es) = items tail.
Proof.
  intros A max verbose es tail m S LM N. destruct (since_state A (make A max verbose) es tail (make_agrees _ _ _) eq_refl S) as (s & G & L & E & F).
  assert (M : h_max s = m).
  { rewrite <- (proj1 (reacts_keeps A tail s G) N), <- E. apply (last_max A _ es m LM); [apply make_agrees|]. destruct max; reflexivity. }
  rewrite E. destruct (Z.ltb_spec 0 m) as [P|P].
  - rewrite (tail_last A m tail P s G M N F) by (rewrite L; cbn; lia). rewrite L. cbn [app]. set (l := items tail). exists (firstn (length l - Z.to_nat m) l). split; [now rewrite firstn_skipn|]. rewrite skipn_length. lia.
  - rewrite (tail_all A m tail P s G M N F), L. reflexivity.
Qed.
Print Assumptions hst_kept.
(** Whatever limits were set in between, the history is an end of the items since it was last cleared. *)
Theorem hst_end : forall A max verbose es tail, since_cleared es tail -> exists gone, items tail = gone ++ h_list (reacts A (make A max verbose) es).
Proof.
  intros A max verbose es tail S. destruct (since_state A (make A max verbose) es tail (make_agrees _ _ _) eq_refl S) as (s & G & L & E & F).
  destruct (tail_suffix A tail s F) as (b & B). exists b. rewrite E, <- B, L. reflexivity.
Qed.
Print Assumptions hst_end.
(** After an item the history ends with it and is within the limit in force; it goes out with the result if the node is verbose. *)
Theorem hst_item : forall A max verbose es x m v, last_set f_max (match max with Given m => m | _ => (-1)%Z end) es m -> last_set f_verbose (match verbose with Given v => v | _ => false end) es v ->
  let s := reacts A (make A max verbose) es in let l := h_list (reacts A (make A max verbose) (es ++ [Result (Some x)])) in
  (if (0 <? m)%Z then last_of (Z.to_nat m) (h_list s ++ [x]) l else l = h_list s ++ [x]) /\ snd (react A s (Result (Some x))) = if v then Some l else None.
Proof.
  intros A max verbose es x m v LM LV s l. assert (M : h_max s = m) by (apply (last_max A _ es m LM); [apply make_agrees|destruct max; reflexivity]).
  assert (V : h_verbose s = v) by (apply (last_verbose A _ es v LV); [apply make_agrees|destruct verbose; reflexivity]).
  assert (E : l = trim A m (h_list s ++ [x])) by (unfold l; rewrite reacts_app; fold s; cbn [reacts react getResult fst h_list]; now rewrite M).
  split.
  - rewrite E. destruct (Z.ltb_spec 0 m) as [P|P]; [|now apply trim_none]. rewrite trim_some by exact P. eexists. split; [symmetry; apply firstn_skipn|]. rewrite skipn_length. lia.
  - cbn [react getResult snd]. now rewrite V, M, <- E.
Qed.
Print Assumptions hst_item.
(** Get.History gives the history and changes nothing; a result without the item neither gives nor changes anything. *)
Theorem hst_ask : forall A max verbose es, let s := reacts A (make A max verbose) es in
  react A s Get_history = (s, Some (h_list (reacts A (make A max verbose) es))) /\ react A s (Result None) = (s, None).
Proof. intros A max verbose es s. split; reflexivity. Qed.
Print Assumptions hst_ask.

(** *** Examples and what is not so *)
Definition plain (max : field Z) (list : bool) : hrec := {| f_base := BaseOk; f_labels := Absent; f_max := max; f_verbose := Absent; f_list := list |}.
Definition got (l : list nat) : list (event nat) := map (fun x => Result (Some x)) l.
Lemma since_all A es : Forall (fun e : event A => ~ clears e) es -> since_cleared es es.
Proof. intros F. split; [exact F|now left]. Qed.
Example hst_kept_ex : h_list (reacts nat (make nat (Given 2%Z) Absent) (got [1; 2] ++ [Clear_history; Result None] ++ got [3; 4; 5])) = [4; 5] /\
  h_list (reacts nat (make nat Absent Absent) (got [1; 2; 3])) = [1; 2; 3].
Proof. split; reflexivity. Qed.
Example hst_kept_ex2 : since_cleared (got [1; 2] ++ [Clear_history; Result None] ++ got [3; 4; 5]) (Result None :: got [3; 4; 5]) /\
  last_set f_max 2%Z (got [1; 2] ++ [Clear_history; Result None] ++ got [3; 4; 5]) 2%Z.
Proof.
  split.
  - split; [repeat (constructor; [exact (fun H => H)|]); constructor|]. right. exists (got [1; 2]), Clear_history. split; [reflexivity|exact I].
  - apply LNone. intros rec v H. cbn in H. repeat (destruct H as [H|H]; [discriminate H|]). contradiction.
Qed.
Example hst_limit_ex : h_list (reacts nat (make nat Absent Absent) (got [1; 2; 3] ++ [Set_state (plain (Given 2%Z) false)] ++ got [4])) = [3; 4].
Proof. reflexivity. Qed.
Example hst_verbose_ex : snd (react nat (reacts nat (make nat (Given 2%Z) (Given true)) (got [1; 2])) (Result (Some 3))) = Some [2; 3].
Proof. reflexivity. Qed.
(** A record that is refused does not leave the node as it was: the history is lost. *)
Theorem hst_refused_refuted : ~ (forall A max verbose es rec s', setState A (reacts A (make A max verbose) es) rec = (s', false) -> s' = reacts A (make A max verbose) es).
Proof. intros H. specialize (H nat Absent Absent (got [1; 2]) (plain Bad false) _ eq_refl). discriminate H. Qed.
Print Assumptions hst_refused_refuted.
(** A limit that is set does not hold until the next item. *)
Theorem hst_limit_refuted : ~ (forall A max verbose es m, last_set f_max (match max with Given m => m | _ => (-1)%Z end) es m -> (0 < m)%Z -> length (h_list (reacts A (make A max verbose) es)) <= Z.to_nat m).
Proof.
  intros H. specialize (H nat Absent Absent (got [1; 2; 3] ++ [Set_state (plain (Given 2%Z) false)]) 2%Z).
  assert (X : length [1; 2; 3] <= 2); [|cbn in X; lia]. apply H; [|lia]. apply (LSome nat f_max _ _ (plain (Given 2%Z) false) 2%Z []); [repeat split; discriminate|reflexivity|intros rec' v' []].
Qed.
Print Assumptions hst_limit_refuted.
(** What is refused changes at most the history: limit and verbosity are those last accepted. *)
Theorem hst_refused : forall A max verbose es rec s', setState A (reacts A (make A max verbose) es) rec = (s', false) ->
  h_max s' = h_max (reacts A (make A max verbose) es) /\ h_verbose s' = h_verbose (reacts A (make A max verbose) es) /\ ~ accepted rec /\
  (f_base rec = BaseProtected -> s' = reacts A (make A max verbose) es) /\ (f_base rec <> BaseProtected -> h_list s' = []).
Proof.
  intros A max verbose es rec s' E. destruct (reacts_agrees A es _ (make_agrees A max verbose)) as (M & V). set (s := reacts A (make A max verbose) es) in *.
  destruct (acc_dec rec) as [H|H]; [rewrite set_acc in E by exact H; discriminate E|]. rewrite set_rej in E by exact H. injection E as <-.
  destruct (f_base rec); cbn; (split; [congruence|split; [congruence|split; [exact H|split; [congruence|congruence]]]]).
Qed.
Print Assumptions hst_refused.
Example hst_refused_ex : setState nat (reacts nat (make nat (Given 5%Z) Absent) (got [1; 2])) {| f_base := BaseOk; f_labels := Absent; f_max := Given 9%Z; f_verbose := Bad; f_list := false |} =
  (make nat (Given 5%Z) Absent, false).
Proof. reflexivity. Qed.
