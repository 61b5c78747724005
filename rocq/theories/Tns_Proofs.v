(** Lemmas for Tns_Thms. *)
From Verif Require Import Base Poll_Model Poll_Proofs Vel_Model Fun_Model Tns_Model Tns_Spec.

(** ** Indices *)
Lemma fold_left_mul : forall d a, fold_left Nat.mul d a = a * prod d.
Proof. induction d as [|n d IH]; intros a; cbn [fold_left prod fold_right]; [lia|]. rewrite IH. unfold prod. lia. Qed.
Lemma volume_prod d : volume d = prod d.
Proof. unfold volume. rewrite fold_left_mul. lia. Qed.
Lemma prod_cons n d : prod (n :: d) = n * prod d.
Proof. reflexivity. Qed.
Lemma prod_app : forall d e, prod (d ++ e) = prod d * prod e.
Proof. induction d as [|n d IH]; intros e; cbn [app]; [unfold prod at 2; cbn; lia|]. rewrite !prod_cons, IH. lia. Qed.
Lemma place_cons n d i ix : place (n :: d) (i :: ix) = i * prod d + place d ix.
Proof. reflexivity. Qed.
Lemma place_lt : forall d ix, within d ix -> place d ix < prod d.
Proof.
  induction d as [|n d IH]; intros ix H; inversion H as [|i n' ix' d' L Hx]; subst; [cbn; lia|].
  rewrite place_cons, prod_cons. specialize (IH ix' Hx). nia.
Qed.
Lemma place_app : forall d e ix jx, within d ix -> place (d ++ e) (ix ++ jx) = place d ix * prod e + place e jx.
Proof.
  induction d as [|n d IH]; intros e ix jx H; inversion H as [|i n' ix' d' L Hx]; subst; [cbn; lia|].
  cbn [app]. rewrite !place_cons, (IH _ _ _ Hx), prod_app. lia.
Qed.
Lemma place_surj : forall d p, p < prod d -> exists ix, within d ix /\ place d ix = p.
Proof.
  induction d as [|n d IH]; intros p H; [exists []; split; [constructor|cbn in *; lia]|].
  rewrite prod_cons in H.
  destruct (IH (p mod prod d)) as (ix & W & E); [apply Nat.mod_upper_bound; nia|].
  exists (p / prod d :: ix). split; [constructor; [|exact W]; apply Nat.div_lt_upper_bound; nia|].
  rewrite place_cons, E. pose proof (Nat.div_mod_eq p (prod d)). nia.
Qed.
Lemma place_inj : forall d ix jx, within d ix -> within d jx -> place d ix = place d jx -> ix = jx.
Proof.
  induction d as [|n d IH]; intros ix jx H K E; inversion H as [|i n' ix' d' L Hx]; subst; inversion K as [|j n' jx' d' M Kx]; subst; [reflexivity|].
  rewrite !place_cons in E. pose proof (place_lt _ _ Hx). pose proof (place_lt _ _ Kx).
  assert (i = j) by nia. subst j. f_equal. apply IH; auto. lia.
Qed.
Lemma within_app : forall d e ix jx, within d ix -> within e jx -> within (d ++ e) (ix ++ jx).
Proof. intros. apply Forall2_app; assumption. Qed.
Lemma within_length d ix : within d ix -> length ix = length d.
Proof. intros H. induction H; cbn; congruence. Qed.
Lemma prod_pos : forall d, 1 <= prod d -> Forall (fun n => 1 <= n) d.
Proof. induction d as [|n d IH]; intros H; constructor; rewrite prod_cons in H; [nia|]. apply IH. nia. Qed.

Lemma digit_lt k K m x : k < K -> x < m -> k * m + x < K * m.
Proof. intros. nia. Qed.
Lemma digit_inj k k' m x x' : x < m -> x' < m -> k * m + x = k' * m + x' -> k = k' /\ x = x'.
Proof. intros. assert (k = k') by nia. subst. lia. Qed.

Section Tensors.
Context {V P F : Type}.
Notation tres := (tres V P F).
Notation vset := (vset V P F).

Lemma sound_vs (r : tres) : sound r -> t_vs r <> [].
Proof. now intros (H & _). Qed.
Lemma sound_length (r : tres) : sound r -> length (t_vs r) = prod (t_dims r).
Proof. now intros (_ & H & _). Qed.
Lemma length_pos {A} (l : list A) : l <> [] <-> 1 <= length l.
Proof. destruct l; cbn; split; intros; try congruence; lia. Qed.
Lemma sound_pos (r : tres) : sound r -> 1 <= prod (t_dims r).
Proof. intros S. rewrite <- (sound_length _ S). apply length_pos, (sound_vs _ S). Qed.
Lemma tres_eq (r s : tres) : t_vs r = t_vs s -> t_dims r = t_dims s -> t_field r = t_field s -> r = s.
Proof. destruct r, s; cbn. now intros -> -> ->. Qed.

Lemma clone_sound (r : tres) : sound r -> clone r = Ok r.
Proof.
  intros (N & L & E & W). unfold clone, numVellSets. rewrite E.
  destruct (t_dims r) as [|n [|m d]] eqn:D; cbn [length Nat.ltb Nat.leb].
  - rewrite L. cbn. f_equal. apply tres_eq; cbn [t_vs t_dims t_field]; [reflexivity|now rewrite D|now rewrite E].
  - rewrite prod_cons in L. change (prod []) with 1 in L. cbn [length] in W. specialize (W eq_refl).
    destruct (length (t_vs r)) as [|[|k]]; [lia|lia|].
    f_equal. apply tres_eq; cbn [t_vs t_dims t_field]; [reflexivity|rewrite D; f_equal; lia|now rewrite E].
  - rewrite volume_prod, L, Nat.eqb_refl. f_equal. apply tres_eq; cbn [t_vs t_dims t_field]; [reflexivity|now rewrite D|now rewrite E].
Qed.

Lemma vellSet_nth (r : tres) i v : nth_error (t_vs r) i = Some v -> vellSet r i = Ok v.
Proof. unfold vellSet. destruct (t_vs r) as [|x l]; [now destruct i|]. now intros ->. Qed.
Lemma vellSet_ok (r : tres) i v : vellSet r i = Ok v -> nth_error (t_vs r) i = Some v.
Proof. unfold vellSet. destruct (t_vs r) as [|x l]; [discriminate|]. destruct (nth_error (x :: l) i); congruence. Qed.

Definition put_at (l : list vset) (i : nat) (v : vset) : list vset := firstn i l ++ v :: skipn (S i) l.
Lemma put_vs_ok (l : list vset) i v : l <> [] -> i <= length l -> put_vs l i v = Ok (put_at l i v).
Proof.
  intros N L. unfold put_vs. destruct l as [|x l]; [easy|].
  destruct (Nat.eqb_spec i (length (x :: l))) as [->|H].
  - unfold put_at. rewrite firstn_all, skipn_all2; [reflexivity|lia].
  - assert (i < length (x :: l)) by lia. apply Nat.ltb_lt in H0. now rewrite H0.
Qed.
Lemma put_at_length (l : list vset) i v : i < length l -> length (put_at l i v) = length l.
Proof. intros H. unfold put_at. rewrite app_length, firstn_length. cbn [length]. rewrite skipn_length. lia. Qed.
Lemma nth_put_same (l : list vset) i v : i <= length l -> nth_error (put_at l i v) i = Some v.
Proof. intros H. unfold put_at. rewrite nth_error_app2; rewrite firstn_length; [|lia]. now replace (i - Nat.min i (length l)) with 0 by lia. Qed.
Lemma nth_firstn {A} : forall (l : list A) i j, j < i -> nth_error (firstn i l) j = nth_error l j.
Proof. induction l as [|x l IH]; intros [|i] j H; try lia; [now destruct j|]. destruct j; cbn; [reflexivity|]. apply IH. lia. Qed.
Lemma nth_skipn {A} : forall (l : list A) i j, nth_error (skipn i l) j = nth_error l (i + j).
Proof. induction l as [|x l IH]; intros [|i] j; cbn; auto. now destruct j. Qed.
Lemma nth_put_other (l : list vset) i j v : i <= length l -> j <> i -> nth_error (put_at l i v) j = nth_error l j.
Proof.
  intros H N. unfold put_at.
  destruct (Nat.lt_ge_cases j i) as [J|J].
  - rewrite nth_error_app1; [|rewrite firstn_length; lia]. now apply nth_firstn.
  - rewrite nth_error_app2; rewrite firstn_length; [|lia].
    replace (j - Nat.min i (length l)) with (S (j - S i)) by lia. cbn [nth_error]. rewrite nth_skipn. f_equal. lia.
Qed.
Lemma setVellSet_ok i v (r : tres) : t_vs r <> [] -> i <= length (t_vs r) ->
  setVellSet i v r = Ok {| t_vs := put_at (t_vs r) i v; t_dims := t_dims r; t_field := t_field r |}.
Proof. intros N L. unfold setVellSet. now rewrite put_vs_ok. Qed.
Lemma put_at_nonempty (l : list vset) i v : put_at l i v <> [].
Proof. unfold put_at. now destruct (firstn i l). Qed.

Lemma nth_ext_some {A} : forall (l k : list A), (forall i, nth_error l i = nth_error k i) -> l = k.
Proof.
  induction l as [|x l IH]; intros [|y k] H; [reflexivity|specialize (H 0); discriminate|specialize (H 0); discriminate|].
  pose proof (H 0) as E. cbn in E. injection E as ->. f_equal. apply IH. intros i. exact (H (S i)).
Qed.
Lemma nth_ext_lt {A} (l k : list A) : length l = length k -> (forall i, i < length l -> nth_error l i = nth_error k i) -> l = k.
Proof.
  intros L H. apply nth_ext_some. intros i. destruct (Nat.lt_ge_cases i (length l)) as [I|I]; [now apply H|].
  rewrite (proj2 (nth_error_None l i)), (proj2 (nth_error_None k i)); auto; lia.
Qed.

(** ** Loops *)
Lemma over_ok {A B} (f : A -> B -> res B) l b a c : over f (a :: l) b = Ok c <-> exists b', f a b = Ok b' /\ over f l b' = Ok c.
Proof. cbn. unfold bind. destruct (f a b); split; intros H; try discriminate; eauto; destruct H as (b' & E & H); try discriminate. congruence. Qed.
Lemma over_app {A B} (f : A -> B -> res B) : forall l k b, over f (l ++ k) b = bind (over f l b) (over f k).
Proof. induction l as [|a l IH]; intros k b; [reflexivity|]. cbn [app over]. destruct (f a b); cbn [bind]; auto. Qed.

(** Putting one VellSet after the other, from place [k] on *)
Definition put_from (l : list vset) (k : nat) (vs : list vset) : list vset := firstn k l ++ vs ++ skipn (k + length vs) l.
Lemma put_from_nil l k : put_from l k [] = l.
Proof. unfold put_from. cbn [length app]. rewrite Nat.add_0_r. apply firstn_skipn. Qed.
Lemma put_from_cons (l : list vset) k v vs : k <= length l -> put_from (put_at l k v) (S k) vs = put_from l k (v :: vs).
Proof.
  intros H. unfold put_from, put_at. cbn [length].
  assert (E : firstn k l ++ v :: skipn (S k) l = (firstn k l ++ [v]) ++ skipn (S k) l) by now rewrite <- app_assoc.
  assert (L : length (firstn k l ++ [v]) = S k) by (rewrite app_length, firstn_length; cbn; lia).
  rewrite E, firstn_app, L, Nat.sub_diag, firstn_O, app_nil_r, firstn_all2; [|lia].
  rewrite skipn_app, L, skipn_all2; [|lia]. cbn [app].
  replace (S k + length vs - S k) with (length vs) by lia.
  rewrite <- app_assoc. cbn [app]. do 3 f_equal.
  clear. revert l. generalize (length vs) as n. intros n l. revert k l.
  assert (G : forall a b (l : list vset), skipn a (skipn b l) = skipn (b + a) l).
  { intros a b. revert a. induction b as [|b IH]; intros a l; [reflexivity|]. destruct l as [|x l]; [now rewrite !skipn_nil|]. cbn [skipn Nat.add]. apply IH. }
  intros k l. rewrite G. f_equal. lia.
Qed.
Lemma put_from_all (l : list vset) vs : length l <= length vs -> put_from l 0 vs = vs.
Proof. intros L. unfold put_from. cbn [firstn app Nat.add]. rewrite skipn_all2; [apply app_nil_r|lia]. Qed.
Lemma put_from_length (l : list vset) k vs : k + length vs <= length l -> length (put_from l k vs) = length l.
Proof. intros H. unfold put_from. rewrite !app_length, firstn_length, skipn_length. lia. Qed.
Definition with_vs (r : tres) (l : list vset) : tres := {| t_vs := l; t_dims := t_dims r; t_field := t_field r |}.
Lemma over_put {A} (f : nat * A -> tres -> res tres) (g : A -> vset) :
  (forall i a r, f (i, a) r = setVellSet i (g a) r) ->
  forall l k r, t_vs r <> [] -> k <= length (t_vs r) ->
  over f (combine (seq k (length l)) l) r = Ok (with_vs r (put_from (t_vs r) k (map g l))).
Proof.
  intros Hf. induction l as [|a l IH]; intros k r N L.
  - cbn. rewrite put_from_nil. now destruct r.
  - cbn [length seq combine over]. rewrite Hf, setVellSet_ok by assumption. cbn [bind].
    rewrite IH; cbn [t_vs]; [|apply put_at_nonempty|].
    + unfold with_vs. cbn [t_vs t_dims t_field map]. do 2 f_equal. now apply put_from_cons.
    + unfold put_at. rewrite app_length, firstn_length. cbn [length]. lia.
Qed.
Lemma over_ext {A B} (f g : A -> B -> res B) : forall l b, (forall a b, In a l -> f a b = g a b) -> over f l b = over g l b.
Proof.
  induction l as [|a l IH]; intros b H; [reflexivity|]. cbn [over]. rewrite H by now left. destruct (g a b); cbn [bind]; auto.
  apply IH. intros. apply H. now right.
Qed.

(** Putting VellSets into different places *)
Lemma over_scatter {A} (f : A -> tres -> res tres) (dst : A -> nat) (g : A -> vset) n :
  forall l r, (forall a r, In a l -> length (t_vs r) = n -> f a r = setVellSet (dst a) (g a) r) ->
  (forall a, In a l -> dst a < n) -> NoDup (map dst l) -> length (t_vs r) = n -> t_vs r <> [] ->
  exists vs, over f l r = Ok (with_vs r vs) /\ length vs = n /\
    (forall a, In a l -> nth_error vs (dst a) = Some (g a)) /\ forall p, ~ In p (map dst l) -> nth_error vs p = nth_error (t_vs r) p.
Proof.
  induction l as [|a l IH]; intros r Hf Hd ND L N.
  - exists (t_vs r). cbn. split; [now destruct r|]. firstorder.
  - cbn [map] in ND. apply NoDup_cons_iff in ND as [NI ND].
    pose proof (Hd a (or_introl eq_refl)) as Da.
    cbn [over]. rewrite (Hf a r (or_introl eq_refl) L), setVellSet_ok by (auto; lia). cbn [bind].
    destruct (IH {| t_vs := put_at (t_vs r) (dst a) (g a); t_dims := t_dims r; t_field := t_field r |}) as (vs & E & L' & H & K).
    { intros. apply Hf; auto. now right. } { intros. apply Hd. now right. } { exact ND. }
    { cbn [t_vs]. rewrite put_at_length; lia. } { apply put_at_nonempty. }
    exists vs. split; [exact E|]. split; [exact L'|]. cbn [t_vs] in K. split.
    + intros b [->|I]; [|now apply H]. rewrite (K _ NI). apply nth_put_same. lia.
    + intros p NP. cbn [map] in NP. rewrite K by (intros I; apply NP; now right).
      apply nth_put_other; [lia|]. intros ->. apply NP. now left.
Qed.

(** ** Transpose *)
Lemma over_prod {A B C} (f : A -> B -> C -> res C) : forall K L c,
  over (fun k => over (f k) L) K c = over (fun kl => f (fst kl) (snd kl)) (list_prod K L) c.
Proof.
  induction K as [|k K IH]; intros L c; [reflexivity|]. cbn [over list_prod]. rewrite over_app.
  assert (E : forall c, over (fun kl => f (fst kl) (snd kl)) (map (fun y => (k, y)) L) c = over (f k) L c).
  { clear. induction L as [|l L IHL]; intros c; [reflexivity|]. cbn [map over fst snd]. destruct (f k l c); cbn [bind]; auto. }
  rewrite E. destruct (over (f k) L c); cbn [bind]; auto.
Qed.
Definition triples (K ny nx : nat) : list (nat * (nat * nat)) := list_prod (seq 0 K) (list_prod (seq 0 ny) (seq 0 nx)).
Lemma in_triples K ny nx k i j : In (k, (i, j)) (triples K ny nx) <-> k < K /\ i < ny /\ j < nx.
Proof. unfold triples. rewrite !in_prod_iff, !in_seq. intuition lia. Qed.
Lemma NoDup_map_inj {A B} (f : A -> B) : forall l, NoDup l -> (forall a b, In a l -> In b l -> f a = f b -> a = b) -> NoDup (map f l).
Proof.
  induction l as [|a l IH]; intros N H; [constructor|]. apply NoDup_cons_iff in N as [NI N]. cbn [map]. constructor.
  - intros I. apply in_map_iff in I as (b & E & I). apply NI. rewrite (H a b); auto; [now left|now right].
  - apply IH; auto. intros. apply H; auto; now right.
Qed.
Lemma NoDup_list_prod {A B} : forall (l : list A) (k : list B), NoDup l -> NoDup k -> NoDup (list_prod l k).
Proof.
  induction l as [|a l IH]; intros k N M; [constructor|]. apply NoDup_cons_iff in N as [NI N]. cbn [list_prod].
  apply NoDup_app_iff_local. split; [|split; [now apply IH|]].
  - apply NoDup_map_inj; auto. intros x y _ _ E. congruence.
  - intros [x y] I J. apply in_map_iff in I as (z & E & _). injection E as <- <-. apply in_prod_iff in J as [J _]. contradiction.
Qed.
Lemma NoDup_triples K ny nx : NoDup (triples K ny nx).
Proof. unfold triples. repeat apply NoDup_list_prod; apply seq_NoDup. Qed.

Definition src (nx ny : nat) (x : nat * (nat * nat)) : nat := fst x * (nx * ny) + snd (snd x) * ny + fst (snd x).
Definition dst (nx ny : nat) (x : nat * (nat * nat)) : nat := fst x * (nx * ny) + fst (snd x) * nx + snd (snd x).
Lemma transposing (ch r : tres) nx ny K : length (t_vs ch) = K * (nx * ny) -> length (t_vs r) = K * (nx * ny) -> t_vs r <> [] ->
  exists vs, over (transpose_matrix ch nx ny) (seq 0 K) r = Ok (with_vs r vs) /\ length vs = K * (nx * ny) /\
    forall k i j, k < K -> i < ny -> j < nx ->
      nth_error vs (k * (nx * ny) + i * nx + j) = nth_error (t_vs ch) (k * (nx * ny) + j * ny + i).
Proof.
  intros Lc Lr N. unfold transpose_matrix.
  rewrite (over_prod (fun k ij out => bind (vellSet ch (k * (nx * ny) + snd ij * ny + fst ij)) (fun v =>
                      setVellSet (k * (nx * ny) + fst ij * nx + snd ij) v out))).
  fold (triples K ny nx).
  set (g := fun x => nth (src nx ny x) (t_vs ch) (VData no_data)).
  destruct (over_scatter (fun kl out => bind (vellSet ch (fst kl * (nx * ny) + snd (snd kl) * ny + fst (snd kl))) (fun v =>
                      setVellSet (fst kl * (nx * ny) + fst (snd kl) * nx + snd (snd kl)) v out)) (dst nx ny) g (K * (nx * ny)) (triples K ny nx) r) as (vs & E & L & H & _).
  - intros (k & i & j) r' I _. apply in_triples in I as (Hk & Hi & Hj). cbn [fst snd].
    rewrite (vellSet_nth ch (k * (nx * ny) + j * ny + i) (g (k, (i, j)))); [reflexivity|].
    unfold g, src. cbn [fst snd]. apply nth_error_nth'. rewrite Lc, <- Nat.add_assoc. apply digit_lt; [|apply digit_lt]; assumption.
  - intros (k & i & j) I. apply in_triples in I as (Hk & Hi & Hj). unfold dst. cbn [fst snd].
    rewrite <- Nat.add_assoc, (Nat.mul_comm nx ny). apply digit_lt; [|apply digit_lt]; assumption.
  - apply NoDup_map_inj; [apply NoDup_triples|].
    intros (k & i & j) (k' & i' & j') I J E'. apply in_triples in I as (Hk & Hi & Hj). apply in_triples in J as (Hk' & Hi' & Hj').
    unfold dst in E'. cbn [fst snd] in E'.
    rewrite <- !Nat.add_assoc, (Nat.mul_comm nx ny) in E'.
    apply digit_inj in E' as [-> E']; [|now apply digit_lt|now apply digit_lt]. now apply digit_inj in E' as [-> ->].
  - exact Lr.
  - exact N.
  - exists vs. split; [exact E|]. split; [exact L|]. intros k i j Hk Hi Hj.
    specialize (H (k, (i, j))). unfold dst, g, src in H. cbn [fst snd] in H. rewrite H by now apply in_triples.
    symmetry. apply nth_error_nth'. rewrite Lc, <- Nat.add_assoc. apply digit_lt; [|apply digit_lt]; assumption.
Qed.

(** dimensions and record of a Result of these VellSets *)
Definition shaped (vs : list vset) (d : list nat) : tres :=
  {| t_vs := vs; t_dims := d; t_field := if Nat.ltb 1 (length d) then Some d else None |}.
Definition squeezed (d : list nat) : list nat := if Nat.ltb 1 (prod d) then d else [].
Lemma setDims_ok d (r : tres) : t_vs r <> [] -> length (t_vs r) = prod d -> setDims d r = Ok (shaped (t_vs r) (squeezed d)).
Proof.
  intros N L. unfold setDims, numVellSets. rewrite volume_prod, L, Nat.eqb_refl. cbn [negb].
  destruct (t_vs r) eqn:E; [easy|]. rewrite <- E. reflexivity.
Qed.
Lemma shaped_sound vs d : vs <> [] -> length vs = prod d -> (length d = 1 -> 1 < prod d) -> sound (shaped vs d).
Proof. intros N L W. unfold sound, shaped. cbn [t_vs t_dims t_field]. repeat split; auto. lia. Qed.
Lemma squeezed_prod d : 1 <= prod d -> prod (squeezed d) = prod d.
Proof. intros H. unfold squeezed. destruct (Nat.ltb_spec 1 (prod d)); [reflexivity|]. cbn. lia. Qed.
Lemma squeezed_sound vs d : vs <> [] -> length vs = prod d -> sound (shaped vs (squeezed d)).
Proof.
  intros N L. assert (1 <= prod d) by (rewrite <- L; now apply length_pos). apply shaped_sound; auto; rewrite squeezed_prod by lia; [exact L|].
  unfold squeezed. destruct (Nat.ltb_spec 1 (prod d)); [lia|]. cbn. lia.
Qed.
Lemma sound_shaped (r : tres) : sound r -> r = shaped (t_vs r) (t_dims r).
Proof. intros (_ & _ & E & _). apply tres_eq; auto. Qed.
Definition flipped (d : list nat) (nx ny : nat) : list nat := if Nat.eqb nx 1 then squeezed (d ++ [ny]) else d ++ [ny; nx].

Lemma prod_two nx ny : prod [nx; ny] = nx * ny.
Proof. cbn. lia. Qed.
Lemma prod_one n : prod [n] = n.
Proof. cbn. lia. Qed.
Lemma place_two nx ny i j : place [nx; ny] [i; j] = i * ny + j.
Proof. cbn. lia. Qed.
Lemma transposed_matrix tensor (ch : tres) d nx ny : sound ch -> t_dims ch = d ++ [nx; ny] -> (d = [] -> tensor = true -> ny <> 1) ->
  exists vs, transposed tensor ch = Ok (shaped vs (flipped d nx ny), true) /\ sound (shaped vs (flipped d nx ny)) /\ length vs = prod (d ++ [ny; nx]) /\
    forall jx i j, within d jx -> i < ny -> j < nx ->
      nth_error vs (place (d ++ [ny; nx]) (jx ++ [i; j])) = elem ch (jx ++ [j; i]).
Proof.
  intros S D T. pose proof (sound_vs _ S) as N. pose proof (sound_length _ S) as L. pose proof (sound_pos _ S) as Pos.
  rewrite D in L, Pos. rewrite prod_app, prod_two in L, Pos.
  assert (R : rev (t_dims ch) = ny :: nx :: rev d) by (rewrite D, rev_app_distr; reflexivity).
  unfold flipped. destruct (Nat.eqb_spec nx 1) as [->|N1].
  - (* a reshape *)
    exists (t_vs ch).
    assert (E : transposed tensor ch = bind (bind (clone ch) (setDims (d ++ [ny]))) (fun r => Ok (r, true))).
    { unfold transposed. rewrite R. destruct (rev d) as [|x e] eqn:Rd.
      - apply (f_equal (@rev nat)) in Rd. rewrite rev_involutive in Rd. cbn in Rd. subst d.
        destruct tensor; cbn [andb]; [|reflexivity]. rewrite (proj2 (Nat.eqb_neq ny 1)) by auto. reflexivity.
      - cbn [Nat.eqb]. now rewrite <- Rd, rev_involutive. }
    rewrite E, (clone_sound _ S). cbn [bind]. rewrite setDims_ok; [|exact N|rewrite prod_app, prod_one; lia]. cbn [bind].
    split; [reflexivity|]. split; [apply squeezed_sound; [exact N|rewrite prod_app, prod_one; lia]|].
    split; [rewrite prod_app, prod_two; lia|].
    intros jx i j W Hi Hj. unfold elem. rewrite D, !place_app by assumption. rewrite !prod_two, !place_two. f_equal. lia.
  - set (K := prod d). fold K in L, Pos.
    assert (PD : prod (d ++ [ny; nx]) = K * (nx * ny)) by (rewrite prod_app, prod_two; unfold K; lia).
    assert (Lt : 1 < prod (d ++ [ny; nx])).
    { rewrite PD. clearbody K. destruct K as [|K]; [lia|]. destruct nx as [|[|nx]]; [lia|lia|]. destruct ny as [|ny]; [lia|]. nia. }
    assert (Sq : squeezed (d ++ [ny; nx]) = d ++ [ny; nx]) by (unfold squeezed; apply Nat.ltb_lt in Lt; now rewrite Lt).
    assert (C : bind (clone ch) (setDims (d ++ [ny; nx])) = Ok (shaped (t_vs ch) (d ++ [ny; nx]))).
    { rewrite (clone_sound _ S). cbn [bind]. rewrite setDims_ok; [now rewrite Sq|exact N|lia]. }
    destruct (transposing ch (shaped (t_vs ch) (d ++ [ny; nx])) nx ny K L L N) as (vs & E & Lv & H).
    exists vs.
    assert (E' : transposed tensor ch = Ok (shaped vs (d ++ [ny; nx]), true)).
    { unfold transposed. rewrite R. destruct (rev d) as [|x e] eqn:Rd.
      - apply (f_equal (@rev nat)) in Rd. rewrite rev_involutive in Rd. cbn in Rd. subst d.
        replace (tensor && (ny =? 1)) with false.
        2:{ destruct tensor; [|reflexivity]. symmetry. cbn. apply Nat.eqb_neq. auto. }
        rewrite (proj2 (Nat.eqb_neq nx 1) N1). cbn [app] in C |- *. rewrite C. cbn [bind].
        assert (K1 : K = 1) by reflexivity. rewrite K1 in E. cbn [seq over] in E.
        destruct (transpose_matrix ch nx ny 0 _) as [r'| |]; cbn [bind] in E |- *; try discriminate.
        injection E as ->. reflexivity.
      - cbn [Nat.eqb]. rewrite <- Rd, rev_involutive, (proj2 (Nat.eqb_neq nx 1) N1), C. cbn [bind].
        replace (numVellSets ch / (nx * ny)) with K; [now rewrite E|].
        unfold numVellSets. rewrite L. symmetry. apply Nat.div_mul. nia. }
    split; [exact E'|]. split; [apply shaped_sound|].
    + apply length_pos. lia.
    + lia.
    + intros _. exact Lt.
    + split; [lia|]. intros jx i j W Hi Hj.
      unfold elem. rewrite D, !place_app by assumption. rewrite !prod_two, !place_two.
      rewrite !Nat.add_assoc, (Nat.mul_comm ny nx).
      apply H; auto. now apply place_lt.
Qed.
End Tensors.
