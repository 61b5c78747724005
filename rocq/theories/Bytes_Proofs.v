From Verif Require Import Base Bytes_Model.
Local Open Scope Z_scope.
Ltac Zify.zify_post_hook ::= Z.div_mod_to_equations.

Lemma le_bytes_length n z : length (le_bytes n z) = n.
Proof. revert z; induction n as [|n IH]; intros z; cbn; [reflexivity|]. now rewrite IH. Qed.

Lemma le_bytes_byte n z : Forall (fun b => byte_ok b = true) (le_bytes n z).
Proof.
  revert z; induction n as [|n IH]; intros z; cbn [le_bytes]; constructor; auto.
  unfold byte_ok. assert (0 <= z mod 256 < 256) by (apply Z.mod_pos_bound; lia). lia.
Qed.

Lemma pow256_S n : 2 ^ (8 * Z.of_nat (S n)) = 256 * 2 ^ (8 * Z.of_nat n).
Proof.
  replace (8 * Z.of_nat (S n)) with (8 + 8 * Z.of_nat n) by lia.
  rewrite Z.pow_add_r by lia. reflexivity.
Qed.

Lemma le_val_le_bytes n z : le_val (le_bytes n z) = z mod 2 ^ (8 * Z.of_nat n).
Proof.
  revert z; induction n as [|n IH]; intros z; cbn [le_bytes le_val].
  - cbn. now rewrite Z.mod_1_r.
  - rewrite IH, pow256_S.
    assert (0 < 2 ^ (8 * Z.of_nat n)) by (apply Z.pow_pos_nonneg; lia).
    rewrite Z.rem_mul_r by lia. reflexivity.
Qed.

Lemma le_val_bound bs :
  Forall (fun b => byte_ok b = true) bs ->
  0 <= le_val bs < 2 ^ (8 * Z.of_nat (length bs)).
Proof.
  induction 1 as [|b bs Hb Hbs IH]; cbn [le_val length]; [cbn; lia|].
  rewrite pow256_S. unfold byte_ok in Hb. lia.
Qed.

Lemma le_bytes_le_val bs :
  Forall (fun b => byte_ok b = true) bs -> le_bytes (length bs) (le_val bs) = bs.
Proof.
  induction 1 as [|b bs Hb Hbs IH]; cbn [le_val length le_bytes]; [reflexivity|].
  unfold byte_ok in Hb.
  f_equal.
  - replace (b + 256 * le_val bs) with (b + le_val bs * 256) by lia.
    rewrite Z.mod_add by lia. apply Z.mod_small; lia.
  - replace (b + 256 * le_val bs) with (b + le_val bs * 256) by lia.
    rewrite Z.div_add by lia. rewrite Z.div_small by lia. exact IH.
Qed.

Lemma enc_i32_length z : length (enc_i32 z) = 4%nat.
Proof. apply le_bytes_length. Qed.
Lemma enc_u64_length z : length (enc_u64 z) = 8%nat.
Proof. apply le_bytes_length. Qed.

Lemma dec_enc_i32 z : i32_ok z = true -> dec_i32 (enc_i32 z) = z.
Proof.
  unfold i32_ok, dec_i32, enc_i32, to_signed; intros H.
  rewrite le_val_le_bytes.
  change (8 * Z.of_nat 4) with 32.
  change (2 ^ 32) with 4294967296. change (2 ^ (32 - 1)) with 2147483648.
  change (2^31) with 2147483648 in H.
  destruct (z mod 4294967296 <? 2147483648) eqn:E; lia.
Qed.

Lemma enc_i32_byte z : Forall (fun b => byte_ok b = true) (enc_i32 z).
Proof. apply le_bytes_byte. Qed.
Lemma enc_u64_byte z : Forall (fun b => byte_ok b = true) (enc_u64 z).
Proof. apply le_bytes_byte. Qed.

Lemma to_signed_mod_inv (v : Z) :
  0 <= v < 2 ^ 32 -> (to_signed 4 v) mod 2 ^ 32 = v.
Proof.
  intros Hv; unfold to_signed.
  change (8 * Z.of_nat 4) with 32.
  change (2 ^ (32 - 1)) with 2147483648. change (2^32) with 4294967296 in *.
  destruct (v <? 2147483648) eqn:E; lia.
Qed.

Lemma le_bytes_mod n z : le_bytes n (z mod 2 ^ (8 * Z.of_nat n)) = le_bytes n z.
Proof.
  rewrite <- le_val_le_bytes.
  rewrite <- (le_bytes_length n z) at 1.
  apply le_bytes_le_val, le_bytes_byte.
Qed.

(** any 4 bytes decode to an int that encodes back to those bytes *)
Lemma enc_dec_i32 bs :
  length bs = 4%nat -> Forall (fun b => byte_ok b = true) bs ->
  enc_i32 (dec_i32 bs) = bs.
Proof.
  intros Hl Hb. unfold enc_i32, dec_i32.
  rewrite <- le_bytes_mod.
  change (8 * Z.of_nat 4) with 32.
  pose proof (le_val_bound bs Hb) as Hbd. rewrite Hl in Hbd.
  change (8 * Z.of_nat 4) with 32 in Hbd.
  rewrite to_signed_mod_inv by exact Hbd.
  rewrite <- Hl. now apply le_bytes_le_val.
Qed.

Lemma dec_i32_ok bs :
  length bs = 4%nat -> Forall (fun b => byte_ok b = true) bs -> i32_ok (dec_i32 bs) = true.
Proof.
  intros Hl Hb. unfold i32_ok, dec_i32, to_signed.
  pose proof (le_val_bound bs Hb) as Hbd. rewrite Hl in Hbd.
  change (8 * Z.of_nat 4) with 32 in *.
  change (2 ^ (32 - 1)) with 2147483648. change (2^32) with 4294967296 in *.
  change (2^31) with 2147483648.
  destruct (le_val bs <? 2147483648) eqn:E; lia.
Qed.

Lemma dec_enc_u64 z : u64_ok z = true -> dec_u64 (enc_u64 z) = z.
Proof.
  unfold u64_ok, dec_u64, enc_u64; intros H.
  rewrite le_val_le_bytes. change (8 * Z.of_nat 8) with 64.
  apply Z.mod_small. lia.
Qed.

Lemma enc_dec_u64 bs :
  length bs = 8%nat -> Forall (fun b => byte_ok b = true) bs ->
  enc_u64 (dec_u64 bs) = bs.
Proof. intros Hl Hb. unfold enc_u64, dec_u64. rewrite <- Hl. now apply le_bytes_le_val. Qed.

Lemma flat_map_length_const {A B} (f : A -> list B) k l :
  (forall a, length (f a) = k) -> length (flat_map f l) = (k * length l)%nat.
Proof.
  intros H; induction l as [|a l IH]; cbn; [lia|]. rewrite app_length, H, IH. lia.
Qed.

Lemma enc_i32s_length zs : length (enc_i32s zs) = (4 * length zs)%nat.
Proof. apply flat_map_length_const. apply enc_i32_length. Qed.
Lemma enc_u64s_length zs : length (enc_u64s zs) = (8 * length zs)%nat.
Proof. apply flat_map_length_const. apply enc_u64_length. Qed.

Lemma enc_i32s_cons z zs : enc_i32s (z :: zs) = enc_i32 z ++ enc_i32s zs.
Proof. reflexivity. Qed.
Lemma enc_u64s_cons z zs : enc_u64s (z :: zs) = enc_u64 z ++ enc_u64s zs.
Proof. reflexivity. Qed.
Lemma enc_i32s_app a b : enc_i32s (a ++ b) = enc_i32s a ++ enc_i32s b.
Proof. apply flat_map_app. Qed.

Lemma firstn_app_len {A} (a b : list A) n : length a = n -> firstn n (a ++ b) = a.
Proof. intros <-. rewrite firstn_app, Nat.sub_diag, firstn_all, firstn_O, app_nil_r. reflexivity. Qed.
Lemma skipn_app_len {A} (a b : list A) n : length a = n -> skipn n (a ++ b) = b.
Proof. intros <-. rewrite skipn_app, Nat.sub_diag, skipn_all. reflexivity. Qed.

Lemma dec_enc_i32s zs rest :
  Forall (fun z => i32_ok z = true) zs ->
  dec_i32s (length zs) (enc_i32s zs ++ rest) = zs.
Proof.
  induction 1 as [|z zs Hz Hzs IH]; cbn [length dec_i32s]; [reflexivity|].
  rewrite enc_i32s_cons, <- app_assoc.
  rewrite firstn_app_len by apply enc_i32_length.
  rewrite skipn_app_len by apply enc_i32_length.
  rewrite dec_enc_i32 by exact Hz. now rewrite IH.
Qed.

Lemma dec_enc_u64s zs rest :
  Forall (fun z => u64_ok z = true) zs ->
  dec_u64s (length zs) (enc_u64s zs ++ rest) = zs.
Proof.
  induction 1 as [|z zs Hz Hzs IH]; cbn [length dec_u64s]; [reflexivity|].
  rewrite enc_u64s_cons, <- app_assoc.
  rewrite firstn_app_len by apply enc_u64_length.
  rewrite skipn_app_len by apply enc_u64_length.
  rewrite dec_enc_u64 by exact Hz. now rewrite IH.
Qed.

Lemma dec_i32s_length n bs : length (dec_i32s n bs) = n.
Proof. revert bs; induction n; intros; cbn; auto. Qed.
Lemma dec_u64s_length n bs : length (dec_u64s n bs) = n.
Proof. revert bs; induction n; intros; cbn; auto. Qed.

Lemma Forall_firstn' {A} (P : A -> Prop) n l : Forall P l -> Forall P (firstn n l).
Proof. intros H; revert n; induction H; intros [|n]; cbn; constructor; auto. Qed.
Lemma Forall_skipn' {A} (P : A -> Prop) n l : Forall P l -> Forall P (skipn n l).
Proof. intros H; revert n; induction H; intros [|n]; cbn; auto. Qed.

Lemma enc_dec_i32s n bs :
  length bs = (4 * n)%nat -> Forall (fun b => byte_ok b = true) bs ->
  enc_i32s (dec_i32s n bs) = bs.
Proof.
  revert bs; induction n as [|n IH]; intros bs Hl Hb; cbn [dec_i32s].
  - destruct bs; [reflexivity | cbn in Hl; lia].
  - rewrite enc_i32s_cons, IH.
    + rewrite enc_dec_i32.
      * apply firstn_skipn.
      * rewrite firstn_length. lia.
      * now apply Forall_firstn'.
    + rewrite skipn_length. lia.
    + now apply Forall_skipn'.
Qed.

Lemma dec_i32s_ok n bs :
  (4 * n <= length bs)%nat -> Forall (fun b => byte_ok b = true) bs ->
  Forall (fun z => i32_ok z = true) (dec_i32s n bs).
Proof.
  revert bs; induction n as [|n IH]; intros bs Hl Hb; cbn [dec_i32s]; constructor.
  - apply dec_i32_ok; [rewrite firstn_length; lia | now apply Forall_firstn'].
  - apply IH; [rewrite skipn_length; lia | now apply Forall_skipn'].
Qed.

Lemma enc_i32s_byte zs : Forall (fun b => byte_ok b = true) (enc_i32s zs).
Proof.
  induction zs as [|z zs IH]; [constructor|]. rewrite enc_i32s_cons.
  apply Forall_app; split; [apply enc_i32_byte | exact IH].
Qed.
Lemma enc_u64s_byte zs : Forall (fun b => byte_ok b = true) (enc_u64s zs).
Proof.
  induction zs as [|z zs IH]; [constructor|]. rewrite enc_u64s_cons.
  apply Forall_app; split; [apply enc_u64_byte | exact IH].
Qed.
