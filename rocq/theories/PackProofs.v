From Verif Require Import Base PackModel PackSpec.

Lemma le_bytes_length k v : length (le_bytes k v) = k.
Proof. revert v; induction k as [|k IH]; intros v; simpl; [reflexivity|]. f_equal. apply IH. Qed.

Lemma le_val_le_bytes k v : le_val (le_bytes k v) = v mod 256 ^ Z.of_nat k.
Proof.
  revert v; induction k as [|k IH]; intros v.
  - simpl. rewrite Z.mod_1_r. reflexivity.
  - cbn [le_bytes le_val]. rewrite IH.
    rewrite Nat2Z.inj_succ, Z.pow_succ_r by lia.
    rewrite (Z.rem_mul_r v 256) by lia. reflexivity.
Qed.

Lemma signed_mod w v : (0 < w)%nat -> fits_signed w v ->
  signed (8 * Z.of_nat w) (v mod 256 ^ Z.of_nat w) = v.
Proof.
  intros Hw [H1 H2]. unfold signed.
  replace (256 ^ Z.of_nat w) with (2 ^ (8 * Z.of_nat w))
    by (rewrite Z.pow_mul_r by lia; reflexivity).
  assert (P : 2 ^ (8 * Z.of_nat w) = 2 * 2 ^ (8 * Z.of_nat w - 1)).
  { rewrite <- Z.pow_succ_r by lia. f_equal. lia. }
  set (h := 2 ^ (8 * Z.of_nat w - 1)) in *. rewrite P.
  assert (0 < h) by (unfold h; apply Z.pow_pos_nonneg; lia).
  destruct (Z.lt_ge_cases v 0).
  - assert (E : v mod (2 * h) = v + 2 * h).
    { symmetry. apply Z.mod_unique with (q := -1); lia. }
    rewrite E. destruct (v + 2 * h <? h) eqn:E2; lia.
  - rewrite Z.mod_small by lia. destruct (v <? h) eqn:E2; lia.
Qed.

Lemma read_signed_array w vs : (0 < w)%nat -> Forall (fits_signed w) vs ->
  read_signed w (length vs) (array_mem w vs) = vs.
Proof.
  intros Hw H. induction H as [|v vs Hv Hvs IH]; [reflexivity|].
  cbn [length read_signed]. unfold array_mem in *. cbn [map concat].
  rewrite firstn_app, le_bytes_length, Nat.sub_diag, firstn_O, app_nil_r.
  rewrite firstn_all2 by (rewrite le_bytes_length; lia).
  rewrite skipn_app, le_bytes_length, Nat.sub_diag, skipn_O.
  rewrite skipn_all2 by (rewrite le_bytes_length; lia). cbn [app].
  rewrite le_val_le_bytes, signed_mod by assumption. f_equal. exact IH.
Qed.

(* n-byte groups *)
Lemma le4 v : le_bytes 4 v =
  [v mod 256; v / 256 mod 256; v / 256 / 256 mod 256; v / 256 / 256 / 256 mod 256].
Proof. reflexivity. Qed.
Lemma le8 v : le_bytes 8 v =
  [v mod 256; v / 256 mod 256; v / 256 / 256 mod 256; v / 256 / 256 / 256 mod 256;
   v / 256 / 256 / 256 / 256 mod 256; v / 256 / 256 / 256 / 256 / 256 mod 256;
   v / 256 / 256 / 256 / 256 / 256 / 256 mod 256;
   v / 256 / 256 / 256 / 256 / 256 / 256 / 256 mod 256].
Proof. reflexivity. Qed.

Lemma rev4_array vs :
  rev4 (length vs) (array_mem 4 vs) = Ok (concat (map (be_bytes 4) vs)).
Proof.
  unfold array_mem. induction vs as [|v vs IH]; [reflexivity|].
  cbn [length map concat]. rewrite le4. cbn [app rev4]. rewrite IH. cbn [bind].
  unfold be_bytes at 2. cbn [seq map].
  change (Z.of_nat (4 - 1 - 0)) with 3. change (Z.of_nat (4 - 1 - 1)) with 2.
  change (Z.of_nat (4 - 1 - 2)) with 1. change (Z.of_nat (4 - 1 - 3)) with 0.
  change (256 ^ 3) with (256 * (256 * 256)). change (256 ^ 2) with (256 * 256).
  change (256 ^ 1) with 256. change (256 ^ 0) with 1.
  rewrite !Z.div_div by lia. rewrite Z.div_1_r. reflexivity.
Qed.

Lemma rev4_rev4 n s t : rev4 n s = Ok t -> rev4 n t = Ok (firstn (4 * n) s).
Proof.
  revert s t; induction n as [|n IH]; intros s t H; [reflexivity|].
  destruct s as [|s0 [|s1 [|s2 [|s3 s']]]]; cbn [rev4] in H; try discriminate H.
  destruct (rev4 n s') as [o|] eqn:E; cbn [bind] in H; [|discriminate H].
  injection H as <-. cbn [rev4]. rewrite (IH _ _ E). cbn [bind].
  replace (4 * S n)%nat with (S (S (S (S (4 * n)))))%nat by lia. reflexivity.
Qed.

Lemma rev8_array vs :
  rev8 (length vs) (array_mem 8 vs) = Ok (concat (map (be_bytes 8) vs)).
Proof.
  unfold array_mem. induction vs as [|v vs IH]; [reflexivity|].
  cbn [length map concat]. rewrite le8. cbn [app rev8]. rewrite IH. cbn [bind].
  unfold be_bytes at 2. cbn [seq map].
  change (Z.of_nat (8 - 1 - 0)) with 7. change (Z.of_nat (8 - 1 - 1)) with 6.
  change (Z.of_nat (8 - 1 - 2)) with 5. change (Z.of_nat (8 - 1 - 3)) with 4.
  change (Z.of_nat (8 - 1 - 4)) with 3. change (Z.of_nat (8 - 1 - 5)) with 2.
  change (Z.of_nat (8 - 1 - 6)) with 1. change (Z.of_nat (8 - 1 - 7)) with 0.
  rewrite !Z.div_div by lia. rewrite Z.div_1_r. reflexivity.
Qed.

Lemma rev8_rev8 n s t : rev8 n s = Ok t -> rev8 n t = Ok (firstn (8 * n) s).
Proof.
  revert s t; induction n as [|n IH]; intros s t H; [reflexivity|].
  destruct s as [|s0 [|s1 [|s2 [|s3 [|s4 [|s5 [|s6 [|s7 s']]]]]]]];
    cbn [rev8] in H; try discriminate H.
  destruct (rev8 n s') as [o|] eqn:E; cbn [bind] in H; [|discriminate H].
  injection H as <-. cbn [rev8]. rewrite (IH _ _ E). cbn [bind].
  replace (8 * S n)%nat with (S (S (S (S (S (S (S (S (8 * n)))))))))%nat by lia. reflexivity.
Qed.

Lemma array_mem_length w vs : length (array_mem w vs) = (w * length vs)%nat.
Proof.
  unfold array_mem. induction vs as [|v vs IH]; simpl; [lia|].
  rewrite app_length, le_bytes_length, IH. lia.
Qed.

Lemma firstn_array w vs : firstn (w * length vs) (array_mem w vs) = array_mem w vs.
Proof. apply firstn_all2. rewrite array_mem_length. lia. Qed.

Lemma pack16_array vs :
  pack16_c (length vs) (array_mem 4 vs) = Ok (concat (map (be_bytes 2) vs)).
Proof.
  unfold array_mem. induction vs as [|v vs IH]; [reflexivity|].
  cbn [length map concat]. rewrite le4. cbn [app pack16_c]. rewrite IH. cbn [bind].
  unfold be_bytes at 2. cbn [seq map].
  change (Z.of_nat (2 - 1 - 0)) with 1. change (Z.of_nat (2 - 1 - 1)) with 0.
  change (256 ^ 1) with 256. change (256 ^ 0) with 1. rewrite Z.div_1_r. reflexivity.
Qed.

Lemma land128 b : 0 <= b < 256 -> (Z.land 128 b =? 0) = (b <? 128).
Proof.
  intros Hb.
  assert (F : forallb (fun k => Bool.eqb (Z.land 128 (Z.of_nat k) =? 0) (Z.of_nat k <? 128)) (seq 0 256) = true)
    by (vm_compute; reflexivity).
  rewrite forallb_forall in F. specialize (F (Z.to_nat b)).
  rewrite Z2Nat.id in F by lia. apply eqb_prop, F. apply in_seq. lia.
Qed.

Lemma le_bytes_wrap16 v :
  le_bytes 4 (wrap16 v) =
  [v mod 256; (v / 256) mod 256;
   (if (v / 256) mod 256 <? 128 then 0 else 255);
   (if (v / 256) mod 256 <? 128 then 0 else 255)].
Proof.
  unfold wrap16. cbn [le_bytes]. destruct ((v / 256) mod 256 <? 128) eqn:E.
  - repeat (apply f_equal2; [lia|]). reflexivity.
  - repeat (apply f_equal2; [lia|]). reflexivity.
Qed.

Lemma unpack16_be vs :
  unpack16_c (length vs) (concat (map (be_bytes 2) vs)) = Ok (array_mem 4 (map wrap16 vs)).
Proof.
  unfold array_mem. induction vs as [|v vs IH]; [reflexivity|].
  cbn [length map concat]. unfold be_bytes at 1. cbn [seq map app].
  change (Z.of_nat (2 - 1 - 0)) with 1. change (Z.of_nat (2 - 1 - 1)) with 0.
  change (256 ^ 1) with 256. change (256 ^ 0) with 1. rewrite Z.div_1_r.
  cbn [unpack16_c]. rewrite IH. cbn [bind].
  rewrite land128 by lia. rewrite le_bytes_wrap16. reflexivity.
Qed.

Lemma wrap16_fits v : fits_signed 2 (wrap16 v).
Proof. unfold fits_signed, wrap16. simpl. lia. Qed.

Lemma wrap16_id v : fits_signed 2 v -> wrap16 v = v.
Proof. unfold fits_signed, wrap16. simpl. lia. Qed.

Lemma unpack32_be vs :
  unpack32_c (length vs) (concat (map (be_bytes 4) vs)) = Ok (array_mem 4 vs).
Proof.
  unfold unpack32_c. rewrite (rev4_rev4 _ _ _ (rev4_array vs)).
  f_equal. apply firstn_array.
Qed.

Lemma unpack64_be vs :
  unpack64_c (length vs) (concat (map (be_bytes 8) vs)) = Ok (array_mem 8 vs).
Proof.
  unfold unpack64_c. rewrite (rev8_rev8 _ _ _ (rev8_array vs)).
  f_equal. apply firstn_array.
Qed.


