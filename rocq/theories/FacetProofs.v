From Coq Require Import Reals Lra Permutation.
From Verif Require Import Base CleanModel CleanSpec CleanProofs GridModel GridSpec GridProofs FacetModel FacetSpec.
Ltac Zify.zify_post_hook ::= idtac.
Open Scope Z_scope.

(* ---------------- bit reversal ---------------- *)
Lemma land_pow2 n b : 0 <= b -> Z.land n (2 ^ b) = if Z.testbit n b then 2 ^ b else 0.
Proof.
  intros B. apply Z.bits_inj'. intros i I. rewrite Z.land_spec, Z.pow2_bits_eqb by auto. destruct (Z.eqb_spec b i) as [<- | N].
  - rewrite andb_true_r. destruct (Z.testbit n b); [rewrite Z.pow2_bits_true; auto | rewrite Z.bits_0; auto].
  - rewrite andb_false_r. destruct (Z.testbit n b); [rewrite Z.pow2_bits_false; auto | rewrite Z.bits_0; auto].
Qed.
Lemma rev_term_eq nbits n bit : 0 <= bit < nbits -> rev_term nbits n bit = if Z.testbit n bit then 2 ^ (nbits - 1 - bit) else 0.
Proof.
  intros B. unfold rev_term. cbv zeta. rewrite land_pow2 by lia. destruct (Z.leb_spec 0 (nbits - 2 * bit - 1)) as [E|E]; destruct (Z.testbit n bit); auto.
  - rewrite <- Z.pow_add_r by lia. f_equal. lia.
  - rewrite <- Z.pow_sub_r by lia. f_equal. lia.
Qed.
Definition rsum_bits (nbits n : Z) (bits : list Z) : Z := fold_right (fun b s => rev_term nbits n b + s) 0 bits.
Definition brev (nbits n : Z) : Z := rsum_bits nbits n (range nbits).
Lemma loop_sum same_kind nbits bits : (same_kind = true -> Forall (fun b => 0 <= nbits - 2 * b - 1) bits) -> forall ns ans, length ns = length ans ->
  bit_reverse_loop same_kind nbits bits ns ans = Ok (map (fun '(n, a) => a + rsum_bits nbits n bits) (combine ns ans)).
Proof.
  induction bits as [|b bits IH]; intros F ns ans L; cbn [bit_reverse_loop rsum_bits fold_right].
  - f_equal. revert ans L. induction ns as [|n ns I]; intros [|a ans] L; try discriminate; auto. cbn. rewrite Z.add_0_r. f_equal. apply I. auto.
  - replace (same_kind && (nbits - 2 * b - 1 <? 0)) with false.
    2: { destruct same_kind; auto. specialize (F eq_refl). inversion F; subst. cbn [andb]. symmetry. apply Z.ltb_ge. lia. }
    rewrite IH. 3: { rewrite map_length, combine_length. lia. }
    + f_equal. clear - L. revert ans L. induction ns as [|n ns I]; intros [|a ans] L; try discriminate; auto. cbn [combine map]. f_equal; [|apply I; auto].
      unfold rsum_bits. lia.
    + intros S. specialize (F S). inversion F; auto.
Qed.
Lemma range_length n : length (range n) = Z.to_nat n. Proof. unfold range. rewrite map_length, seq_length. auto. Qed.
Lemma range_in n k : In k (range n) <-> 0 <= k < n.
Proof.
  unfold range. rewrite in_map_iff. split.
  - intros (x & <- & I). apply in_seq in I. lia.
  - intros H. exists (Z.to_nat k). split; [lia|]. apply in_seq. lia.
Qed.
Lemma range_nodup n : NoDup (range n).
Proof. unfold range. apply FinFun.Injective_map_NoDup; [|apply seq_NoDup]. intros a b. lia. Qed.
Lemma bit_reverse_ok nbits ns : bit_reverse false ns nbits = Ok (map (brev nbits) ns).
Proof.
  unfold bit_reverse. rewrite loop_sum; [|discriminate|rewrite map_length; auto]. f_equal. induction ns as [|n ns IH]; auto. cbn [map combine]. f_equal; auto.
Qed.
Lemma bit_reverse_raises nbits ns : 2 <= nbits -> bit_reverse true ns nbits = Err.
Proof.
  intros N. unfold bit_reverse. assert (G : forall bits ans, Exists (fun b => nbits - 2 * b - 1 < 0) bits -> bit_reverse_loop true nbits bits ns ans = Err).
  { induction bits as [|b bits IH]; intros ans E; [inversion E|]. cbn [bit_reverse_loop andb]. destruct (Z.ltb_spec (nbits - 2 * b - 1) 0); auto. apply IH. inversion E; auto. lia. }
  apply G. apply Exists_exists. exists (nbits - 1). split; [apply range_in; lia | lia].
Qed.
(* the value of the sum, bit by bit *)
Lemma range_succ k : 0 <= k -> range (k + 1) = range k ++ [k].
Proof. intros K. unfold range. replace (Z.to_nat (k + 1)) with (S (Z.to_nat k)) by lia. rewrite seq_S, map_app. cbn [map Nat.add]. rewrite Z2Nat.id by lia. reflexivity. Qed.
Lemma brev_succ k n : 0 <= k -> brev (k + 1) n = 2 * brev k n + Z.b2z (Z.testbit n k).
Proof.
  intros K. unfold brev. rewrite range_succ by auto.
  assert (G : forall l, Forall (fun b => 0 <= b < k) l -> rsum_bits (k + 1) n (l ++ [k]) = 2 * rsum_bits k n l + Z.b2z (Z.testbit n k)).
  { induction l as [|b l IH]; intros F; cbn [app rsum_bits fold_right].
    - rewrite rev_term_eq by lia. replace (k + 1 - 1 - k) with 0 by lia. destruct (Z.testbit n k); reflexivity.
    - inversion F; subst. fold (rsum_bits (k + 1) n (l ++ [k])). fold (rsum_bits k n l). rewrite IH by auto. rewrite !rev_term_eq by lia.
      replace (k + 1 - 1 - b) with (Z.succ (k - 1 - b)) by lia. rewrite Z.pow_succ_r by lia. destruct (Z.testbit n b); lia. }
  apply G. apply Forall_forall. intros b B. apply range_in in B. auto.
Qed.
Lemma brev_bits n : forall k, 0 <= k -> 0 <= brev k n < 2 ^ k /\ forall i, 0 <= i < k -> Z.testbit (brev k n) i = Z.testbit n (k - 1 - i).
Proof.
  apply natlike_ind.
  - split; [unfold brev, range, rsum_bits; cbn; lia | lia].
  - intros k K [R B]. unfold Z.succ. rewrite brev_succ by auto. split.
    + rewrite Z.pow_add_r by lia. change (2 ^ 1) with 2. destruct (Z.testbit n k); cbn [Z.b2z]; lia.
    + intros i I. destruct (Z.eq_dec i 0) as [-> | N].
      * rewrite Z.testbit_0_r. f_equal. lia.
      * replace i with (Z.succ (i - 1)) by lia. rewrite Z.testbit_succ_r by lia. rewrite B by lia. f_equal. lia.
Qed.
Lemma brev_invol k n : 0 <= k -> 0 <= n < 2 ^ k -> brev k (brev k n) = n.
Proof.
  intros K N. destruct (brev_bits n k K) as [R B]. destruct (brev_bits (brev k n) k K) as [R2 B2].
  apply Z.bits_inj'. intros i I. destruct (Z_lt_dec i k).
  - rewrite B2, B by lia. f_equal. lia.
  - assert (H : forall x, 0 <= x < 2 ^ k -> Z.testbit x i = false).
    { intros x X. destruct (Z.eq_dec x 0) as [-> |]; [apply Z.bits_0|]. apply Z.bits_above_log2; [lia|]. assert (Z.log2 x < k) by (apply Z.log2_lt_pow2; lia). lia. }
    rewrite !H; auto.
Qed.
Lemma brev_perm k : 0 <= k -> Permutation (map (brev k) (range (2 ^ k))) (range (2 ^ k)).
Proof.
  intros K. apply NoDup_Permutation_bis.
  - apply nodup_map_in; [|apply range_nodup]. intros x y X Y E. apply range_in in X, Y. rewrite <- (brev_invol k x), <- (brev_invol k y) by auto. congruence.
  - rewrite map_length. auto.
  - intros x X. apply in_map_iff in X as (y & <- & Y). apply range_in. apply brev_bits. auto.
Qed.
Lemma filter_perm {A} (f : A -> bool) l m : Permutation l m -> Permutation (filter f l) (filter f m).
Proof.
  induction 1; cbn; auto.
  - destruct (f x); auto.
  - destruct (f x), (f y); auto. apply perm_swap.
  - eapply perm_trans; eauto.
Qed.
Lemma filter_all {A} (f : A -> bool) l : (forall x, In x l -> f x = true) -> filter f l = l.
Proof. induction l as [|x l IH]; cbn; intros H; auto. rewrite H by auto. f_equal. auto. Qed.
Lemma filter_none {A} (f : A -> bool) l : (forall x, In x l -> f x = false) -> filter f l = [].
Proof. induction l as [|x l IH]; cbn; intros H; auto. rewrite H by auto. auto. Qed.
Lemma filter_range n m : 0 <= n <= m -> filter (fun i => i <? n) (range m) = range n.
Proof.
  intros N. assert (E : range m = range n ++ map Z.of_nat (seq (Z.to_nat n) (Z.to_nat m - Z.to_nat n))).
  { unfold range. rewrite <- map_app. replace (Z.to_nat m) with (Z.to_nat n + (Z.to_nat m - Z.to_nat n))%nat at 1 by lia. rewrite seq_app. reflexivity. }
  rewrite E, filter_app, filter_all, filter_none, app_nil_r; auto.
  - intros x X. apply in_map_iff in X as (y & <- & Y). apply in_seq in Y. lia.
  - intros x X. apply range_in in X. lia.
Qed.
Lemma order_perm n : 1 <= n -> exists l, bit_reverse_order false n = Ok l /\ Permutation l (range n).
Proof.
  intros N. unfold bit_reverse_order. replace (n <? 1) with false by lia. cbv zeta. rewrite bit_reverse_ok. cbn [bind]. eexists. split; [reflexivity|].
  pose proof (Z.log2_nonneg n). pose proof (Z.log2_spec n ltac:(lia)) as [_ LS]. unfold Z.succ in LS.
  rewrite <- (filter_range n (2 ^ (Z.log2 n + 1))) by lia. apply filter_perm. apply brev_perm. lia.
Qed.

(* ---------------- shuffling ---------------- *)
Lemma put_length l : forall i v, length (put l i v) = length l.
Proof. induction l as [|x l IH]; intros [|i] v; cbn; auto. Qed.
Lemma put_nth l : forall i v j, (i < length l)%nat -> nth j (put l i v) 0 = if Nat.eqb j i then v else nth j l 0.
Proof. induction l as [|x l IH]; intros [|i] v [|j] L; cbn in *; auto; try lia. apply IH. lia. Qed.
Lemma swap_perm l i j : (i < length l)%nat -> (j < length l)%nat -> Permutation (swap l i j) l.
Proof.
  intros I J. apply Permutation_sym. apply (Permutation_nth l (swap l i j) 0). cbv zeta. unfold swap. rewrite !put_length. split; auto.
  exists (fun k => if Nat.eqb k i then j else if Nat.eqb k j then i else k). split; [|split].
  - intros k K. destruct (Nat.eqb_spec k i); [auto|]. destruct (Nat.eqb_spec k j); auto.
  - intros a b A B. destruct (Nat.eqb_spec a i), (Nat.eqb_spec b i), (Nat.eqb_spec a j), (Nat.eqb_spec b j); subst; auto; try congruence; try lia.
  - intros k K. rewrite put_nth by (rewrite put_length; auto). rewrite put_nth by auto. unfold get.
    destruct (Nat.eqb_spec k j), (Nat.eqb_spec k i); subst; auto.
Qed.
Lemma shuffle_perm rnd i : (forall k, (k <= i)%nat -> (rnd k <= k)%nat) -> forall l, (i = 0 \/ i < length l)%nat -> Permutation (shuffle_from rnd i l) l.
Proof.
  induction i as [|i IH]; intros R l L; cbn [shuffle_from]; auto.
  assert (R1 := R (S i) ltac:(lia)). destruct L as [L|L]; [lia|].
  assert (LS : length (swap l (S i) (rnd (S i))) = length l) by (unfold swap; rewrite !put_length; auto).
  rewrite IH; [|intros; apply R; lia | rewrite LS; lia]. apply swap_perm; lia.
Qed.
Lemma local_perm rnd width : (forall c k, rnd c k <= k)%nat -> forall n c l, Permutation (local_shuffle_from rnd width c n l) l.
Proof.
  intros R. induction n as [|n IH]; intros c l; cbn [local_shuffle_from]; auto. rewrite IH.
  set (lo := (width * c)%nat). set (hi := (width * (c + 1))%nat). assert (LH : (lo <= hi)%nat) by (unfold lo, hi; nia).
  assert (P : Permutation (shuffle (rnd c) (skipn lo (firstn hi l))) (skipn lo (firstn hi l))).
  { unfold shuffle. apply shuffle_perm; auto. destruct (length (skipn lo (firstn hi l))) as [|[|x]]; cbn; lia. }
  rewrite P. rewrite app_assoc. replace (firstn lo l) with (firstn lo (firstn hi l)) by (rewrite firstn_firstn; f_equal; lia).
  rewrite firstn_skipn, firstn_skipn. auto.
Qed.

(* ---------------- points ---------------- *)
Open Scope R_scope.
Lemma ceilR_spec x : x <= IZR (ceilR x) < x + 1.
Proof. unfold ceilR. pose proof (floorR_spec (- x)). rewrite opp_IZR. lra. Qed.
Lemma ceilR_unique x k : (IZR k - 1 < x <= IZR k) -> ceilR x = k.
Proof.
  intros H. pose proof (ceilR_spec x) as [A B]. assert (C1 : IZR (ceilR x) < IZR k + 1) by lra. assert (C2 : IZR k - 1 < IZR (ceilR x)) by lra.
  rewrite <- plus_IZR in C1. rewrite <- minus_IZR in C2. apply lt_IZR in C1, C2. lia.
Qed.
Lemma golden_pos : 0 < PI * (3 - sqrt 5).
Proof.
  pose proof PI_RGT_0. assert (sqrt 5 < 3). { rewrite <- (sqrt_square 3) by lra. apply sqrt_lt_1; lra. } apply Rmult_lt_0_compat; lra.
Qed.
Lemma pack_ok n : (1 <= n)%Z -> pack_sphere n = Ok (map (fun k => facet n (Z.of_nat k)) (seq 0 (Z.to_nat n))).
Proof.
  intros N. assert (NP : 1 <= IZR n) by (apply IZR_le; auto). unfold pack_sphere. cbv zeta. pose proof golden_pos as G. set (dL := PI * (3 - sqrt 5)) in *.
  unfold arangeR. replace ((1 - (-1 + 2 / IZR n / 2)) / (2 / IZR n)) with (IZR n - / 2) by (field; lra).
  rewrite (ceilR_unique _ n) by lra. replace ((dL * IZR n - 0) / dL) with (IZR n) by (field; lra). rewrite (ceilR_unique _ n) by lra.
  rewrite !map_length, seq_length, Nat.eqb_refl. f_equal.
  assert (E : forall {A} (l : list nat) (f g h : nat -> A), True) by auto. clear E.
  induction (seq 0 (Z.to_nat n)) as [|k l IH]; auto. cbn [map combine]. f_equal; [|exact IH].
  unfold facet, facet_z. cbv zeta. fold dL. rewrite <- !INR_IZR_INZ. rewrite Rplus_0_l.
  replace (-1 + 2 / IZR n / 2 + INR k * (2 / IZR n)) with (-1 + (2 * INR k + 1) / IZR n) by (field; lra). reflexivity.
Qed.
Lemma facet_unit n k : (0 <= k < n)%Z -> unit3 (facet n k).
Proof.
  intros K. unfold unit3, facet. cbv zeta. set (z := facet_z n k). set (a := IZR k * _).
  assert (KN : 0 <= IZR k /\ IZR k + 1 <= IZR n). { split; [apply IZR_le; lia|]. rewrite <- plus_IZR. apply IZR_le. lia. }
  assert (Z1 : -1 <= z <= 1).
  { unfold z, facet_z. set (q := (2 * IZR k + 1) / IZR n). assert (Q : 0 <= q <= 2); [|lra]. unfold q. split.
    - apply Rmult_le_pos; [lra|]. left. apply Rinv_0_lt_compat. lra.
    - apply (Rmult_le_reg_r (IZR n)); [lra|]. unfold Rdiv. rewrite Rmult_assoc, Rinv_l by lra. lra. }
  assert (S : sqrt (1 - z * z) * sqrt (1 - z * z) = 1 - z * z) by (apply sqrt_sqrt; nra). pose proof (sin2_cos2 a) as T. unfold Rsqr in T.
  replace (sqrt (1 - z * z) * cos a * (sqrt (1 - z * z) * cos a) + sqrt (1 - z * z) * sin a * (sqrt (1 - z * z) * sin a) + z * z)
    with ((sqrt (1 - z * z) * sqrt (1 - z * z)) * (sin a * sin a + cos a * cos a) + z * z) by ring. rewrite S, T. ring.
Qed.
Lemma facet_inj n a b : (0 < n)%Z -> facet n a = facet n b -> a = b.
Proof.
  intros N E. assert (Z : facet_z n a = facet_z n b) by (unfold facet in E; congruence). unfold facet_z in Z.
  assert (NP : 0 < IZR n) by (apply IZR_lt; auto). apply eq_IZR. apply Rplus_eq_reg_l in Z. apply Rmult_eq_reg_r in Z; [lra|]. apply Rgt_not_eq. apply Rinv_0_lt_compat. auto.
Qed.
Open Scope Z_scope.
Lemma take_ok {A} (d : A) (l : list A) ind : Forall (fun i => 0 <= i < Z.of_nat (length l)) ind -> take l ind = Ok (map (fun i => nth (Z.to_nat i) l d) ind).
Proof.
  induction 1 as [|i ind I F IH]; cbn [take map]; auto. replace (i <? 0) with false by lia. rewrite (nth_error_nth' l d) by lia. rewrite IH. reflexivity.
Qed.
Lemma centers_ok rnd n : 1 <= n -> (forall c k, rnd c k <= k)%nat -> exists pts, facet_centers false rnd n = Ok pts /\ Permutation pts (map (facet n) (range n)).
Proof.
  intros N R. unfold facet_centers. cbv zeta. destruct (order_perm n N) as (ind2 & E2 & P2). rewrite E2. cbn [bind].
  pose proof (local_perm rnd 2 R ((length (range n) + 2 - 1) / 2) 0 (range n)) as P1. fold (local_shuffle rnd 2 (range n)) in P1. set (ind1 := local_shuffle rnd 2 (range n)) in *.
  assert (L1 : length ind1 = Z.to_nat n) by (rewrite (Permutation_length P1); apply range_length).
  rewrite (take_ok 0). 2: { apply Forall_forall. intros i I. rewrite L1. apply (Permutation_in _ P2) in I. apply range_in in I. lia. }
  cbn [bind]. rewrite pack_ok by auto. cbn [bind].
  set (ind := map (fun i => nth (Z.to_nat i) ind1 0) ind2).
  assert (PI : Permutation ind (range n)).
  { unfold ind. rewrite P2. rewrite <- P1 at 2. unfold range. rewrite map_map. rewrite (map_ext _ (fun k => nth k ind1 0)) by (intros; rewrite Nat2Z.id; auto).
    rewrite <- L1. assert (E : map (fun k => nth k ind1 0) (seq 0 (length ind1)) = ind1); [|rewrite E; auto].
    apply (nth_ext _ _ 0 0); [rewrite map_length, seq_length; auto|]. intros k K. rewrite map_length, seq_length in K.
    rewrite (nth_indep _ 0 (nth 0 ind1 0)) by (rewrite map_length, seq_length; auto). rewrite (map_nth (fun k => nth k ind1 0)), seq_nth by auto. reflexivity. }
  rewrite (take_ok (facet n 0)). 2: { apply Forall_forall. intros i I. rewrite map_length, seq_length. apply (Permutation_in _ PI) in I. apply range_in in I. lia. }
  eexists. split; [reflexivity|]. rewrite PI.
  assert (E : map (fun i => nth (Z.to_nat i) (map (fun k => facet n (Z.of_nat k)) (seq 0 (Z.to_nat n))) (facet n 0)) (range n) = map (facet n) (range n)); [|rewrite E; auto].
  apply map_ext_in. intros i I. apply range_in in I. change (facet n 0) with (facet n (Z.of_nat 0)).
  etransitivity; [apply (map_nth (fun k => facet n (Z.of_nat k)) (seq 0 (Z.to_nat n)) 0%nat)|]. rewrite seq_nth by lia.
  rewrite Nat.add_0_l, Z2Nat.id by lia. reflexivity.
Qed.
