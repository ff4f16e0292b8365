From Coq Require Import Reals Lra String.
From Verif Require Import Base CleanModel GridModel GridProofs WinModel WinSpec.
Ltac Zify.zify_post_hook ::= idtac.
Open Scope R_scope.
Local Notation length := List.length.

(* a window given sample by sample *)
Definition of_fun (L : Z) (f : nat -> R) : list R := map f (seq 0 (Z.to_nat L)).
Lemma of_fun_length L f : length (of_fun L f) = Z.to_nat L.
Proof. unfold of_fun. rewrite map_length, seq_length. auto. Qed.
Lemma of_fun_nth L f k : (k < Z.to_nat L)%nat -> nth k (of_fun L f) 0 = f k.
Proof.
  intros K. unfold of_fun. rewrite (nth_indep _ 0 (f 0%nat)) by (rewrite map_length, seq_length; auto). rewrite map_nth, seq_nth by auto. auto.
Qed.
Lemma good_of_fun L (n : nat) f : L = Z.of_nat (S n) ->
  (forall k, (k <= n)%nat -> f (n - k)%nat = f k) -> (forall k, (k <= n)%nat -> 0 <= f k <= 1) ->
  (forall k, (2 * (k + 1) <= n)%nat -> f k <= f (k + 1)%nat) -> (forall k, (n = 2 * k)%nat -> f k = 1) -> good_window L (of_fun L f).
Proof.
  intros EL S B R P. assert (TL : Z.to_nat L = Datatypes.S n) by lia. split; [rewrite of_fun_length; lia|]. split; [|split; [|split]].
  - intros k. rewrite of_fun_length, TL. intros K. rewrite !of_fun_nth by lia. replace (Datatypes.S n - 1 - k)%nat with (n - k)%nat by lia. apply S. lia.
  - apply Forall_forall. intros x X. unfold of_fun in X. apply in_map_iff in X as (k & <- & K). apply in_seq in K. apply B. lia.
  - intros k. rewrite of_fun_length, TL. intros K. rewrite !of_fun_nth by lia. apply R. lia.
  - intros k. rewrite of_fun_length, TL. intros K. rewrite of_fun_nth by lia. apply P. lia.
Qed.
Lemma indices_map L g : map g (indices L) = of_fun L (fun k => g (INR k)).
Proof. unfold indices, of_fun. rewrite map_map. auto. Qed.

(* the same in terms of the fraction t = k / N of the way along *)
Lemma good_frac L g : (2 <= L)%Z ->
  (forall t, 0 <= t <= 1 -> g (1 - t) = g t) -> (forall t, 0 <= t <= 1 -> 0 <= g t <= 1) ->
  (forall t u, 0 <= t <= u -> u <= 1/2 -> g t <= g u) -> g (1/2) = 1 -> good_window L (of_fun L (fun k => g (INR k / (IZR L - 1)))).
Proof.
  intros EL S B R P. set (n := (Z.to_nat L - 1)%nat). assert (NE : IZR L - 1 = INR n). { unfold n. rewrite minus_INR by lia. rewrite INR_IZR_INZ, Z2Nat.id by lia. cbn. lra. }
  assert (NP : 0 < INR n) by (apply lt_0_INR; unfold n; lia). rewrite NE.
  assert (FR : forall k, (k <= n)%nat -> 0 <= INR k / INR n <= 1).
  { intros k K. apply le_INR in K. pose proof (pos_INR k). split; [apply Rmult_le_pos; [auto|left; apply Rinv_0_lt_compat; auto]|].
    apply (Rmult_le_reg_r (INR n)); auto. unfold Rdiv. rewrite Rmult_assoc, Rinv_l by lra. lra. }
  apply (good_of_fun L n).
  - unfold n. lia.
  - intros k K. rewrite minus_INR by auto. replace ((INR n - INR k) / INR n) with (1 - INR k / INR n) by (field; lra). apply S. auto.
  - intros k K. apply B. auto.
  - intros k K. apply R.
    + split; [apply FR; lia|]. unfold Rdiv. apply Rmult_le_compat_r; [left; apply Rinv_0_lt_compat; auto|]. apply le_INR. lia.
    + apply le_INR in K. rewrite mult_INR in K. change (INR 2) with 2 in K. apply (Rmult_le_reg_r (INR n)); auto. unfold Rdiv. rewrite Rmult_assoc, Rinv_l by lra. lra.
  - intros k K. assert (E : INR k / INR n = 1/2); [|rewrite E; auto]. rewrite K. rewrite K in NP. rewrite mult_INR in *. change (INR 2) with 2 in *. field. lra.
Qed.

(* a window that falls as the cosine of the position rises *)
Lemma cos_rev t : cos (2 * PI * (1 - t)) = cos (2 * PI * t).
Proof. replace (2 * PI * (1 - t)) with (- (2 * PI * t) + 2 * PI) by ring. rewrite cos_plus, cos_2PI, sin_2PI, cos_neg. ring. Qed.
Lemma cos_falls t u : 0 <= t <= u -> u <= 1/2 -> cos (2 * PI * u) <= cos (2 * PI * t).
Proof. intros T U. pose proof PI_RGT_0. apply cos_decr_1; nra. Qed.
Lemma cos_half : cos (2 * PI * (1/2)) = -1.
Proof. replace (2 * PI * (1/2)) with PI by field. apply cos_PI. Qed.
Lemma good_cos L (p : R -> R) : (2 <= L)%Z -> (forall c, -1 <= c <= 1 -> 0 <= p c <= 1) -> (forall c d, -1 <= c <= d -> d <= 1 -> p d <= p c) -> p (-1) = 1 ->
  good_window L (of_fun L (fun k => p (cos (2 * PI * (INR k / (IZR L - 1)))))).
Proof.
  intros EL B M P. apply (good_frac L (fun t => p (cos (2 * PI * t)))); auto.
  - intros t T. rewrite cos_rev. auto.
  - intros t T. apply B. apply COS_bound.
  - intros t u T U. pose proof (COS_bound (2 * PI * t)). pose proof (COS_bound (2 * PI * u)). pose proof (cos_falls t u T U). apply M; lra.
  - rewrite cos_half. auto.
Qed.
Lemma cos_2x c x : c = cos x -> cos (2 * x) = 2 * (c * c) - 1.
Proof. intros ->. rewrite cos_2a_cos. ring. Qed.
Lemma cos_3x c x : c = cos x -> cos (3 * x) = 4 * (c * c * c) - 3 * c.
Proof.
  intros ->. replace (3 * x) with (2 * x + x) by ring. rewrite cos_plus, cos_2a_cos, sin_2a. pose proof (sin2_cos2 x) as E. unfold Rsqr in E.
  replace (2 * sin x * cos x * sin x) with (2 * cos x * (sin x * sin x)) by ring. replace (sin x * sin x) with (1 - cos x * cos x) by lra. ring.
Qed.
Lemma of_fun_ext L f g : (forall k, f k = g k) -> of_fun L f = of_fun L g.
Proof. intros E. unfold of_fun. apply map_ext. auto. Qed.
Section Plain.
Variable L : Z.
Hypothesis HL : (2 <= L)%Z.
Let NP : IZR L - 1 <> 0.
Proof. assert (2 <= IZR L) by (apply IZR_le; auto). lra. Qed.
Lemma hamming_good : good_window L (map (hamming L) (indices L)).
Proof.
  rewrite indices_map. erewrite of_fun_ext; [apply (good_cos L (fun c => 54/100 - 46/100 * c))|]; auto; intros; try lra.
  unfold hamming. do 3 f_equal. field. auto.
Qed.
Lemma hanning_good : good_window L (map (hanning L) (indices L)).
Proof.
  rewrite indices_map. erewrite of_fun_ext; [apply (good_cos L (fun c => 1/2 - 1/2 * c))|]; auto; intros; try lra.
  unfold hanning. do 3 f_equal. field. auto.
Qed.
Lemma blackman_good : good_window L (map (blackman L) (indices L)).
Proof.
  rewrite indices_map. erewrite of_fun_ext; [apply (good_cos L (fun c => 42/100 - 1/2 * c + 8/100 * (2 * (c * c) - 1)))|]; auto; intros; try lra; try nra.
  unfold blackman. replace (2 * PI * INR k / (IZR L - 1)) with (2 * PI * (INR k / (IZR L - 1))) by (field; auto).
  replace (4 * PI * INR k / (IZR L - 1)) with (2 * (2 * PI * (INR k / (IZR L - 1)))) by (field; auto). rewrite (cos_2x _ _ eq_refl). reflexivity.
Qed.
Lemma bh_falls c d : -1 <= c <= d -> d <= 1 ->
  35875/100000 - 48829/100000 * d + 14128/100000 * (2 * (d * d) - 1) - 1168/100000 * (4 * (d * d * d) - 3 * d) <=
  35875/100000 - 48829/100000 * c + 14128/100000 * (2 * (c * c) - 1) - 1168/100000 * (4 * (c * c * c) - 3 * c).
Proof.
  intros C D. set (s := d - c). assert (E : d = c + s) by (unfold s; ring).
  assert (Q : 0 <= s * (48829/100000 - 14128/100000 * 2 * (c + d) + 1168/100000 * (4 * (c * c + c * d + d * d) - 3))).
  { apply Rmult_le_pos; [unfold s; lra|]. assert (0 <= (2 - c - d) * (2 - c - d)) by nra. assert (0 <= (c - d) * (c - d)) by nra.
    assert (4 * (c * c + c * d + d * d) = 3 * (c + d) * (c + d) + (c - d) * (c - d)) by ring.
    assert (-2 <= c + d <= 2) by lra. nra. }
  unfold s in Q. nra.
Qed.
Lemma blackman_harris_good : good_window L (map (blackman_harris L) (indices L)).
Proof.
  rewrite indices_map. erewrite of_fun_ext; [apply (good_cos L (fun c => 35875/100000 - 48829/100000 * c + 14128/100000 * (2 * (c * c) - 1) - 1168/100000 * (4 * (c * c * c) - 3 * c)))|]; auto.
  - intros c C. pose proof (bh_falls c 1 ltac:(lra) ltac:(lra)). pose proof (bh_falls (-1) c ltac:(lra) ltac:(lra)). lra.
  - intros c d C D. apply bh_falls; auto.
  - lra.
  - intros k. cbv beta. unfold blackman_harris. replace (2 * PI * INR k / (IZR L - 1)) with (2 * PI * (INR k / (IZR L - 1))) by (field; auto).
    replace (4 * PI * INR k / (IZR L - 1)) with (2 * (2 * PI * (INR k / (IZR L - 1)))) by (field; auto).
    replace (6 * PI * INR k / (IZR L - 1)) with (3 * (2 * PI * (INR k / (IZR L - 1)))) by (field; auto). rewrite (cos_2x _ _ eq_refl), (cos_3x _ _ eq_refl). reflexivity.
Qed.
Lemma gaussian_good : good_window L (map (gaussian04 L) (indices L)).
Proof.
  rewrite indices_map. erewrite of_fun_ext; [apply (good_frac L (fun t => exp (- (1/2) * (((t - 1/2) / (2/10)) * ((t - 1/2) / (2/10))))))|]; auto.
  - intros t T. cbv beta. f_equal. field.
  - intros t T. cbv beta. set (y := (t - 1/2) / (2/10)). split; [left; apply exp_pos|]. assert (Y : - (1/2) * (y * y) <= 0) by nra.
    assert (E : exp (- (1/2) * (y * y)) <= exp 0); [|rewrite exp_0 in E; auto].
    destruct (Rle_lt_or_eq_dec _ _ Y) as [Y1|Y1]; [left; apply exp_increasing; auto | rewrite Y1; lra].
  - intros t u T U. cbv beta. destruct (Req_dec t u) as [-> | N]; [lra|]. left. apply exp_increasing. set (x := (t - 1/2) / (2/10)). set (y := (u - 1/2) / (2/10)).
    assert (x < y <= 0) by (unfold x, y; lra). nra.
  - cbv beta. replace (- (1/2) * ((1/2 - 1/2) / (2/10) * ((1/2 - 1/2) / (2/10)))) with 0 by field. apply exp_0.
  - intros k. cbv beta. unfold gaussian04. f_equal. field. auto.
Qed.
Lemma kaiser_good i0 b : bessel0 i0 -> 0 < b -> good_window L (map (kaiser i0 L b) (indices L)).
Proof.
  intros [B0 BI] BP. pose proof PI_RGT_0 as PP. assert (PB : 0 < PI * b) by nra. assert (IP : forall x, 0 <= x -> 0 < i0 x). { intros x X. pose proof (BI 0 x ltac:(lra)). lra. }
  rewrite indices_map. erewrite of_fun_ext; [apply (good_frac L (fun t => i0 (PI * b * sqrt (1 - (2 * t - 1) * (2 * t - 1))) / i0 (PI * b)))|]; auto.
  - intros t T. cbv beta. do 4 f_equal. ring.
  - intros t T. assert (P0 : 0 <= 1 - (2 * t - 1) * (2 * t - 1) <= 1). { replace (1 - (2 * t - 1) * (2 * t - 1)) with (4 * (t * (1 - t))) by ring. assert (0 <= t * (1 - t)) by (apply Rmult_le_pos; lra). pose proof (Rle_0_sqr (2 * t - 1)) as Q. unfold Rsqr in Q. lra. }
    assert (S : 0 <= sqrt (1 - (2 * t - 1) * (2 * t - 1)) <= 1). { split; [apply sqrt_pos|]. apply (Rle_trans _ (sqrt 1)); [apply sqrt_le_1; lra | rewrite sqrt_1; lra]. }
    set (s := sqrt _) in *. pose proof (IP (PI * b) ltac:(lra)) as I1. pose proof (IP (PI * b * s) ltac:(nra)) as I2. split.
    + left. apply Rdiv_lt_0_compat; auto.
    + apply (Rmult_le_reg_r (i0 (PI * b))); auto. unfold Rdiv. rewrite Rmult_assoc, Rinv_l, Rmult_1_r, Rmult_1_l by lra. apply BI. nra.
  - intros t u T U. assert (S : 0 <= sqrt (1 - (2 * t - 1) * (2 * t - 1)) <= sqrt (1 - (2 * u - 1) * (2 * u - 1))). { split; [apply sqrt_pos|]. assert (P0 : forall v, 0 <= v <= 1/2 -> 0 <= 1 - (2 * v - 1) * (2 * v - 1)). { intros v V. replace (1 - (2 * v - 1) * (2 * v - 1)) with (4 * (v * (1 - v))) by ring. assert (0 <= v * (1 - v)) by (apply Rmult_le_pos; lra). lra. }
      apply sqrt_le_1; [apply P0; lra | apply P0; lra |]. assert (0 <= (u - t) * (1 - t - u)) by (apply Rmult_le_pos; lra). lra. }
    unfold Rdiv. apply Rmult_le_compat_r; [left; apply Rinv_0_lt_compat; apply IP; lra|]. apply BI. split; [nra|]. apply Rmult_le_compat_l; lra.
  - cbv beta. replace (1 - (2 * (1/2) - 1) * (2 * (1/2) - 1)) with 1 by field. rewrite sqrt_1, Rmult_1_r. unfold Rdiv. apply Rinv_r. pose proof (IP (PI * b)). lra.
  - intros k. cbv beta. unfold kaiser. f_equal. f_equal. f_equal. f_equal. f_equal. field. auto.
Qed.
Lemma barthann_good : good_window L (map (barthann_at L) (indices L)).
Proof.
  pose proof PI_RGT_0 as PP. assert (C : forall f, -1 <= cos f <= 1) by (intros; apply COS_bound).
  rewrite indices_map. erewrite of_fun_ext; [apply (good_frac L (fun t => 62/100 - 48/100 * Rabs (t - 1/2) + 38/100 * cos (2 * PI * Rabs (t - 1/2))))|]; auto.
  - intros t T. cbv beta. replace (1 - t - 1/2) with (- (t - 1/2)) by field. rewrite Rabs_Ropp. auto.
  - intros t T. assert (F : 0 <= Rabs (t - 1/2) <= 1/2) by (unfold Rabs; destruct (Rcase_abs _); lra). specialize (C (2 * PI * Rabs (t - 1/2))). lra.
  - intros t u T U. rewrite (Rabs_left1 (t - 1/2)), (Rabs_left1 (u - 1/2)) by lra. pose proof (cos_falls (- (u - 1/2)) (- (t - 1/2)) ltac:(lra) ltac:(lra)). lra.
  - cbv beta. assert (E : 1/2 - 1/2 = 0) by ring. rewrite E, Rabs_R0. replace (2 * PI * 0) with 0 by ring. rewrite cos_0. lra.
Qed.
(* tukey *)
Lemma slice_of_fun f a b : (0 <= a <= b)%Z -> (b <= L)%Z -> slice (of_fun L f) a b = map f (seq (Z.to_nat a) (Z.to_nat (b - a))).
Proof.
  intros A B. unfold slice. rewrite of_fun_length. unfold bound. rewrite Z2Nat.id by lia.
  replace (a <? 0)%Z with false by (symmetry; apply Z.ltb_ge; lia). replace (b <? 0)%Z with false by (symmetry; apply Z.ltb_ge; lia). rewrite !Z.min_l by lia.
  unfold of_fun. rewrite skipn_map, firstn_map. f_equal. replace (Z.to_nat L) with (Z.to_nat a + (Z.to_nat (b - a) + Z.to_nat (L - b)))%nat by lia.
  rewrite !seq_app. rewrite skipn_app, skipn_all2, seq_length by (rewrite seq_length; lia). replace (Z.to_nat a - Z.to_nat a)%nat with 0%nat by lia. cbn [skipn app].
  replace (Z.to_nat b - Z.to_nat a)%nat with (Z.to_nat (b - a)) by lia. rewrite firstn_app, firstn_all2, seq_length by (rewrite seq_length; lia).
  rewrite Nat.sub_diag. cbn [firstn]. rewrite app_nil_r. reflexivity.
Qed.
Lemma tukey_good alpha : good_window L (tukey L alpha (indices L)).
Proof.
  unfold tukey. destruct (Rle_dec alpha 0) as [A0|A0].
  { replace (repeat 1 (Z.to_nat L)) with (of_fun L (fun _ => 1)).
    - apply (good_of_fun L (Z.to_nat L - 1)); auto; intros; try lra; lia.
    - unfold of_fun. generalize 0%nat. induction (Z.to_nat L); intros s; cbn; auto. f_equal. auto. }
  destruct (Rle_dec 1 alpha) as [A1|A1]; [apply hanning_good|]. apply Rnot_le_lt in A0, A1. cbv zeta.
  assert (L2 : 2 <= IZR L) by (apply IZR_le; auto). set (N := IZR L - 1) in *. pose proof (floorR_spec (alpha * N / 2)) as [F1 F2]. set (width := floorR (alpha * N / 2)) in *.
  assert (W0 : (0 <= width)%Z). { assert (0 < IZR (width + 1)); [|apply lt_IZR in H; lia]. rewrite plus_IZR. assert (0 < alpha * N) by (apply Rmult_lt_0_compat; unfold N; lra). lra. }
  assert (W1 : (2 * width < L - 1)%Z). { apply lt_IZR. rewrite mult_IZR, minus_IZR. fold N. assert (alpha * N < 1 * N) by (apply Rmult_lt_compat_r; unfold N; lra). lra. }
  assert (EI : indices L = of_fun L INR) by (unfold indices, of_fun; auto). rewrite EI, of_fun_length, Z2Nat.id by lia. rewrite !slice_of_fun by lia.
  replace (width + 1 - 0)%Z with (width + 1)%Z by lia. replace (L - width - 1 - (width + 1))%Z with (L - 2 * width - 2)%Z by lia. replace (L - (L - width - 1))%Z with (width + 1)%Z by lia.
  set (f := fun k : nat => if Nat.leb k (Z.to_nat width) then tukey_lo L alpha (INR k) else if Nat.ltb k (Z.to_nat (L - width - 1)) then 1 else tukey_hi L alpha (INR k)).
  assert (E : map (tukey_lo L alpha) (map INR (seq (Z.to_nat 0) (Z.to_nat (width + 1)))) ++ map (fun _ => 1) (map INR (seq (Z.to_nat (width + 1)) (Z.to_nat (L - 2 * width - 2)))) ++
     map (tukey_hi L alpha) (map INR (seq (Z.to_nat (L - width - 1)) (Z.to_nat (width + 1)))) = of_fun L f).
  { unfold of_fun. replace (Z.to_nat L) with (Z.to_nat (width + 1) + (Z.to_nat (L - 2 * width - 2) + Z.to_nat (width + 1)))%nat by lia. rewrite !seq_app, !map_app, !map_map. rewrite Nat.add_0_l.
    replace (Z.to_nat (width + 1) + Z.to_nat (L - 2 * width - 2))%nat with (Z.to_nat (L - width - 1)) by lia. repeat (f_equal; try (apply map_ext_in; intros k K; apply in_seq in K; unfold f)).
    - destruct (Nat.leb_spec k (Z.to_nat width)); [auto|lia].
    - destruct (Nat.leb_spec k (Z.to_nat width)); [lia|]. destruct (Nat.ltb_spec k (Z.to_nat (L - width - 1))); [auto|lia].
    - destruct (Nat.leb_spec k (Z.to_nat width)); [lia|]. destruct (Nat.ltb_spec k (Z.to_nat (L - width - 1))); [lia|auto]. }
  rewrite E. set (n := (Z.to_nat L - 1)%nat). assert (NE : N = INR n). { unfold N, n. rewrite minus_INR by lia. rewrite INR_IZR_INZ, Z2Nat.id by lia. cbn. lra. }
  assert (NPos : 0 < N) by (unfold N; lra). assert (AN : 0 < alpha * N) by (apply Rmult_lt_0_compat; auto).
  assert (B : forall x, 0 <= 1/2 * (1 + cos x) <= 1) by (intros x; pose proof (COS_bound x); lra).
  assert (WI : INR (Z.to_nat width) = IZR width) by (rewrite INR_IZR_INZ, Z2Nat.id by lia; auto).
  apply (good_of_fun L n).
  - unfold n. lia.
  - intros k K. unfold f. assert (M : forall j, (j <= n)%nat -> tukey_hi L alpha (INR (n - j)) = tukey_lo L alpha (INR j)).
    { intros j J. unfold tukey_hi, tukey_lo. fold N. do 2 f_equal. rewrite minus_INR, <- NE by auto.
      replace (PI * (-2 / alpha + 1 + 2 * (N - INR j) / alpha / N)) with (- (PI * (-1 + 2 * INR j / alpha / N))) by (field; lra). apply cos_neg. }
    destruct (Nat.leb_spec k (Z.to_nat width)).
    + destruct (Nat.leb_spec (n - k) (Z.to_nat width)); [unfold n in *; lia|]. destruct (Nat.ltb_spec (n - k) (Z.to_nat (L - width - 1))); [unfold n in *; lia|]. apply M. auto.
    + destruct (Nat.ltb_spec k (Z.to_nat (L - width - 1))).
      * destruct (Nat.leb_spec (n - k) (Z.to_nat width)); [unfold n in *; lia|]. destruct (Nat.ltb_spec (n - k) (Z.to_nat (L - width - 1))); [auto|unfold n in *; lia].
      * destruct (Nat.leb_spec (n - k) (Z.to_nat width)); [|unfold n in *; lia]. rewrite <- (M (n - k)%nat) by lia. do 2 f_equal. lia.
  - intros k K. unfold f, tukey_lo, tukey_hi. destruct (Nat.leb k (Z.to_nat width)); [apply B|]. destruct (Nat.ltb k (Z.to_nat (L - width - 1))); [lra|apply B].
  - intros k K. unfold f. destruct (Nat.leb_spec (k + 1) (Z.to_nat width)) as [Q|Q].
    + destruct (Nat.leb_spec k (Z.to_nat width)); [|lia]. unfold tukey_lo. fold N.
      assert (G : forall j, (j <= Z.to_nat width)%nat -> - PI <= PI * (-1 + 2 * INR j / alpha / N) <= 0).
      { intros j J. apply le_INR in J. rewrite WI in J. pose proof (pos_INR j). pose proof PI_RGT_0.
        assert (X : 0 <= 2 * INR j / alpha / N <= 1); [|nra]. replace (2 * INR j / alpha / N) with (2 * INR j * / (alpha * N)) by (field; lra). pose proof (Rinv_0_lt_compat _ AN). split; [nra|].
        apply (Rmult_le_reg_r (alpha * N)); auto. rewrite Rmult_assoc, Rinv_l by lra. lra. }
      assert (C : cos (PI * (-1 + 2 * INR k / alpha / N)) <= cos (PI * (-1 + 2 * INR (k + 1) / alpha / N))); [|lra].
      assert (CM : forall x y, - PI <= x <= y -> y <= 0 -> cos x <= cos y).
      { intros x y X Y. rewrite <- (cos_neg x), <- (cos_neg y). apply cos_decr_1; lra. }
      apply CM; [|apply G; lia]. split; [apply G; lia|]. apply Rmult_le_compat_l; [left; apply PI_RGT_0|]. apply Rplus_le_compat_l. unfold Rdiv.
      apply Rmult_le_compat_r; [left; apply Rinv_0_lt_compat; auto|]. apply Rmult_le_compat_r; [left; apply Rinv_0_lt_compat; auto|]. rewrite plus_INR. cbn. lra.
    + destruct (Nat.ltb_spec (k + 1) (Z.to_nat (L - width - 1))); [|unfold n in *; lia].
      destruct (Nat.leb_spec k (Z.to_nat width)); [apply B|]. destruct (Nat.ltb_spec k (Z.to_nat (L - width - 1))); [lra|unfold n in *; lia].
  - intros k K. unfold f. destruct (Nat.leb_spec k (Z.to_nat width)); [unfold n in *; lia|]. destruct (Nat.ltb_spec k (Z.to_nat (L - width - 1))); [auto|unfold n in *; lia].
Qed.
End Plain.
