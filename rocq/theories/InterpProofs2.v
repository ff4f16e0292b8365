(* The default filter, polynomials and straight lines. *)
From Coq Require Import Reals Lra Permutation.
From Verif Require Import Base CleanSpec CleanProofs InterpModel InterpSpec InterpProofs.
Open Scope R_scope.

Lemma rsum_scale {A} (l : list A) c f : rsum l (fun x => c * f x) = c * rsum l f.
Proof. induction l as [|x l IH]; cbn; [ring|]. rewrite IH. ring. Qed.
Lemma rsum_add {A} (l : list A) f g : rsum l (fun x => f x + g x) = rsum l f + rsum l g.
Proof. induction l as [|x l IH]; cbn; [ring|]. rewrite IH. ring. Qed.
Lemma rsum_le {A} (l : list A) f g : (forall x, In x l -> f x <= g x) -> rsum l f <= rsum l g.
Proof. induction l as [|x l IH]; cbn; intros H; [lra|]. specialize (IH (fun y I => H y (or_intror I))). specialize (H x (or_introl eq_refl)). lra. Qed.
Lemma rsum_pos {A} (l : list A) f x : (forall x, In x l -> 0 <= f x) -> In x l -> 0 < f x -> 0 < rsum l f.
Proof.
  induction l as [|y l IH]; intros H I P; [destruct I|]. cbn. assert (0 <= rsum l f) by (apply rsum_nonneg; intros; apply H; right; assumption).
  destruct I as [->|I]; [lra|]. assert (0 < rsum l f) by (apply IH; auto; intros; apply H; right; assumption). specialize (H y (or_introl eq_refl)). lra.
Qed.
Lemma sinc_even x : sinc (- x) = sinc x.
Proof.
  unfold sinc. destruct (Req_EM_T (- x) 0), (Req_EM_T x 0); try lra. rewrite Ropp_mult_distr_r_reverse, sin_neg. field. split; [lra|]. apply PI_neq0.
Qed.
Lemma sinc_pos x : -1 < x < 1 -> 0 < sinc x.
Proof.
  assert (P : forall x, 0 <= x < 1 -> 0 < sinc x).
  { intros y [A B]. unfold sinc. destruct (Req_EM_T y 0); [lra|]. assert (0 < PI) by apply PI_RGT_0. apply Rdiv_lt_0_compat; [apply sin_gt_0|]; nra. }
  intros [A B]. destruct (Rle_lt_dec 0 x); [apply P; lra|]. rewrite <- sinc_even. apply P. lra.
Qed.
Lemma sinc_1 : sinc 1 = 0.
Proof. unfold sinc. destruct (Req_EM_T 1 0); [lra|]. rewrite Rmult_1_r, sin_PI. unfold Rdiv. ring. Qed.
Lemma sinc_nonneg x : -1 <= x <= 1 -> 0 <= sinc x.
Proof.
  intros [A B]. destruct (Req_dec x 1) as [->|N]; [rewrite sinc_1; lra|]. destruct (Req_dec x (-1)) as [->|M]; [replace (-1) with (- (1)) by ring; rewrite sinc_even, sinc_1; lra|].
  left. apply sinc_pos. lra.
Qed.
Lemma window_nonneg x : 0 <= 1 - cos x.
Proof. pose proof (COS_bound x). lra. Qed.
Lemma window_pos k L : (0 < k < L)%nat -> 0 < 1 - cos (INR k / INR L * 2 * PI).
Proof.
  intros [A B]. assert (0 < INR k) by (apply lt_0_INR, A). assert (INR k < INR L) by (apply lt_INR, B). assert (P : 0 < PI) by apply PI_RGT_0.
  assert (Q : 0 < INR k / INR L < 1) by (split; [apply Rdiv_lt_0_compat; lra|apply (Rmult_lt_reg_r (INR L)); [lra|]; unfold Rdiv; rewrite Rmult_assoc, Rinv_l by lra; lra]).
  replace (INR k / INR L * 2 * PI) with (2 * (INR k / INR L * PI)) by ring. rewrite cos_2a_sin.
  assert (0 < sin (INR k / INR L * PI)) by (apply sin_gt_0; nra). nra.
Qed.
Lemma default_len freq : keeps_length (default_filter freq).
Proof. intros xs. unfold default_filter. rewrite map_length, combine_length, seq_length. lia. Qed.
Lemma nth_combine_seq (xs : list R) : forall j k d, (k < length xs)%nat -> nth k (combine (seq j (length xs)) xs) (d, 0) = ((j + k)%nat, nth k xs 0).
Proof.
  induction xs as [|x xs IH]; intros j [|k] d H; cbn in *; try lia; [rewrite Nat.add_0_r; reflexivity|]. rewrite IH by lia. f_equal. lia.
Qed.
Lemma default_nth freq xs k : (k < length xs)%nat -> nth k (default_filter freq xs) 0 = (1 - cos (INR k / INR (length xs) * 2 * PI)) * sinc (freq * nth k xs 0).
Proof.
  intros H. unfold default_filter. set (g := fun '(i, x) => _). rewrite (nth_indep _ 0 (g (O, 0))) by (rewrite map_length, combine_length, seq_length; lia).
  rewrite map_nth, nth_combine_seq by exact H. reflexivity.
Qed.
Lemma grid_nth o f t k : (k < t)%nat -> nth k (tap_grid o f t) 0 = - INR o + INR k / INR f.
Proof. intros H. unfold tap_grid. apply (nth_map_seq (fun k => - INR o + INR k / INR f)). exact H. Qed.

(* the default filter of order up to 4, with the taps of exact arithmetic: weights are not negative and not all zero *)
Section Default.
Variables f o : nat.
Hypothesis F : (0 < f)%nat.
Hypothesis O : (0 < o <= 4)%nat.
Notation taps := (2 * o * f + 1)%nat.
Notation fir := (default_filter (/ 4) (tap_grid o f taps)).
Lemma tap_range k : (k < taps)%nat -> -1 <= / 4 * nth k (tap_grid o f taps) 0 <= 1.
Proof.
  intros K. rewrite grid_nth by exact K. assert (0 < INR f) by (apply lt_0_INR, F). assert (INR o <= 4) by (change 4 with (INR 4) || replace 4 with (INR 4) by (cbn; ring); apply le_INR; lia).
  assert (0 <= INR k) by apply pos_INR. assert (INR k <= 2 * INR o * INR f) by (replace (2 * INR o * INR f) with (INR (2 * o * f)) by (rewrite !mult_INR; cbn; ring); apply le_INR; lia).
  assert (Q : 0 <= INR k / INR f <= 2 * INR o).
  { split; [apply Rmult_le_pos; [lra|left; apply Rinv_0_lt_compat; lra]|]. apply (Rmult_le_reg_r (INR f)); [lra|]. unfold Rdiv. rewrite Rmult_assoc, Rinv_l by lra. lra. }
  lra.
Qed.
Lemma tap_nonneg k : 0 <= nth k fir 0.
Proof.
  destruct (Nat.lt_ge_cases k taps) as [L|L].
  - rewrite default_nth by (rewrite tap_grid_len; exact L). apply Rmult_le_pos; [apply window_nonneg|apply sinc_nonneg, tap_range, L].
  - rewrite nth_overflow; [lra|]. rewrite default_len, tap_grid_len. exact L.
Qed.
Lemma tap_pos k : (0 < k < 2 * o * f)%nat -> 0 < nth k fir 0.
Proof.
  intros K. rewrite default_nth, tap_grid_len by (rewrite tap_grid_len; lia). apply Rmult_lt_0_compat; [apply window_pos; lia|].
  apply sinc_pos. rewrite grid_nth by lia. assert (0 < INR f) by (apply lt_0_INR, F). assert (INR o <= 4) by (replace 4 with (INR 4) by (cbn; ring); apply le_INR; lia).
  assert (0 < INR k) by (apply lt_0_INR; lia). assert (INR k < 2 * INR o * INR f) by (replace (2 * INR o * INR f) with (INR (2 * o * f)) by (rewrite !mult_INR; cbn; ring); apply lt_INR; lia).
  assert (Q : 0 < INR k / INR f < 2 * INR o).
  { split; [apply Rdiv_lt_0_compat; lra|]. apply (Rmult_lt_reg_r (INR f)); [lra|]. unfold Rdiv. rewrite Rmult_assoc, Rinv_l by lra. lra. }
  lra.
Qed.
Lemma weight_nonneg m n : 0 <= weight fir f m n.
Proof. unfold weight. destruct (_ && _); [apply tap_nonneg|lra]. Qed.
Lemma total_pos e m : (m + 2 * o * f < f * length e)%nat -> 0 < total_weight fir f e m.
Proof.
  intros M. unfold total_weight.
  (* the first sample after m that is not m itself *)
  set (n := S (m / f)). assert (D : m = (f * (m / f) + m mod f)%nat) by (apply Nat.div_mod; lia). assert (B : (m mod f < f)%nat) by (apply Nat.mod_upper_bound; lia).
  assert (N : (m < f * n <= m + f)%nat) by (unfold n; rewrite Nat.mul_succ_r; lia).
  apply (rsum_pos _ _ n).
  - intros x _. apply weight_nonneg.
  - apply in_seq. split; [lia|]. cbn. apply (Nat.mul_lt_mono_pos_l f); [exact F|]. nia.
  - unfold weight. rewrite default_len, tap_grid_len. destruct (Nat.leb_spec m (f * n)); [|lia]. destruct (Nat.ltb_spec (f * n) (m + taps)); [|nia]. cbn [andb].
    apply tap_pos. nia.
Qed.
End Default.

(* polynomials of degree two continue *)
Definition quad (a b c x : R) : R := a * x * x + b * x + c.
Lemma quad_val a b c x : polyval [a; b; c] x = quad a b c x.
Proof. unfold polyval, quad. cbn. ring. Qed.
Lemma grid_nodup lo n : NoDup (grid lo n).
Proof.
  unfold grid. apply FinFun.Injective_map_NoDup; [|apply seq_NoDup]. intros i j E. apply eq_IZR in E. lia.
Qed.
Lemma extend_quad polyfit a b c ys o : fits_exactly polyfit -> (3 <= o <= length ys)%nat ->
  (forall i, (i < length ys)%nat -> nth i ys 0 = quad a b c (INR i)) ->
  polyextend polyfit ys o 2 = Ok (map (fun j => quad a b c (INR j - INR o)) (seq 0 (length ys + 2 * o))).
Proof.
  intros FE [O1 O2] H. unfold polyextend. destruct (Nat.eqb_spec o 0); [lia|]. destruct (Nat.ltb_spec (length ys) o); [lia|]. cbn [orb]. f_equal.
  set (N := length ys) in *.
  assert (Y : ys = map (fun i => quad a b c (INR i)) (seq 0 N)).
  { apply (nth_ext _ _ 0 0); [rewrite map_length, seq_length; reflexivity|]. intros i I. rewrite nth_map_seq by exact I. apply H, I. }
  replace (N + 2 * o)%nat with (o + (N + o))%nat by lia. rewrite !seq_app, !map_app. cbn [Nat.add]. f_equal; [|f_equal].
  - assert (E : firstn o ys = map (polyval [a; b; c]) (grid 0 o)).
    { rewrite Y. unfold grid. rewrite firstn_map, map_map. replace N with (o + (N - o))%nat by lia. rewrite seq_app, firstn_app, seq_length, Nat.sub_diag, app_nil_r, firstn_all2 by (rewrite seq_length; lia).
      apply map_ext. intros i. rewrite quad_val. cbn [Z.add]. rewrite <- INR_IZR_INZ. reflexivity. }
    rewrite E. unfold grid at 3. rewrite map_map. apply map_ext. intros i. rewrite FE by (try reflexivity; try apply grid_nodup; unfold grid; rewrite map_length, seq_length; lia).
    rewrite quad_val. f_equal. rewrite plus_IZR, opp_IZR, <- !INR_IZR_INZ. ring.
  - rewrite Y at 1. rewrite (seq_from o N), map_map. apply map_ext. intros i. f_equal. rewrite plus_INR. ring.
  - set (d := INR N - 1). set (q := [a; 2 * a * d + b; a * d * d + b * d + c]).
    assert (E : skipn (N - o) ys = map (polyval q) (grid (1 - Z.of_nat o) o)).
    { rewrite Y. unfold grid. rewrite skipn_map, map_map. replace N with ((N - o) + o)%nat at 2 by lia. rewrite seq_app, skipn_app, seq_length, Nat.sub_diag, skipn_all2 by (rewrite seq_length; lia).
      cbn [app skipn Nat.add]. rewrite (seq_from (N - o) o), map_map. apply map_ext. intros i. unfold q. rewrite quad_val, plus_INR, minus_INR by lia. rewrite plus_IZR, minus_IZR, <- !INR_IZR_INZ.
      unfold quad, d. ring. }
    rewrite E. unfold grid at 3. rewrite map_map. rewrite (seq_from (o + N) o), map_map. apply map_ext. intros i.
    rewrite FE by (try reflexivity; try apply grid_nodup; unfold grid; rewrite map_length, seq_length; lia).
    unfold q. rewrite quad_val, !plus_INR, plus_IZR, <- INR_IZR_INZ. unfold quad, d. ring.
Qed.

(* straight lines under a symmetric filter, at the samples *)
Lemma rev_seq_map n : rev (seq 0 (S n)) = map (fun d => (n - d)%nat) (seq 0 (S n)).
Proof.
  apply (nth_ext _ _ O O); [rewrite rev_length, map_length; reflexivity|]. intros i I. rewrite rev_length, seq_length in I.
  rewrite rev_nth by (rewrite seq_length; exact I). rewrite seq_length, !seq_nth by lia.
  rewrite (nth_indep _ O (n - 0)%nat) by (rewrite map_length, seq_length; exact I). rewrite (map_nth (fun d => (n - d)%nat)), seq_nth by exact I. lia.
Qed.
Lemma odd_sum n (g : nat -> R) : (forall d, (d <= n)%nat -> g (n - d)%nat = - g d) -> rsum (seq 0 (S n)) g = 0.
Proof.
  intros H. assert (E : rsum (seq 0 (S n)) g = rsum (rev (seq 0 (S n))) g) by (apply rsum_perm, Permutation_rev).
  rewrite rev_seq_map, rsum_map in E. rewrite (rsum_ext _ (fun x => g (n - x)%nat) (fun d => -1 * g d)) in E by (intros d I; apply in_seq in I; rewrite H by lia; ring).
  rewrite rsum_scale in E. lra.
Qed.
(* the weights around the sample i, for the taps of exact arithmetic *)
Lemma at_sample fir f o (e : list R) i (c : nat -> R) : (0 < f)%nat -> length fir = (2 * o * f + 1)%nat -> (i + 2 * o < length e)%nat ->
  rsum (seq 0 (length e)) (fun n => weight fir f (f * i) n * c n) = rsum (seq 0 (S (2 * o))) (fun d => nth (f * (2 * o - d)) fir 0 * c (i + d)%nat).
Proof.
  intros F L H. transitivity (rsum (seq 0 (S (2 * o))) (fun k => (fun n => nth (f * (2 * o - (n - i))) fir 0 * c n) (i + k)%nat)).
  2:{ apply rsum_ext. intros k _. cbn beta. replace (i + k - i)%nat with k by lia. reflexivity. }
  rewrite <- (window i (S (2 * o)) (length e) (fun n => nth (f * (2 * o - (n - i))) fir 0 * c n)) by lia.
  apply rsum_ext. intros n _. unfold weight. rewrite L.
    replace ((f * i <=? f * n)%nat) with ((i <=? n)%nat) by (destruct (Nat.leb_spec i n), (Nat.leb_spec (f * i) (f * n)); try reflexivity; nia).
    replace ((f * n <? f * i + (2 * o * f + 1))%nat) with ((n <? i + S (2 * o))%nat) by (destruct (Nat.ltb_spec n (i + S (2 * o))), (Nat.ltb_spec (f * n) (f * i + (2 * o * f + 1))); try reflexivity; nia).
    destruct (Nat.leb_spec i n); cbn [andb]; [|ring]. destruct (Nat.ltb_spec n (i + S (2 * o))); [|ring]. f_equal. f_equal.
    rewrite <- Nat.mul_sub_distr_l, Nat.mul_sub_distr_l. nia.
Qed.
