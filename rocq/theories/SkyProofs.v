From Coq Require Import Reals Lra Permutation.
From Verif Require Import Base CleanModel CleanSpec CleanProofs CleanProofs2 GridModel GridSpec GridProofs GridProofs2 ImgModel ImgSpec ImgProofs ImgProofs2 GeoModel SkyModel SkySpec.
Ltac Zify.zify_post_hook ::= idtac.
Open Scope R_scope.
Local Notation length := List.length.
Lemma c_ring : @ring_theory C ((0, 0) : C) ((1, 0) : C) cadd cmul csub copp (@eq C).
Proof. exact cring. Qed.
Add Ring Cring : c_ring.
Ltac cr := match goal with |- @eq _ ?a ?b => change (@eq C a b) end; ring.
Definition c1 : C := (1, 0).
Definition c0 : C := (0, 0).
Definition S2 (n : Z) (f : Z -> Z -> C) : C := csum (ring n) (fun a => csum (ring n) (fun b => f a b)).

Lemma cis_add s t : cis (s + t) = cmul (cis s) (cis t).
Proof. unfold cis, cmul. cbn [fst snd]. rewrite Rmult_plus_distr_l, cos_plus, sin_plus. f_equal; ring. Qed.
Lemma cis_0 : cis 0 = (1, 0).
Proof. unfold cis. rewrite Rmult_0_r, cos_0, sin_0. auto. Qed.
Lemma cis_period t (k : Z) : cis (t + IZR k) = cis t.
Proof. unfold cis. replace (2 * PI * (t + IZR k)) with (2 * PI * t + 2 * IZR k * PI) by ring. destruct (period_z k (2 * PI * t)) as [-> ->]. auto. Qed.
Lemma cis_eq s t : (exists k : Z, s = t + IZR k) -> cis s = cis t.
Proof. intros [k ->]. apply cis_period. Qed.
Lemma cis_int (k : Z) : cis (IZR k) = (1, 0).
Proof. rewrite <- (Rplus_0_l (IZR k)), cis_period. apply cis_0. Qed.
Lemma cis_one t : cis t = (1, 0) -> exists k : Z, t = IZR k.
Proof.
  intros E. injection E as E _. assert (S : sin (PI * t) = 0).
  { assert (H := cos_2a_sin (PI * t)). replace (2 * (PI * t)) with (2 * PI * t) in H by ring. rewrite E in H.
    assert (Q : sin (PI * t) * sin (PI * t) = 0) by lra. apply Rmult_integral in Q. tauto. }
  apply sin_eq_0_0 in S. destruct S as [k K]. exists k. pose proof PI_neq0.
  apply (Rmult_eq_reg_l PI); auto. rewrite K. ring.
Qed.

(* sums *)
Lemma csum_add {A} (l : list A) f g : csum l (fun x => cadd (f x) (g x)) = cadd (csum l f) (csum l g).
Proof. induction l as [|x l IH]; [unfold csum, cadd; cbn [rsum fst snd]; f_equal; lra|]. rewrite !csum_cons, IH. cr. Qed.
Lemma csum_mul_l {A} (l : list A) c f : csum l (fun x => cmul c (f x)) = cmul c (csum l f).
Proof. induction l as [|x l IH]; [unfold csum, cmul; cbn [rsum fst snd]; f_equal; lra|]. rewrite !csum_cons, IH. cr. Qed.
Lemma csum_mul_r {A} (l : list A) c f : csum l (fun x => cmul (f x) c) = cmul (csum l f) c.
Proof. induction l as [|x l IH]; [unfold csum, cmul; cbn [rsum fst snd]; f_equal; lra|]. rewrite !csum_cons, IH. cr. Qed.
Lemma csum_zero {A} (l : list A) f : (forall x, In x l -> f x = (0, 0)) -> csum l f = (0, 0).
Proof. intros H. rewrite (csum_ext l f (fun _ => (0, 0))) by auto. clear. induction l as [|x l IH]; [reflexivity|]. rewrite csum_cons, IH. cr. Qed.
Lemma csum_pick {A} (l : list A) x f : NoDup l -> In x l -> (forall y, In y l -> y <> x -> f y = (0, 0)) -> csum l f = f x.
Proof.
  intros ND. induction ND as [|y l NI ND IH]; intros I H; [destruct I|]. rewrite csum_cons. destruct I as [->|I].
  - rewrite csum_zero; [cr|]. intros z Z. apply H; [right; auto|]. intros ->. contradiction.
  - rewrite IH; auto; [|intros; apply H; auto; right; auto]. rewrite H; [cr|left; auto|]. intros ->. contradiction.
Qed.
Lemma cscale_mul r z : cscale r z = cmul (r, 0) z.
Proof. unfold cscale, cmul. cbn [fst snd]. f_equal; ring. Qed.
Lemma csum_cscale {A} (l : list A) r f : csum l (fun x => cscale r (f x)) = cscale r (csum l f).
Proof. rewrite cscale_mul, <- csum_mul_l. apply csum_ext. intros. apply cscale_mul. Qed.
Lemma S2_ext n f g : (forall a b, (0 <= a < n)%Z -> (0 <= b < n)%Z -> f a b = g a b) -> S2 n f = S2 n g.
Proof. intros H. apply csum_ext. intros a A. apply csum_ext. intros b B. apply in_ring in A, B. auto. Qed.
Lemma S2_mul_l n c f : S2 n (fun a b => cmul c (f a b)) = cmul c (S2 n f).
Proof. unfold S2. rewrite <- csum_mul_l. apply csum_ext. intros. apply csum_mul_l. Qed.
Lemma S2_mul_r n c f : S2 n (fun a b => cmul (f a b) c) = cmul (S2 n f) c.
Proof. unfold S2. rewrite <- csum_mul_r. apply csum_ext. intros. apply csum_mul_r. Qed.
Lemma S2_add n f g : S2 n (fun a b => cadd (f a b) (g a b)) = cadd (S2 n f) (S2 n g).
Proof. unfold S2. rewrite <- csum_add. apply csum_ext. intros. apply csum_add. Qed.
Lemma S2_prod n f g : S2 n (fun a b => cmul (f a) (g b)) = cmul (csum (ring n) f) (csum (ring n) g).
Proof. unfold S2. rewrite <- csum_mul_r. apply csum_ext. intros. apply csum_mul_l. Qed.
Lemma S2_swap n m f : S2 n (fun a b => S2 m (fun p q => f a b p q)) = S2 m (fun p q => S2 n (fun a b => f a b p q)).
Proof.
  unfold S2. transitivity (csum (ring n) (fun a => csum (ring m) (fun p => csum (ring n) (fun b => csum (ring m) (fun q => f a b p q))))).
  { apply csum_ext. intros. apply csum_swap. }
  rewrite csum_swap. apply csum_ext. intros p _.
  transitivity (csum (ring n) (fun a => csum (ring m) (fun q => csum (ring n) (fun b => f a b p q)))).
  { apply csum_ext. intros. apply csum_swap. }
  apply csum_swap.
Qed.
Lemma S2_csum {A} n (l : list A) f : S2 n (fun a b => csum l (fun k => f a b k)) = csum l (fun k => S2 n (fun a b => f a b k)).
Proof. unfold S2. transitivity (csum (ring n) (fun a => csum l (fun k => csum (ring n) (fun b => f a b k)))). { apply csum_ext. intros. apply csum_swap. } apply csum_swap. Qed.
Lemma S2_pick n f a b : (0 <= a < n)%Z -> (0 <= b < n)%Z -> (forall x y, (0 <= x < n)%Z -> (0 <= y < n)%Z -> x <> a \/ y <> b -> f x y = (0, 0)) -> S2 n f = f a b.
Proof.
  intros A B H. unfold S2. rewrite (csum_pick (ring n) a).
  - apply csum_pick; [apply ring_nodup|apply in_ring; auto|]. intros y I N. apply in_ring in I. apply H; auto.
  - apply ring_nodup.
  - apply in_ring; auto.
  - intros x I N. apply csum_zero. intros y J. apply in_ring in I, J. apply H; auto.
Qed.

(* roots of unity *)
Fixpoint cpow (z : C) (n : nat) : C := match n with O => (1, 0) | S n => cmul z (cpow z n) end.
Lemma geometric z : forall n, cmul (csub z (1, 0)) (csum (seq 0 n) (fun a => cpow z a)) = csub (cpow z n) (1, 0).
Proof.
  induction n as [|n IH]; [unfold csum, cmul, csub; cbn [rsum seq fst snd cpow]; f_equal; ring|]. rewrite seq_S, csum_app, csum_cons. cbn [Nat.add]. change (csum [] _) with (0, 0).
  transitivity (cadd (cmul (csub z (1, 0)) (csum (seq 0 n) (fun a => cpow z a))) (cmul (csub z (1, 0)) (cpow z n))); [cr|].
  rewrite IH. cbn [cpow]. cr.
Qed.
Lemma cis_iter t : forall n, cpow (cis t) n = cis (INR n * t).
Proof.
  induction n as [|n IH]; [cbn [cpow INR]; rewrite Rmult_0_l, cis_0; auto|]. cbn [cpow]. rewrite IH, <- cis_add, S_INR. f_equal. ring.
Qed.
Lemma cmul_zero a b : cmul a b = (0, 0) -> a <> (0, 0) -> b = (0, 0).
Proof.
  destruct a as [x y], b as [u v]. unfold cmul. cbn [fst snd]. intros E N. injection E as E1 E2.
  assert (D : x * x + y * y <> 0). { intros H. apply N. destruct (Rplus_sqr_eq_0 x y) as [-> ->]; auto. }
  assert (U : (x * x + y * y) * u = 0). { replace ((x * x + y * y) * u) with (x * (x * u - y * v) + y * (x * v + y * u)) by ring. rewrite E1, E2. ring. }
  assert (V : (x * x + y * y) * v = 0). { replace ((x * x + y * y) * v) with (x * (x * v + y * u) - y * (x * u - y * v)) by ring. rewrite E1, E2. ring. }
  apply Rmult_integral in U, V. f_equal; tauto.
Qed.
Lemma roots n k : (0 < n)%Z -> csum (ring n) (fun a => cis (IZR (a * k) / IZR n)) = if (k mod n =? 0)%Z then (IZR n, 0) else (0, 0).
Proof.
  intros N. assert (NZ : IZR n <> 0) by (apply not_0_IZR; lia). set (t := IZR k / IZR n).
  assert (E : csum (ring n) (fun a => cis (IZR (a * k) / IZR n)) = csum (seq 0 (Z.to_nat n)) (fun a => cpow (cis t) a)).
  { unfold ring. rewrite csum_map. apply csum_ext. intros a _. rewrite cis_iter. f_equal. unfold t. rewrite mult_IZR, INR_IZR_INZ. field. auto. }
  rewrite E. destruct (Z.eqb_spec (k mod n) 0) as [H|H].
  - assert (T : cis t = (1, 0)). { unfold t. rewrite (Z.div_mod k n) by lia. rewrite H, Z.add_0_r, mult_IZR. replace (IZR n * IZR (k / n) / IZR n) with (IZR (k / n)) by (field; auto). apply cis_int. }
    rewrite T. rewrite (csum_ext _ _ (fun _ => (1, 0))).
    + transitivity ((INR (Z.to_nat n), 0) : C); [|rewrite INR_IZR_INZ, Z2Nat.id by lia; auto]. generalize (Z.to_nat n). clear. intros m. generalize 0%nat.
      induction m as [|m IH]; intros s; [reflexivity|]. cbn [seq]. rewrite csum_cons, IH, S_INR. unfold cadd. cbn [fst snd]. f_equal; ring.
    + intros a _. clear. induction a as [|a IH]; cbn [cpow]; auto. rewrite IH. unfold cmul. cbn. f_equal; ring.
  - assert (G := geometric (cis t) (Z.to_nat n)). rewrite cis_iter in G.
    replace (INR (Z.to_nat n) * t) with (IZR k) in G by (rewrite INR_IZR_INZ, Z2Nat.id by lia; unfold t; field; auto). rewrite cis_int in G.
    apply cmul_zero with (csub (cis t) (1, 0)); [rewrite G; unfold csub; cbn; f_equal; ring|].
    intros Z. assert (T : cis t = (1, 0)). { destruct (cis t) as [u v]. unfold csub in Z. cbn [fst snd] in Z. injection Z as Z1 Z2. f_equal; lra. }
    apply cis_one in T. destruct T as [j J]. apply H. assert (K : k = (j * n)%Z). { apply eq_IZR. rewrite mult_IZR. unfold t in J. rewrite <- J. field. auto. }
    rewrite K. apply Z.mod_mul. lia.
Qed.

Lemma zrange_ring n : zrange 0 (n - 1) = ring n.
Proof. unfold zrange, ring. replace (Z.to_nat (n - 1 - 0 + 1)) with (Z.to_nat n) by lia. apply map_ext. intros. lia. Qed.
Lemma csum_list_prod {A B} (l : list A) (m : list B) f : csum (list_prod l m) f = csum l (fun a => csum m (fun b => f (a, b))).
Proof. induction l as [|a l IH]; [reflexivity|]. cbn [list_prod]. rewrite csum_app, csum_map, csum_cons, IH. auto. Qed.
Lemma fft2_sum n m x y : fft2 n m x y = S2 n (fun a b => cmul (m (a * n + b)%Z) (cis (- IZR (a * x + b * y) / IZR n))).
Proof.
  unfold fft2. rewrite zrange_ring. transitivity (fold_right (fun p s => cadd ((fun '(a, b) => cmul (m (a * n + b)%Z) (cis (- IZR (a * x + b * y) / IZR n))) p) s) (0, 0) (list_prod (ring n) (ring n))).
  { apply fold_right_ext. intros [a b] s. auto. }
  rewrite fold_csum, csum_list_prod. auto.
Qed.
Lemma ifft2_sum n m x y : ifft2 n m x y = cscale (/ IZR (n * n)) (S2 n (fun a b => cmul (m (a * n + b)%Z) (cis (IZR (a * x + b * y) / IZR n)))).
Proof.
  unfold ifft2. rewrite zrange_ring. f_equal.
  transitivity (fold_right (fun p s => cadd ((fun '(a, b) => cmul (m (a * n + b)%Z) (cis (IZR (a * x + b * y) / IZR n))) p) s) (0, 0) (list_prod (ring n) (ring n))).
  { apply fold_right_ext. intros [a b] s. unfold cis. unfold Rdiv. rewrite <- Rmult_assoc. auto. }
  rewrite fold_csum, csum_list_prod. auto.
Qed.
Lemma flat_at n f a b : (0 <= b < n)%Z -> flat n f (a * n + b) = f a b.
Proof. intros B. unfold flat. rewrite Z.div_add_l by lia. rewrite Z.div_small by lia. rewrite Z.add_0_r. rewrite Z.add_comm, Z.mod_add, Z.mod_small by lia. auto. Qed.
Lemma frac_add n a b : IZR a / IZR n + IZR b / IZR n = IZR (a + b) / IZR n.
Proof. rewrite plus_IZR. unfold Rdiv. ring. Qed.
Lemma cis_mod n a : (0 < n)%Z -> forall x, cis (IZR (a * (x mod n)) / IZR n) = cis (IZR (a * x) / IZR n).
Proof.
  intros N x. symmetry. apply cis_eq. exists (a * (x / n))%Z. assert (NZ : IZR n <> 0) by (apply not_0_IZR; lia).
  rewrite (Z.div_mod x n) at 1 by lia. rewrite <- (Rmult_1_r (IZR (a * (x / n)))), <- (Rinv_r (IZR n)) by auto. rewrite <- Rmult_assoc. fold (Rdiv (IZR (a * (x / n)) * IZR n) (IZR n)).
  rewrite <- mult_IZR, frac_add. f_equal. f_equal. ring.
Qed.
Lemma roots2 n x y : (0 < n)%Z -> S2 n (fun a b => cis (IZR (a * x + b * y) / IZR n)) = if ((x mod n =? 0) && (y mod n =? 0))%Z then (IZR (n * n), 0) else (0, 0).
Proof.
  intros N. transitivity (cmul (csum (ring n) (fun a => cis (IZR (a * x) / IZR n))) (csum (ring n) (fun b => cis (IZR (b * y) / IZR n)))).
  { rewrite <- S2_prod. apply S2_ext. intros a b _ _. rewrite <- cis_add, frac_add. auto. }
  rewrite !roots by auto. rewrite mult_IZR. destruct (Z.eqb _ 0), (Z.eqb _ 0); cbn [andb]; unfold cmul; cbn [fst snd]; f_equal; ring.
Qed.
Lemma mod_zero_eq n a b : (0 < n)%Z -> (0 <= a < n)%Z -> (0 <= b < n)%Z -> ((a - b) mod n = 0)%Z -> a = b.
Proof. intros N A B H. apply Z.mod_divide in H; [|lia]. destruct H as [k H]. assert (k = 0)%Z by nia. lia. Qed.

(* transforming twice backwards picks the opposite cell *)
Lemma ifft2_twice n h x y : (0 < n)%Z -> (0 <= x < n)%Z -> (0 <= y < n)%Z ->
  ifft2 n (flat n (ifft2 n h)) x y = cscale (/ IZR (n * n)) (h ((- x) mod n * n + (- y) mod n)%Z).
Proof.
  intros N X Y. rewrite ifft2_sum. f_equal. assert (NN : IZR (n * n) <> 0) by (apply not_0_IZR; lia).
  transitivity (S2 n (fun a b => S2 n (fun p q => cmul (cscale (/ IZR (n * n)) (h (p * n + q)%Z)) (cis (IZR (a * (p + x) + b * (q + y)) / IZR n))))).
  { apply S2_ext. intros a b A B. rewrite flat_at by auto. rewrite ifft2_sum, !cscale_mul.
    rewrite <- S2_mul_l, <- S2_mul_r. apply S2_ext. intros p q _ _. rewrite cscale_mul.
    transitivity (cmul (cmul (/ IZR (n * n), 0) (h (p * n + q)%Z)) (cmul (cis (IZR (p * a + q * b) / IZR n)) (cis (IZR (a * x + b * y) / IZR n)))); [cr|].
    rewrite <- cis_add, frac_add. do 3 f_equal. f_equal. ring. }
  rewrite S2_swap.
  transitivity (S2 n (fun p q => cmul (cscale (/ IZR (n * n)) (h (p * n + q)%Z)) (if (((p + x) mod n =? 0) && ((q + y) mod n =? 0))%Z then (IZR (n * n), 0) else (0, 0)))).
  { apply S2_ext. intros p q _ _. rewrite S2_mul_l, roots2 by auto. auto. }
  pose proof (Z.mod_pos_bound (- x) n N) as B1. pose proof (Z.mod_pos_bound (- y) n N) as B2.
  rewrite (S2_pick n _ ((- x) mod n) ((- y) mod n)); auto.
  - rewrite Z.add_mod_idemp_l, Z.add_opp_diag_l, Z.mod_0_l by lia. rewrite Z.add_mod_idemp_l, Z.add_opp_diag_l, Z.mod_0_l by lia. cbn [Z.eqb andb].
    unfold cscale, cmul. cbn [fst snd]. destruct (h _) as [u v]. cbn [fst snd]. f_equal; field; auto.
  - intros p q P Q D. destruct (Z.eqb_spec ((p + x) mod n) 0) as [E1|]; [destruct (Z.eqb_spec ((q + y) mod n) 0) as [E2|]|]; cbn [andb]; try (unfold cmul; cbn [fst snd]; f_equal; ring).
    exfalso. assert (p = (- x) mod n)%Z. { apply mod_zero_eq with n; auto. rewrite Zminus_mod_idemp_r. replace (p - - x)%Z with (p + x)%Z by lia. auto. }
    assert (q = (- y) mod n)%Z. { apply mod_zero_eq with n; auto. rewrite Zminus_mod_idemp_r. replace (q - - y)%Z with (q + y)%Z by lia. auto. }
    tauto.
Qed.
Lemma fft2_neg n m x y : (0 < n)%Z -> cscale (/ IZR (n * n)) (fft2 n m ((- x) mod n) ((- y) mod n)) = ifft2 n m x y.
Proof.
  intros N. rewrite ifft2_sum, fft2_sum. f_equal. apply S2_ext. intros a b _ _. f_equal.
  transitivity (cmul (cis (IZR (- a * ((- x) mod n)) / IZR n)) (cis (IZR (- b * ((- y) mod n)) / IZR n))).
  { rewrite <- cis_add, frac_add. f_equal. f_equal. rewrite <- opp_IZR. f_equal. ring. }
  rewrite !cis_mod by auto. rewrite <- cis_add, frac_add. f_equal. f_equal. f_equal. ring.
Qed.
(* multiplying by a kernel between the transforms multiplies the image *)
Lemma filtered_image n m k x y : (0 < n)%Z -> (0 <= x < n)%Z -> (0 <= y < n)%Z ->
  ifft2 n (flat n (ifft2 n (flat n (fun p q => cmul (fft2 n m p q) (k p q))))) x y = cmul (ifft2 n m x y) (k ((- x) mod n) ((- y) mod n))%Z.
Proof.
  intros N X Y. rewrite ifft2_twice by auto. pose proof (Z.mod_pos_bound (- y) n N). rewrite flat_at by auto.
  rewrite <- fft2_neg by auto. rewrite !cscale_mul. cr.
Qed.
Lemma ifft2_flat_ext n f g x y : (0 < n)%Z -> (forall a b, (0 <= a < n)%Z -> (0 <= b < n)%Z -> f (a * n + b)%Z = g (a * n + b)%Z) -> ifft2 n f x y = ifft2 n g x y.
Proof. intros N H. rewrite !ifft2_sum. f_equal. apply S2_ext. intros a b A B. rewrite H; auto. Qed.
(* inversion and the convolution theorem *)
Lemma ifft_fft n m a b : (0 < n)%Z -> (0 <= a < n)%Z -> (0 <= b < n)%Z -> ifft2 n (flat n (fft2 n m)) a b = m (a * n + b)%Z.
Proof.
  intros N A B. rewrite ifft2_sum. assert (NN : IZR (n * n) <> 0) by (apply not_0_IZR; lia).
  transitivity (cscale (/ IZR (n * n)) (S2 n (fun x y => S2 n (fun p q => cmul (m (p * n + q)%Z) (cis (IZR (x * (a - p) + y * (b - q)) / IZR n)))))).
  { f_equal. apply S2_ext. intros x y X Y. rewrite flat_at by auto. rewrite fft2_sum, <- S2_mul_r. apply S2_ext. intros p q _ _.
    transitivity (cmul (m (p * n + q)%Z) (cmul (cis (- IZR (p * x + q * y) / IZR n)) (cis (IZR (x * a + y * b) / IZR n)))); [cr|].
    f_equal. rewrite <- cis_add. rewrite <- opp_IZR, frac_add. f_equal. f_equal. f_equal. ring. }
  rewrite S2_swap.
  transitivity (cscale (/ IZR (n * n)) (S2 n (fun p q => cmul (m (p * n + q)%Z) (if (((a - p) mod n =? 0) && ((b - q) mod n =? 0))%Z then (IZR (n * n), 0) else (0, 0))))).
  { f_equal. apply S2_ext. intros p q _ _. rewrite S2_mul_l, roots2 by auto. auto. }
  rewrite (S2_pick n _ a b); auto.
  - rewrite !Z.sub_diag, Z.mod_0_l by lia. cbn [Z.eqb andb]. destruct (m _) as [u v]. unfold cscale, cmul. cbn [fst snd]. f_equal; field; auto.
  - intros p q P Q D. destruct (Z.eqb_spec ((a - p) mod n) 0) as [E1|]; [destruct (Z.eqb_spec ((b - q) mod n) 0) as [E2|]|]; cbn [andb]; try (unfold cmul; cbn [fst snd]; f_equal; ring).
    exfalso. apply mod_zero_eq in E1, E2; auto. destruct D; auto.
Qed.
Lemma ring_shift n p f : (0 < n)%Z -> csum (ring n) (fun a => f ((a + p) mod n)%Z) = csum (ring n) f.
Proof.
  intros N. rewrite <- (csum_map (fun a => (a + p) mod n)%Z (ring n) f). apply csum_perm. apply NoDup_Permutation_bis.
  - apply nodup_map_in; [|apply ring_nodup]. intros a b A B E. apply in_ring in A, B. apply mod_zero_eq with n; auto.
    replace (a - b)%Z with ((a + p) - (b + p))%Z by lia. rewrite Zminus_mod, E, Z.sub_diag. apply Z.mod_0_l. lia.
  - rewrite map_length. auto.
  - intros x I. apply in_map_iff in I. destruct I as [a [<- _]]. apply in_ring. apply Z.mod_pos_bound. auto.
Qed.
Lemma fft_circular n a b x y : (0 < n)%Z -> fft2 n (flat n (circular n a b)) x y = cmul (fft2 n a x y) (fft2 n b x y).
Proof.
  intros N. rewrite !fft2_sum. rewrite <- S2_mul_r.
  transitivity (S2 n (fun i j => S2 n (fun p q => cmul (cmul (a (p * n + q)%Z) (b ((i - p) mod n * n + (j - q) mod n)%Z)) (cis (- IZR (i * x + j * y) / IZR n))))).
  { apply S2_ext. intros i j I J. rewrite flat_at by auto. rewrite S2_mul_r. auto. }
  rewrite S2_swap. apply S2_ext. intros p q P Q.
  set (G := fun i j => cmul (b (i * n + j)%Z) (cis (- IZR (i * x + j * y) / IZR n))).
  transitivity (S2 n (fun i j => cmul (cmul (a (p * n + q)%Z) (cis (- IZR (p * x + q * y) / IZR n))) (G ((i + - p) mod n) ((j + - q) mod n))%Z)).
  { apply S2_ext. intros i j I J. unfold G. rewrite !Z.add_opp_r.
    transitivity (cmul (cmul (a (p * n + q)%Z) (b ((i - p) mod n * n + (j - q) mod n)%Z)) (cmul (cis (- IZR (p * x + q * y) / IZR n)) (cis (- IZR ((i - p) mod n * x + (j - q) mod n * y) / IZR n)))); [|cr].
    f_equal. 
    transitivity (cmul (cis (- IZR (p * x + q * y) / IZR n)) (cmul (cis (IZR (- x * ((i - p) mod n)) / IZR n)) (cis (IZR (- y * ((j - q) mod n)) / IZR n)))).
    { rewrite !cis_mod by auto. rewrite <- !cis_add. rewrite <- !opp_IZR, !frac_add. f_equal. f_equal. f_equal. ring. }
    f_equal. rewrite <- cis_add. rewrite <- !opp_IZR, !frac_add. f_equal. f_equal. f_equal. ring. }
  rewrite S2_mul_l. f_equal. unfold S2.
  transitivity (csum (ring n) (fun i => csum (ring n) (fun j => G ((i + - p) mod n)%Z j))).
  { apply csum_ext. intros i _. apply (ring_shift n (- q) (fun j => G ((i + - p) mod n)%Z j)). auto. }
  apply (ring_shift n (- p) (fun i => csum (ring n) (fun j => G i j))). auto.
Qed.
Lemma convolve2d_circular n a b i j : (0 < n)%Z -> (0 <= i < n)%Z -> (0 <= j < n)%Z -> convolve2d n a b (i * n + j)%Z = circular n a b i j.
Proof.
  intros N I J. unfold convolve2d. rewrite flat_at by auto.
  transitivity (ifft2 n (flat n (fft2 n (flat n (circular n a b)))) i j).
  { apply ifft2_flat_ext; auto. intros x y X Y. rewrite !flat_at by auto. symmetry. apply fft_circular. auto. }
  rewrite ifft_fft by auto. apply flat_at. auto.
Qed.
