From Coq Require Import Reals Lra Permutation.
From Verif Require Import Base CleanModel CleanSpec CleanProofs CleanProofs2 GridModel GridSpec GridProofs GridProofs2 GridProps ImgModel ImgSpec ImgProofs ImgProofs2 ImgProofs3 ImgProofs4 ImgProps GeoModel SkyModel SkySpec SkyProofs.
Ltac Zify.zify_post_hook ::= idtac.
Open Scope R_scope.
Local Notation length := List.length.

Lemma S2_real n f (v : Z -> Z -> C) : S2 n (fun a b => cscale (f a b) (v a b)) =
  (rsum (ring n) (fun a => rsum (ring n) (fun b => f a b * fst (v a b))), rsum (ring n) (fun a => rsum (ring n) (fun b => f a b * snd (v a b)))).
Proof. reflexivity. Qed.
Lemma foot_cis n w1 w2 f1 f2 x y : (0 < n)%Z ->
  S2 n (fun a b => cscale (foot2 n w1 w2 f1 f2 a b) (cis (IZR (a * x + b * y) / IZR n))) =
  cscale scale2 (cmul (csum w1 (fun j => cscale (exp (- 2 * ((f1 - IZR j) * (f1 - IZR j)))) (cis (IZR (j * x) / IZR n))))
                      (csum w2 (fun j => cscale (exp (- 2 * ((f2 - IZR j) * (f2 - IZR j)))) (cis (IZR (j * y) / IZR n))))).
Proof.
  intros N. rewrite S2_real. rewrite (foot2_weighted n w1 w2 f1 f2 (fun a b => fst (cis (IZR (a * x + b * y) / IZR n)))) by auto.
  rewrite (foot2_weighted n w1 w2 f1 f2 (fun a b => snd (cis (IZR (a * x + b * y) / IZR n)))) by auto.
  transitivity (csum w1 (fun j1 => csum w2 (fun j2 => cscale (gauss2 (f1 - IZR j1) (f2 - IZR j2)) (cis (IZR (j1 mod n * x + j2 mod n * y) / IZR n))))); [reflexivity|].
  rewrite <- csum_mul_r, <- csum_cscale. apply csum_ext. intros j1 _. rewrite <- csum_mul_l, <- csum_cscale. apply csum_ext. intros j2 _.
  assert (E : cis (IZR (j1 mod n * x + j2 mod n * y) / IZR n) = cmul (cis (IZR (j1 * x) / IZR n)) (cis (IZR (j2 * y) / IZR n))).
  { rewrite <- frac_add, cis_add. rewrite (Z.mul_comm (j1 mod n)), (Z.mul_comm (j2 mod n)), !cis_mod by auto. rewrite (Z.mul_comm j1), (Z.mul_comm j2). auto. }
  rewrite E. unfold gauss2. replace (- 2 * ((f1 - IZR j1) * (f1 - IZR j1) + (f2 - IZR j2) * (f2 - IZR j2)))
    with (- 2 * ((f1 - IZR j1) * (f1 - IZR j1)) + - 2 * ((f2 - IZR j2) * (f2 - IZR j2))) by ring. rewrite exp_plus. fold scale2.
  rewrite !cscale_mul. unfold cmul. cbn [fst snd]. f_equal; ring.
Qed.
Lemma spread_frac W f n x : spread W f (IZR x / IZR n) = csum (W f) (fun j => cscale (exp (- 2 * ((f - IZR j) * (f - IZR j)))) (cis (IZR (j * x) / IZR n))).
Proof.
  unfold spread. apply csum_ext. intros j _. rewrite cscale_mul. unfold times, cmul, turns, cis.
  replace (IZR j * (IZR x / IZR n)) with (IZR (j * x) / IZR n) by (rewrite mult_IZR; unfold Rdiv; ring). reflexivity.
Qed.
Lemma spread_period W f t (k : Z) : spread W f (t + IZR k) = spread W f t.
Proof.
  unfold spread. apply csum_ext. intros j _. f_equal. change (cis (IZR j * (t + IZR k)) = cis (IZR j * t)). apply cis_eq. exists (j * k)%Z. rewrite mult_IZR. ring.
Qed.
Lemma gridded_image W n res uvw data c g x y : (0 < n)%Z -> gridded W n res uvw data c g ->
  ifft2 n g x y = cscale (scale2 / IZR (n * n)) (csum c (fun k => let f := put_at res (nth k uvw (0, 0, 0)) in
    cmul (nth k data (0, 0)) (cmul (spread W (fst f) (IZR x / IZR n)) (spread W (snd f) (IZR y / IZR n))))).
Proof.
  intros N G. rewrite ifft2_sum.
  assert (E : S2 n (fun a b => cmul (g (a * n + b)%Z) (cis (IZR (a * x + b * y) / IZR n))) =
    cscale scale2 (csum c (fun k => let f := put_at res (nth k uvw (0, 0, 0)) in
      cmul (nth k data (0, 0)) (cmul (spread W (fst f) (IZR x / IZR n)) (spread W (snd f) (IZR y / IZR n)))))).
  { transitivity (S2 n (fun a b => csum c (fun k => let f := put_at res (nth k uvw (0, 0, 0)) in
      cmul (nth k data (0, 0)) (cscale (foot2 n (W (fst f)) (W (snd f)) (fst f) (snd f) a b) (cis (IZR (a * x + b * y) / IZR n)))))).
    { apply S2_ext. intros a b A B. rewrite (G a b A B), <- csum_mul_r. apply csum_ext. intros k _. cbv zeta. unfold footprint.
      set (r := foot2 _ _ _ _ _ _ _). unfold cmul, cscale. cbn [fst snd]. f_equal; ring. }
    rewrite S2_csum, <- csum_cscale. apply csum_ext. intros k _. cbv zeta. rewrite S2_mul_l, foot_cis by auto. rewrite !spread_frac.
    rewrite !cscale_mul. set (p := csum _ _). set (q := csum _ _). clearbody p q. cr. }
  rewrite E. rewrite !cscale_mul. set (s := csum _ _). clearbody s. unfold cmul, Rdiv. cbn [fst snd]. f_equal; ring.
Qed.
Lemma ifft2_linear n g h x y : ifft2 n (fun k => cadd (g k) (h k)) x y = cadd (ifft2 n g x y) (ifft2 n h x y).
Proof.
  rewrite !ifft2_sum. transitivity (cscale (/ IZR (n * n)) (cadd (S2 n (fun a b => cmul (g (a * n + b)%Z) (cis (IZR (a * x + b * y) / IZR n))))
    (S2 n (fun a b => cmul (h (a * n + b)%Z) (cis (IZR (a * x + b * y) / IZR n)))))).
  { f_equal. rewrite <- S2_add. apply S2_ext. intros. cr. }
  rewrite !cscale_mul. cr.
Qed.
Lemma ifft2_csum {A} n (l : list A) (g : A -> Z -> C) x y : ifft2 n (fun k => csum l (fun s => g s k)) x y = csum l (fun s => ifft2 n (g s) x y).
Proof.
  rewrite ifft2_sum. transitivity (cscale (/ IZR (n * n)) (csum l (fun s => S2 n (fun a b => cmul (g s (a * n + b)%Z) (cis (IZR (a * x + b * y) / IZR n)))))).
  { f_equal. rewrite <- S2_csum. apply S2_ext. intros a b _ _. rewrite csum_mul_r. auto. }
  rewrite <- csum_cscale. apply csum_ext. intros s _. rewrite ifft2_sum. auto.
Qed.

(* pixels *)
Lemma table_rect {A} n m (f : Z -> Z -> A) : rect n m (table n m f).
Proof.
  split; [unfold table; rewrite map_length, seq_length; auto|]. apply Forall_forall. intros r I. unfold table in I. apply in_map_iff in I.
  destruct I as [i [<- _]]. rewrite map_length, seq_length. auto.
Qed.
Lemma nth_error_seq0 n i : (i < n)%nat -> nth_error (seq 0 n) i = Some i.
Proof. intros I. rewrite (nth_error_nth' _ 0%nat) by (rewrite seq_length; auto). rewrite seq_nth by auto. auto. Qed.
Lemma table_at {A} n m (f : Z -> Z -> A) i j : (i < n)%nat -> (j < m)%nat -> at2 (table n m f) i j = Some (f (Z.of_nat i) (Z.of_nat j)).
Proof.
  intros I J. unfold at2, table. rewrite nth_error_map, nth_error_seq0 by auto. cbn [option_map]. rewrite nth_error_map, nth_error_seq0 by auto. auto.
Qed.
Lemma recentred {A} n m (f : Z -> Z -> A) k0 k1 : (0 < n)%nat -> (0 < m)%nat -> exists t, recenter n m (table n m f) k0 k1 = Ok t /\ rect n m t /\
  forall i j, (i < n)%nat -> (j < m)%nat -> at2 t i j = Some (f ((Z.of_nat i + k0) mod Z.of_nat n) ((Z.of_nat j + k1) mod Z.of_nat m))%Z.
Proof.
  intros N M. destruct (C33_recenter n m (table n m f) k0 k1 (table_rect n m f) N M) as [t [E [R [H _]]]]. exists t. split; auto. split; auto.
  intros i j I J. rewrite H by auto. pose proof (Z.mod_pos_bound (Z.of_nat i + k0) (Z.of_nat n) ltac:(lia)). pose proof (Z.mod_pos_bound (Z.of_nat j + k1) (Z.of_nat m) ltac:(lia)).
  rewrite table_at by lia. rewrite !Z2Nat.id by lia. auto.
Qed.
Definition rep (n i : Z) : Z := if (i >? n / 2)%Z then (i - n)%Z else i.
Lemma rep_signed n i : (0 < n)%Z -> signed n i (rep n (i mod n)).
Proof.
  intros N. pose proof (Z.mod_pos_bound i n N). pose proof (Z.div_mod i n ltac:(lia)). pose proof (Z.div_mod n 2 ltac:(lia)). pose proof (Z.mod_pos_bound n 2 ltac:(lia)).
  unfold rep. destruct (Z.gtb_spec (i mod n) (n / 2)); (split; [|lia]); [exists (i / n + 1)%Z|exists (i / n)%Z]; nia.
Qed.
Lemma signed_unique n i a b : (0 < n)%Z -> signed n i a -> signed n i b -> a = b.
Proof. intros N [[k K] A] [[l L] B]. assert (E : (a - b = (l - k) * n)%Z) by lia. assert (l - k = 0)%Z by nia. nia. Qed.
Lemma pixel_rep n res i j : pixel_lm n res i j = (- IZR (rep n j) / IZR n / res, IZR (rep n i) / IZR n / res,
  if Rle_dec 1 (- IZR (rep n j) / IZR n / res * (- IZR (rep n j) / IZR n / res) + IZR (rep n i) / IZR n / res * (IZR (rep n i) / IZR n / res)) then true else false).
Proof.
  unfold pixel_lm, rep. destruct (j >? n / 2)%Z; rewrite <- opp_IZR; [replace (- (j - n))%Z with (n - j)%Z by lia|]; reflexivity.
Qed.
Lemma pixel_shows n res c0 c1 i j l m : (0 < n)%Z -> res <> 0 -> shows n res c0 c1 i j l m ->
  pixel_lm n res ((i + c0) mod n) ((j + c1) mod n) = (l, m, if Rle_dec 1 (l * l + m * m) then true else false) /\
  (forall (a : Z), cis (IZR (a * ((i + c0) mod n)) / IZR n) = cis (IZR a * (res * m))) /\
  (forall (a : Z), cis (IZR (a * ((j + c1) mod n)) / IZR n) = cis (IZR a * - (res * l))) /\
  (exists k : Z, IZR ((i + c0) mod n) / IZR n = res * m + IZR k) /\ (exists k : Z, IZR ((j + c1) mod n) / IZR n = - (res * l) + IZR k).
Proof.
  intros N RZ [a [b [A [B [-> ->]]]]]. assert (NZ : IZR n <> 0) by (apply not_0_IZR; lia).
  assert (K0 : exists k : Z, IZR ((i + c0) mod n) / IZR n = res * (IZR a / (IZR n * res)) + IZR k).
  { destruct A as [[k K] _]. exists (k - (i + c0) / n)%Z. rewrite Z.mod_eq by lia. rewrite !minus_IZR, mult_IZR. replace (IZR (i + c0)) with (IZR a + IZR k * IZR n) by (rewrite K, plus_IZR, mult_IZR; auto). field. auto. }
  assert (K1 : exists k : Z, IZR ((j + c1) mod n) / IZR n = - (res * (- IZR b / (IZR n * res))) + IZR k).
  { destruct B as [[k K] _]. exists (k - (j + c1) / n)%Z. rewrite Z.mod_eq by lia. rewrite !minus_IZR, mult_IZR. replace (IZR (j + c1)) with (IZR b + IZR k * IZR n) by (rewrite K, plus_IZR, mult_IZR; auto). field. auto. }
  split; [|split; [|split; [|split; auto]]].
  - rewrite pixel_rep. rewrite (signed_unique n (i + c0) _ a N (rep_signed n (i + c0) N) A), (signed_unique n (j + c1) _ b N (rep_signed n (j + c1) N) B).
    replace (- IZR b / IZR n / res) with (- IZR b / (IZR n * res)) by (field; auto). replace (IZR a / IZR n / res) with (IZR a / (IZR n * res)) by (field; auto). auto.
  - intros q. apply cis_eq. destruct K0 as [k K]. exists (q * k)%Z. rewrite !mult_IZR. unfold Rdiv at 1. rewrite Rmult_assoc. fold (Rdiv (IZR ((i + c0) mod n)) (IZR n)). rewrite K. ring.
  - intros q. apply cis_eq. destruct K1 as [k K]. exists (q * k)%Z. rewrite !mult_IZR. unfold Rdiv at 1. rewrite Rmult_assoc. fold (Rdiv (IZR ((j + c1) mod n)) (IZR n)). rewrite K. ring.
Qed.
Lemma shows_some n res c0 c1 i j : (0 < n)%Z -> exists l m, shows n res c0 c1 i j l m.
Proof.
  intros N. do 2 eexists. exists (rep n ((i + c0) mod n)), (rep n ((j + c1) mod n)). split; [apply rep_signed; auto|]. split; [apply rep_signed; auto|]. split; reflexivity.
Qed.

(* the taper *)
Lemma taper_pos t : 0 < taper t.
Proof.
  unfold taper. assert (E2 : exp (-2) < 1 / 5).
  { assert (H : exp (-2) * exp 2 = 1) by (rewrite <- exp_plus; replace (-2 + 2) with 0 by ring; apply exp_0).
    assert (H2 : 5.5 <= exp 2). { replace 2 with (1 + 1) by ring. rewrite exp_plus. assert (H1 : 1 + 1 / 4 <= exp (1 / 4)) by (left; apply exp_ineq1; lra).
      assert (H4 : exp 1 = exp (1 / 4) * exp (1 / 4) * exp (1 / 4) * exp (1 / 4)) by (rewrite <- !exp_plus; f_equal; field).
      assert (H5 : 1.25 * 1.25 <= exp (1/4) * exp (1/4)) by (apply Rmult_le_compat; lra).
      assert (H6 : 2.4 <= exp 1). { rewrite H4, Rmult_assoc. assert (1.5625 * 1.5625 <= exp (1 / 4) * exp (1 / 4) * (exp (1 / 4) * exp (1 / 4))) by (apply Rmult_le_compat; lra). lra. }
      assert (2.4 * 2.4 <= exp 1 * exp 1) by (apply Rmult_le_compat; lra). lra. }
    pose proof (exp_pos (-2)). assert (exp (-2) * 5.5 <= exp (-2) * exp 2) by (apply Rmult_le_compat_l; lra). lra. }
  assert (P2 := exp_pos (-2)). assert (E8 : exp (-8) <= exp (-2) * (1 / 5)). { replace (-8) with (-2 + (-6)) by ring. rewrite exp_plus. apply Rmult_le_compat_l; [lra|]. left. eapply Rlt_trans; [|exact E2]. apply exp_increasing. lra. }
  assert (E18 : exp (-18) <= exp (-2) * (1 / 5)). { replace (-18) with (-2 + (-16)) by ring. rewrite exp_plus. apply Rmult_le_compat_l; [lra|]. left. eapply Rlt_trans; [|exact E2]. apply exp_increasing. lra. }
  assert (P8 := exp_pos (-8)). assert (P18 := exp_pos (-18)).
  assert (B : forall x e, 0 < e -> - e <= e * cos x). { intros x e E. pose proof (COS_bound x) as [Q _]. assert (e * -1 <= e * cos x) by (apply Rmult_le_compat_l; lra). lra. }
  pose proof (B (2 * PI * t) _ P2). pose proof (B (2 * PI * (2 * t)) _ P8). pose proof (B (2 * PI * (3 * t)) _ P18). lra.
Qed.
Lemma window_int (W : R -> list Z) (a : Z) : is_window (IZR a) 3 (W (IZR a)) -> Permutation (W (IZR a)) (map (fun d => a + d)%Z [0; 1; -1; 2; -2; 3; -3]%Z).
Proof.
  intros H. apply (window_perm (IZR a) 3); auto. split.
  - apply FinFun.Injective_map_NoDup; [intros x y E; lia|]. repeat constructor; cbn; lia.
  - intros j. rewrite in_map_iff. unfold in_window. split.
    + intros [d [<- I]]. cbn [In] in I. rewrite plus_IZR. repeat (destruct I as [<-|I]; [lra|]). destruct I.
    + intros [A B]. assert (LO : (a - 4 < j)%Z) by (apply lt_IZR; rewrite minus_IZR; lra). assert (HI : (j < a + 4)%Z) by (apply lt_IZR; rewrite plus_IZR; lra).
      exists (j - a)%Z. split; [lia|]. assert (D : (j - a = 0 \/ j - a = 1 \/ j - a = -1 \/ j - a = 2 \/ j - a = -2 \/ j - a = 3 \/ j - a = -3)%Z) by lia. cbn [In]. lia.
Qed.
Lemma spread_int W (a : Z) t : is_window (IZR a) 3 (W (IZR a)) -> spread W (IZR a) t = cscale (taper t) (cis (IZR a * t)).
Proof.
  intros H. unfold spread. rewrite (csum_perm _ _ _ (window_int W a H)). rewrite csum_map.
  assert (E : forall d : Z, times (exp (- 2 * ((IZR a - IZR (a + d)) * (IZR a - IZR (a + d)))), 0) (turns (IZR (a + d) * t)) =
    cscale (exp (- 2 * (IZR d * IZR d))) (cmul (cis (IZR a * t)) (cis (IZR d * t)))).
  { intros d. rewrite <- cis_add, cscale_mul. rewrite plus_IZR. replace ((IZR a - (IZR a + IZR d)) * (IZR a - (IZR a + IZR d))) with (IZR d * IZR d) by ring.
    replace ((IZR a + IZR d) * t) with (IZR a * t + IZR d * t) by ring. reflexivity. }
  rewrite (csum_ext _ _ (fun d => cscale (exp (- 2 * (IZR d * IZR d))) (cmul (cis (IZR a * t)) (cis (IZR d * t))))) by (intros; apply E).
  rewrite !csum_cons. change (csum [] _) with ((0, 0) : C). replace (0 * t) with 0 by ring. rewrite cis_0.
  replace (- 2 * (0 * 0)) with 0 by ring. rewrite exp_0.
  replace (- 2 * (1 * 1)) with (-2) by ring. replace (- 2 * (-1 * -1)) with (-2) by ring. replace (- 2 * (2 * 2)) with (-8) by ring.
  replace (- 2 * (-2 * -2)) with (-8) by ring. replace (- 2 * (3 * 3)) with (-18) by ring. replace (- 2 * (-3 * -3)) with (-18) by ring.
  replace (1 * t) with t by ring. replace (-1 * t) with (- t) by ring. replace (-2 * t) with (- (2 * t)) by ring. replace (-3 * t) with (- (3 * t)) by ring.
  assert (N : forall x, cis (- x) = cconj (cis x)). { intros x. unfold cis, cconj. cbn [fst snd]. replace (2 * PI * - x) with (- (2 * PI * x)) by ring. rewrite cos_neg, sin_neg. auto. }
  rewrite !N. unfold taper. set (z := cis (IZR a * t)). unfold cis. 
  set (c1 := cos (2 * PI * t)). set (s1 := sin (2 * PI * t)). set (c2 := cos (2 * PI * (2 * t))). set (s2 := sin (2 * PI * (2 * t))). set (c3 := cos (2 * PI * (3 * t))). set (s3 := sin (2 * PI * (3 * t))).
  unfold cscale, cmul, cadd, cconj. cbn [fst snd]. f_equal; ring.
Qed.

(* samples seen in a pixel *)
Definition seen (W : R -> list Z) (res : R) (p : R * R * R) (l m : R) : C := let f := put_at res p in cmul (spread W (fst f) (res * m)) (spread W (snd f) (- (res * l))).
Lemma pixel_image W n res uvw data c g c0 c1 i j l m : (0 < n)%Z -> res <> 0 -> gridded W n res uvw data c g -> shows n res c0 c1 i j l m ->
  ifft2 n g ((i + c0) mod n) ((j + c1) mod n) = cscale (scale2 / IZR (n * n)) (csum c (fun k => cmul (nth k data (0, 0)) (seen W res (nth k uvw (0, 0, 0)) l m))).
Proof.
  intros N RZ G S. rewrite (gridded_image W n res uvw data c g _ _ N G). f_equal. apply csum_ext. intros k _. cbv zeta. f_equal. unfold seen. cbv zeta.
  destruct (pixel_shows n res c0 c1 i j l m N RZ S) as [_ [_ [_ [[k0 K0] [k1 K1]]]]]. rewrite K0, K1, !spread_period. auto.
Qed.
Lemma seen_grid W res p l m : windows 3 W -> res <> 0 -> on_grid res p -> seen W res p l m = cscale (taper (res * m) * taper (res * l)) (cis (- path p l m)).
Proof.
  intros HW RZ [a [b [A B]]]. destruct p as [[u v] w]. cbn [fst snd] in A, B. subst u v. unfold seen, put_at, path. cbn [fst snd].
  replace (- (res * IZR b) / res) with (IZR (- b)) by (rewrite opp_IZR; field; auto). replace (res * IZR a / res) with (IZR a) by (field; auto).
  rewrite !spread_int by apply HW. replace (taper (- (res * l))) with (taper (res * l)).
  2: { unfold taper. replace (2 * PI * - (res * l)) with (- (2 * PI * (res * l))) by ring. replace (2 * PI * (2 * - (res * l))) with (- (2 * PI * (2 * (res * l)))) by ring.
       replace (2 * PI * (3 * - (res * l))) with (- (2 * PI * (3 * (res * l)))) by ring. rewrite !cos_neg. auto. }
  replace (- (res * IZR a * l + res * IZR b * m)) with (IZR (- b) * (res * m) + IZR a * - (res * l)) by (rewrite opp_IZR; ring). rewrite cis_add.
  rewrite !cscale_mul. set (z := cis _). set (y := cis _). clearbody z y. unfold cmul. cbn [fst snd]. f_equal; ring.
Qed.
Lemma csum_fst {A} (l : list A) f : fst (csum l f) = rsum l (fun k => fst (f k)).
Proof. reflexivity. Qed.
Lemma take_all {A} (d : A) l : take d (seq 0 (length l)) l = l.
Proof.
  unfold take. apply (nth_ext _ _ d d); [rewrite map_length, seq_length; auto|]. intros k K. rewrite map_length, seq_length in K.
  rewrite (nth_indep _ d ((fun i => nth i l d) 0%nat)) by (rewrite map_length, seq_length; auto). rewrite (map_nth (fun i => nth i l d)). rewrite seq_nth by auto. auto.
Qed.
Lemma put_inv im uvw data w im' : put im uvw data w = Ok im' ->
  i_n im' = i_n im /\ i_res im' = i_res im /\ grid (i_n im) (map (fun '(u, v, _) => get_indices (i_res im) u v) uvw) data (i_uv im) = Ok (i_uv im') /\ length data = length uvw.
Proof.
  unfold put. destruct (norm_wgts _ _ _) as [ws|]; cbn [bind]; [|discriminate]. unfold put_on. cbn [fst snd].
  destruct (grid _ _ _ _) as [g|] eqn:G; cbn [bind]; [|discriminate]. destruct (grid_all _ _ _ _); cbn [bind]; [|discriminate].
  intros E. injection E as <-. cbn [i_n i_res i_uv]. split; [auto|]. split; [auto|]. split; auto.
  unfold grid in G. rewrite map_length in G. destruct (Nat.eqb_spec (length uvw) (length data)); [auto|discriminate].
Qed.
Lemma perm_T6 W : windows 3 W -> forall f, Permutation (T6 f) (W f).
Proof. intros HW f. eapply window_perm; [apply (taps_window f 6)|apply HW]. Qed.
Lemma put_uv W im uvw data w im' : windows 3 W -> (0 < i_n im)%Z -> put im uvw data w = Ok im' ->
  length data = length uvw /\ i_n im' = i_n im /\ i_res im' = i_res im /\ exists g, gridded W (i_n im) (i_res im) uvw data (seq 0 (length uvw)) g /\
  forall a b, (0 <= a < i_n im)%Z -> (0 <= b < i_n im)%Z -> i_uv im' (a * i_n im + b)%Z = cadd (i_uv im (a * i_n im + b)%Z) (g (a * i_n im + b)%Z).
Proof.
  intros HW N P. destruct (put_inv _ _ _ _ _ P) as [E1 [E2 [G L]]]. split; [auto|]. split; [auto|]. split; [auto|].
  set (c := seq 0 (length uvw)).
  exists (fun k => csum c (fun s => cscale (footprint W (i_n im) (put_at (i_res im) (nth s uvw (0, 0, 0))) (k / i_n im) (k mod i_n im)) (nth s data (0, 0)))).
  assert (D : forall a b, (0 <= b < i_n im)%Z -> ((a * i_n im + b) / i_n im = a /\ (a * i_n im + b) mod i_n im = b)%Z).
  { intros a b B. rewrite Z.add_comm, Z.div_add, Z.mod_add by lia. rewrite Z.div_small, Z.mod_small by lia. auto. }
  split.
  - intros a b A B. destruct (D a b B) as [-> ->]. reflexivity.
  - intros a b A B. destruct (D a b B) as [-> ->]. destruct (put_grid (i_n im) (i_res im) uvw data c (i_uv im) N) as (g & EG & H).
    unfold c in EG. rewrite take_all in EG. rewrite <- L in EG. rewrite take_all in EG. rewrite G in EG. injection EG as <-. rewrite (H a b A B). f_equal.
    apply csum_ext. intros k _. unfold footprint. f_equal. apply foot2_perm; apply perm_T6; auto.
Qed.
Lemma ifft2_cells n g h x y : (forall a b, (0 <= a < n)%Z -> (0 <= b < n)%Z -> g (a * n + b)%Z = h (a * n + b)%Z) -> ifft2 n g x y = ifft2 n h x y.
Proof. intros E. rewrite !ifft2_sum. f_equal. apply S2_ext. intros a b A B. rewrite E by auto. auto. Qed.
Lemma image_at im c0 c1 : (0 < i_n im)%Z -> exists t, image im c0 c1 = Ok t /\ rect (Z.to_nat (i_n im)) (Z.to_nat (i_n im)) t /\
  forall i j, (i < Z.to_nat (i_n im))%nat -> (j < Z.to_nat (i_n im))%nat ->
  at2 t i j = Some (fst (ifft2 (i_n im) (i_uv im) ((Z.of_nat i + c0) mod i_n im) ((Z.of_nat j + c1) mod i_n im))).
Proof.
  intros N. unfold image, gen_img. destruct (recentred (Z.to_nat (i_n im)) (Z.to_nat (i_n im)) (fun x y => fst (ifft2 (i_n im) (i_uv im) x y)) c0 c1 ltac:(lia) ltac:(lia)) as [t [E [R H]]].
  exists t. split; auto. split; auto. intros i j I J. rewrite (H i j I J). rewrite Z2Nat.id by lia. auto.
Qed.
