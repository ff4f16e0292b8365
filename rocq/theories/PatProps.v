(* C53: beam patterns and pointing. *)
From Coq Require Import Reals Lra Nsatz.
From Verif Require Import Base CleanModel ImgModel GeoModel GeoSpec GeoProofs ArrModel ArrSpec ArrProofs ArrProps PatModel.
Ltac Zify.zify_post_hook ::= idtac.
Open Scope R_scope.
Local Notation length := List.length.
(* a real response between 0 and 1 *)
Definition tame (z : C) : Prop := 0 < fst z <= 1 /\ snd z = 0.
Lemma sqrt_exp_tame x : x <= 0 -> 0 < sqrt (exp x) <= 1.
Proof.
  intros H. pose proof (exp_pos x). split; [apply sqrt_lt_R0; auto|]. rewrite <- sqrt_1. apply sqrt_le_1; [lra|lra|].
  destruct (Req_dec x 0) as [->|]; [rewrite exp_0; lra|]. rewrite <- exp_0. left. apply exp_increasing. lra.
Qed.
Lemma asin_le a b : -1 <= a -> a <= b -> b <= 1 -> asin a <= asin b.
Proof.
  intros A L B. destruct (Rle_lt_dec (asin a) (asin b)) as [|H]; auto. exfalso. pose proof (asin_bound a). pose proof (asin_bound b).
  assert (S : sin (asin b) < sin (asin a)) by (apply sin_increasing_1; lra). rewrite !sin_asin in S by lra. lra.
Qed.
Theorem C53_bounded : forall f v, tame (flat_pat f v) /\ (forall xw yw, tame (gauss_pat xw yw f v)) /\ (forall poly, tame (poly_pat poly f v)).
Proof.
  intros f v. unfold tame. split; [cbn; lra|]. split.
  - intros xw yw. unfold gauss_pat. destruct v as [[x y] z]. cbn [fst snd]. split; auto. apply sqrt_exp_tame. pose proof (pow2_ge_0 (over (asin x) xw)). pose proof (pow2_ge_0 (over (asin y) yw)). lra.
  - intros poly. unfold poly_pat. destruct (top2azalt v) as [az alt]. cbn [fst snd]. split; auto. apply sqrt_exp_tame. pose proof (pow2_ge_0 ((PI / 2 - alt) / harmonics poly f az 0)). lra.
Qed.
(* 1 at the zenith *)
Theorem C53_zenith : forall f, flat_pat f (0, 0, 1) = (1, 0) /\ (forall xw yw, gauss_pat xw yw f (0, 0, 1) = (1, 0)) /\ (forall poly, poly_pat poly f (0, 0, 1) = (1, 0)).
Proof.
  intros f. split; [reflexivity|]. assert (E : sqrt (exp 0) = 1) by (rewrite exp_0; apply sqrt_1). split.
  - intros xw yw. cbn. rewrite asin_0. f_equal. rewrite <- E. f_equal. f_equal. destruct xw, yw; cbn; unfold Rdiv; ring.
  - intros poly. unfold poly_pat. destruct (top2azalt (0, 0, 1)) as [az alt] eqn:T. assert (alt = PI / 2) as ->.
    { unfold top2azalt in T. destruct (xyz2thphi (0, 0, 1)) as [th phi] eqn:X. pose proof (pole_xyz 0) as [Z _]. replace (thphi2xyz (0, 0)) with ((0, 0, 1) : vec) in Z.
      2:{ unfold thphi2xyz. rewrite cos_0, sin_0. vec_eq; ring. } rewrite X in Z. assert (Z0 : th = 0) by congruence. rewrite Z0 in T. assert (PI / 2 - 0 = alt) by congruence. lra. }
    rewrite <- E. f_equal. f_equal. f_equal. unfold Rdiv. ring.
Qed.
(* the Gaussian: the same east and west, north and south; falling with distance from the axes; its square,
   the power pattern, has fallen to exp(-1/2) at the given width *)
Theorem C53_gauss : forall xw yw f x y z,
  gauss_pat xw yw f (- x, y, z) = gauss_pat xw yw f (x, y, z) /\ gauss_pat xw yw f (x, - y, z) = gauss_pat xw yw f (x, y, z) /\
  (forall x', -1 <= x <= 1 -> -1 <= x' <= 1 -> Rabs x <= Rabs x' -> fst (gauss_pat xw yw f (x', y, z)) <= fst (gauss_pat xw yw f (x, y, z))) /\
  (forall w, 0 < w < PI / 2 -> modulus2 (gauss_pat (Some w) yw f (sin w, 0, cos w)) = exp (- (1 / 2))) /\
  (forall w, 0 < w < PI / 2 -> modulus2 (gauss_pat xw (Some w) f (0, sin w, cos w)) = exp (- (1 / 2))).
Proof.
  intros xw yw f x y z. assert (O : forall a w, over (- a) w ^ 2 = over a w ^ 2) by (intros a [w|]; cbn; unfold Rdiv; ring).
  split; [|split; [|split; [|split]]].
  - cbn [gauss_pat]. rewrite asin_opp, O. auto.
  - cbn [gauss_pat]. rewrite asin_opp, O. auto.
  - intros x' Hx Hx' L. cbn [gauss_pat fst]. apply sqrt_le_1; try (left; apply exp_pos).
    assert (A : forall u, -1 <= u <= 1 -> over (asin u) xw ^ 2 = over (asin (Rabs u)) xw ^ 2).
    { intros u Hu. unfold Rabs. destruct (Rcase_abs u); auto. rewrite asin_opp, O. auto. }
    rewrite (A x), (A x') by auto. assert (B : over (asin (Rabs x)) xw ^ 2 <= over (asin (Rabs x')) xw ^ 2).
    { assert (0 <= Rabs x) by apply Rabs_pos. assert (Rabs x' <= 1) by (apply Rabs_le; lra).
      assert (P : 0 <= asin (Rabs x) <= asin (Rabs x')).
      { split; [rewrite <- asin_0|]; apply asin_le; lra. }
      destruct xw as [w|]; cbn [over]; [|lra]. unfold Rdiv. rewrite !Rpow_mult_distr. apply Rmult_le_compat_r; [apply pow2_ge_0|]. apply pow_incr. auto. }
    match goal with |- exp ?a <= exp ?b => destruct (Req_dec a b) as [->|]; [lra|]; left; apply exp_increasing; lra end.
  - intros w Hw. cbn [gauss_pat]. rewrite asin_sin, asin_0 by lra. unfold modulus2. cbn [fst snd over]. rewrite sqrt_def by (left; apply exp_pos). rewrite Rmult_0_r, Rplus_0_r. f_equal.
    replace (over 0 yw) with 0 by (destruct yw; cbn; unfold Rdiv; ring). field. lra.
  - intros w Hw. cbn [gauss_pat]. rewrite asin_sin, asin_0 by lra. unfold modulus2. cbn [fst snd over]. rewrite sqrt_def by (left; apply exp_pos). rewrite Rmult_0_r, Rplus_0_r. f_equal.
    replace (over 0 xw) with 0 by (destruct xw; cbn; unfold Rdiv; ring). field. lra.
Qed.

(* the polynomial beam: the same in opposite directions; falling with the angle from the zenith; its square
   has fallen to exp(-1) at the angle that the polynomial gives for that azimuth and frequency *)
Lemma opposite v az alt az' alt' : let '(x, y, z) := v in (x, y) <> (0, 0) -> top2azalt v = (az, alt) -> top2azalt (- x, - y, z) = (az', alt') ->
  alt' = alt /\ cos az' = - cos az /\ sin az' = - sin az.
Proof.
  destruct v as [[x y] z]. intros N T T'.
  assert (N1 : ((x, y, z) : vec) <> (0, 0, 0)) by (intros Q; apply N; congruence).
  assert (N2 : ((- x, - y, z) : vec) <> (0, 0, 0)) by (intros Q; apply N; assert (- x = 0) by congruence; assert (- y = 0) by congruence; f_equal; lra).
  pose proof (top_azalt _ N1) as A. pose proof (top_azalt _ N2) as A'. rewrite T in A. rewrite T' in A'.
  assert (Na : norm (- x, - y, z) = norm (x, y, z)) by (unfold norm; f_equal; cbn; ring). rewrite Na in A'. set (k := / norm (x, y, z)) in *.
  assert (Al : alt' = alt).
  { unfold top2azalt in T, T'. unfold xyz2thphi in T, T'. replace (- x * - x + - y * - y) with (x * x + y * y) in T' by ring. congruence. }
  split; auto. subst alt'. unfold azalt2top, thphi2xyz in A, A'. rewrite !sin_shift, !cos_shift in A, A'.
  assert (E1 : cos alt * sin az = k * x) by (cbn in A; congruence). assert (E2 : cos alt * cos az = k * y) by (cbn in A; congruence).
  assert (F1 : cos alt * sin az' = k * (- x)) by (cbn in A'; congruence). assert (F2 : cos alt * cos az' = k * (- y)) by (cbn in A'; congruence).
  assert (K : k <> 0) by (unfold k; apply Rinv_neq_0_compat; pose proof (norm_pos _ N1); lra).
  assert (Ca : cos alt <> 0). { intros Z. rewrite Z in E1, E2. apply N. f_equal; apply (Rmult_eq_reg_l k); auto; lra. }
  split; apply (Rmult_eq_reg_l (cos alt)); auto; lra.
Qed.
Lemma cos_even a b n : cos b = - cos a -> sin b = - sin a -> cos (b * (2 * INR n)) = cos (a * (2 * INR n)) /\ sin (b * (2 * INR n)) = sin (a * (2 * INR n)).
Proof.
  intros Hc Hs. induction n as [|n [I1 I2]]; [cbn [INR]; rewrite !Rmult_0_r; auto|]. rewrite S_INR.
  replace (b * (2 * (INR n + 1))) with (b * (2 * INR n) + 2 * b) by ring. replace (a * (2 * (INR n + 1))) with (a * (2 * INR n) + 2 * a) by ring.
  rewrite !cos_plus, !sin_plus, !cos_2a, !sin_2a, I1, I2, Hc, Hs. split; ring.
Qed.
Lemma harmonics_ext rows f a b n : (forall k, cos (b * (2 * INR k)) = cos (a * (2 * INR k))) -> harmonics rows f b n = harmonics rows f a n.
Proof. intros H. revert n. induction rows as [|row r IH]; intros n; cbn [harmonics]; auto. rewrite IH. destruct n; auto. rewrite H. auto. Qed.
(* the width of a polynomial beam: a cosine series in azimuth whose coefficients are polynomials in frequency *)
Definition width (poly : list (list R)) (f az : R) : R :=
  fold_right Rplus 0 (map (fun n => (if Nat.eqb n 0 then 1 / 2 else cos (2 * INR n * az)) *
    fold_right Rplus 0 (map (fun k => nth k (nth n poly []) 0 * f ^ k) (seq 0 (length (nth n poly []))))) (seq 0 (length poly))).
Lemma powers_sum cs f : forall k, powers cs f k = fold_right Rplus 0 (map (fun i => nth (i - k) cs 0 * f ^ i) (seq k (length cs))).
Proof.
  induction cs as [|c r IH]; intros k; cbn [powers length seq map fold_right]; auto. rewrite IH. rewrite Nat.sub_diag. cbn [nth]. f_equal. f_equal.
  apply map_ext_in. intros i I. apply in_seq in I. replace (i - k)%nat with (S (i - S k)) by lia. auto.
Qed.
Lemma harmonics_sum poly f az : forall n, harmonics poly f az n =
  fold_right Rplus 0 (map (fun i => (if Nat.eqb i 0 then 1 / 2 else cos (2 * INR i * az)) *
    fold_right Rplus 0 (map (fun k => nth k (nth (i - n) poly []) 0 * f ^ k) (seq 0 (length (nth (i - n) poly []))))) (seq n (length poly))).
Proof.
  induction poly as [|row r IH]; intros n; cbn [harmonics length seq map fold_right]; auto. rewrite IH, powers_sum. rewrite Nat.sub_diag. cbn [nth]. f_equal.
  - f_equal; [destruct n; auto; cbn [Nat.eqb]; f_equal; ring|]. f_equal. apply map_ext. intros k. rewrite Nat.sub_0_r. auto.
  - f_equal. apply map_ext_in. intros i I. apply in_seq in I. replace (i - n)%nat with (S (i - S n)) by lia. auto.
Qed.
Lemma harmonics_width poly f az : harmonics poly f az 0 = width poly f az.
Proof. rewrite harmonics_sum. unfold width. f_equal. apply map_ext. intros n. rewrite Nat.sub_0_r. auto. Qed.
Theorem C53_poly : forall poly f,
  (forall az alt, 0 <= az < 2 * PI -> - (PI / 2) < alt < PI / 2 ->
     poly_pat poly f (azalt2top (az, alt)) = (sqrt (exp (- ((PI / 2 - alt) / width poly f az) ^ 2)), 0)) /\
  (forall x y z, poly_pat poly f (- x, - y, z) = poly_pat poly f (x, y, z)) /\
  (forall az alt alt', - (PI / 2) < alt -> alt <= alt' -> alt' < PI / 2 -> 0 <= az < 2 * PI ->
     fst (poly_pat poly f (azalt2top (az, alt))) <= fst (poly_pat poly f (azalt2top (az, alt')))) /\
  (forall az, 0 <= az < 2 * PI -> let s := width poly f az in 0 < s < PI -> modulus2 (poly_pat poly f (azalt2top (az, PI / 2 - s))) = exp (-1)).
Proof.
  intros poly f. split; [|split; [|split]].
  - intros az alt A B. unfold poly_pat. rewrite azalt_top by lra. rewrite harmonics_width. auto.
  - intros x y z. destruct (Req_dec x 0) as [X|X]; [destruct (Req_dec y 0) as [Y|Y]|].
    + subst. rewrite Ropp_0. auto.
    + assert (N : (x, y) <> (0, 0)) by congruence. unfold poly_pat. destruct (top2azalt (x, y, z)) as [az alt] eqn:T. destruct (top2azalt (- x, - y, z)) as [az' alt'] eqn:T'.
      destruct (opposite (x, y, z) az alt az' alt' N T T') as [-> [Hc Hs]]. rewrite (harmonics_ext poly f az az'); auto. intros k. apply cos_even; auto.
    + assert (N : (x, y) <> (0, 0)) by congruence. unfold poly_pat. destruct (top2azalt (x, y, z)) as [az alt] eqn:T. destruct (top2azalt (- x, - y, z)) as [az' alt'] eqn:T'.
      destruct (opposite (x, y, z) az alt az' alt' N T T') as [-> [Hc Hs]]. rewrite (harmonics_ext poly f az az'); auto. intros k. apply cos_even; auto.
  - intros az alt alt' A B D Z. unfold poly_pat. rewrite !azalt_top by lra. cbn [fst]. apply sqrt_le_1; try (left; apply exp_pos).
    assert (L : ((PI / 2 - alt') / harmonics poly f az 0) ^ 2 <= ((PI / 2 - alt) / harmonics poly f az 0) ^ 2).
    { unfold Rdiv. rewrite !Rpow_mult_distr. apply Rmult_le_compat_r; [apply pow2_ge_0|]. apply pow_incr. lra. }
    match goal with |- exp ?a <= exp ?b => destruct (Req_dec a b) as [->|]; [lra|]; left; apply exp_increasing; lra end.
  - intros az Z s Hs. unfold poly_pat. rewrite azalt_top by lra. rewrite harmonics_width. unfold modulus2. cbn [fst snd]. fold s. rewrite sqrt_def by (left; apply exp_pos). rewrite Rmult_0_r, Rplus_0_r. f_equal. field. lra.
Qed.
(* Pointing: both polarisations see the given direction at the zenith of the beam, whatever the twist. *)
Theorem C53_pointing : forall a az alt tw, let a' := set_pointing a az alt tw in
  rotation (a_rotx a') /\ rotation (a_roty a') /\ mv (a_rotx a') (azalt2top (az, alt)) = (0, 0, 1) /\ mv (a_roty a') (azalt2top (az, alt)) = (0, 0, 1) /\
  (* y is x a quarter turn about the direction pointed at *)
  (forall v, mv (a_roty a') v = turn (- (PI / 2)) (0, 0, 1) (mv (a_rotx a') v)) /\
  (* twist turns the beam about its own axis *)
  (forall v, mv (a_rotx a') v = turn (- tw) (0, 0, 1) (mv (a_rotx (set_pointing a az alt 0)) v)) /\
  (* nothing else changes *)
  a_pos a' = a_pos a /\ a_beam a' = a_beam a /\ a_gain a' = a_gain a /\ a_phsoff a' = a_phsoff a.
Proof.
  intros a az alt tw a'. assert (U : unit (0, 0, 1)) by (unfold unit; cbn; ring). assert (V : unit (0, 1, 0)) by (unfold unit; cbn; ring).
  assert (M : forall m n, rotation m -> rotation n -> rotation (mm m n)).
  { intros m n [A B] [A' B']. split; [intros; rewrite !mv_mm, A, A'; auto|]. rewrite <- (Rmult_1_l 1). rewrite <- B at 1. rewrite <- B'.
    destruct m as [[[[? ?] ?] [[? ?] ?]] [[? ?] ?]], n as [[[[? ?] ?] [[? ?] ?]] [[? ?] ?]]. cbn. ring. }
  assert (Rx : rotation (a_rotx a')). { cbn [a' set_pointing a_rotx]. unfold pointing_m. repeat apply M; apply rot_rotation; auto. }
  assert (Z : mv (a_rotx a') (azalt2top (az, alt)) = (0, 0, 1)).
  { cbn [a' set_pointing a_rotx]. unfold pointing_m. rewrite !mv_mm.
    replace (mv (rot_m (- (PI / 2 - az)) (0, 0, 1)) (azalt2top (az, alt))) with ((cos alt, 0, sin alt) : vec).
    2:{ unfold azalt2top, thphi2xyz, rot_m. rewrite !cos_neg, !sin_neg, !cos_shift, !sin_shift.
        pose proof (sin2_cos2 az) as Q. unfold Rsqr in Q. set (s := sin az) in *. set (c := cos az) in *. clearbody s c. cbn. vec_eq; nsatz. }
    replace (mv (rot_m (alt - PI / 2) (0, 1, 0)) (cos alt, 0, sin alt)) with ((0, 0, 1) : vec); [apply rot_axis; auto|].
    unfold rot_m. replace (alt - PI / 2) with (- (PI / 2 - alt)) by ring. rewrite cos_neg, sin_neg, cos_shift, sin_shift.
    pose proof (sin2_cos2 alt) as Q. unfold Rsqr in Q. set (s := sin alt) in *. set (c := cos alt) in *. clearbody s c. cbn. vec_eq; nsatz. }
  assert (Y : forall v, mv (a_roty a') v = turn (- (PI / 2)) (0, 0, 1) (mv (a_rotx a') v)). { intros v. cbn [a' set_pointing a_roty a_rotx]. rewrite mv_mm, rot_turn; auto. }
  split; auto. split. { cbn [a' set_pointing a_roty a_rotx]. apply M; auto. apply rot_rotation; auto. }
  split; auto. split. { rewrite Y, Z, <- rot_turn by auto. apply rot_axis; auto. }
  split; auto. split; [|repeat split].
  intros v. cbn [a' set_pointing a_rotx]. unfold pointing_m. rewrite !mv_mm, <- rot_turn by auto. rewrite Ropp_0, rot_zero, mv_ident. auto.
Qed.
(* so a pointed antenna responds fully in that direction *)
Theorem C53_response : forall r i p a b az alt tw, nth_error (r_ants r) i = Some a -> a = set_pointing a az alt tw -> nth_error (r_beams r) (a_beam a) = Some b ->
  (forall f, b_pat b f (0, 0, 1) = (1, 0)) -> ant_response r i [azalt2top (az, alt)] p = Val [map (fun _ => (1, 0)) (b_afreqs b)].
Proof.
  intros r i p a b az alt tw E P B H. unfold ant_response, get. rewrite E. cbn [obind]. rewrite B. cbn [obind map]. f_equal. f_equal.
  destruct (C53_pointing a az alt tw) as [_ [_ [X [Y _]]]]. rewrite <- P in X, Y. apply map_ext. intros f. destruct p; rewrite ?X, ?Y; auto.
Qed.
(* Finding: with the default pointing, x of the beam is north and not east: a beam made narrow in "EW" is narrow
   in north-south direction for polarisation x. *)
Definition narrow := new_beam [1] (gauss_pat (Some (1 / 10)) None).
Definition default_ant := set_pointing (ant_at (0, 0, 0)) 0 (PI / 2) 0.
Theorem C53_width_refuted : exists bs a, new_ant bs (0, 0, 0) 0 [0; 0] [1] [0] 1 0 (PI / 2) 0 = Val a /\ bs = [new_beam [1] (gauss_pat (Some (1 / 10)) None)] /\
  let r := new_arr 0 0 bs [a] in
  ant_response r 0 [azalt2top (PI / 2, PI / 4)] PX = Val [[(1, 0)]] /\                     (* half way down to the east *)
  exists z, ant_response r 0 [azalt2top (0, PI / 4)] PX = Val [[z]] /\ modulus2 z = exp (- (1 / 2) * (10 * (PI / 4)) ^ 2).   (* to the north *)
Proof.
  exists [narrow]. eexists. split; [reflexivity|]. split; [reflexivity|]. cbv zeta.
  assert (Rz : forall v, mv (pointing_m 0 (PI / 2) 0) v = let '(x, y, z) := v in (y, - x, z)).
  { intros [[x y] z]. unfold pointing_m. rewrite !mv_mm. rewrite Ropp_0, rot_zero, mv_ident. replace (PI / 2 - PI / 2) with 0 by ring. rewrite rot_zero, mv_ident.
    unfold rot_m. rewrite Rminus_0_r, cos_neg, sin_neg, cos_PI2, sin_PI2. cbn. vec_eq; ring. }
  assert (S : 0 < PI / 4 < PI / 2) by (pose proof PI_RGT_0; lra).
  unfold ant_response. cbn [get r_ants new_arr nth_error obind a_beam set_pointing r_beams a_rotx map narrow new_beam b_afreqs b_pat]. rewrite !Rz.
  unfold azalt2top, thphi2xyz. rewrite !cos_shift, !sin_shift. rewrite cos_PI2, sin_PI2, cos_0, sin_0. split.
  - f_equal. f_equal. f_equal. unfold gauss_pat. rewrite Rmult_0_r, asin_0. cbn [over]. replace (- (1 / 2) * ((0 / (1 / 10)) ^ 2 + 0 ^ 2)) with 0 by field. rewrite exp_0, sqrt_1. auto.
  - eexists. split; [reflexivity|]. unfold modulus2, gauss_pat. cbn [fst snd over]. rewrite sqrt_def by (left; apply exp_pos). rewrite Rmult_1_r. 
    replace (cos (PI / 4)) with (sin (PI / 4)) by (rewrite <- cos_shift; f_equal; field). rewrite asin_sin by lra. rewrite Rmult_0_r, Rplus_0_r. f_equal. field.
Qed.
(* Pointed at the zenith, y at one azimuth is x at an azimuth a quarter turn further on ... *)
Theorem C53_y : forall a az0 tw az alt, let a' := set_pointing a az0 (PI / 2) tw in
  mv (a_roty a') (azalt2top (az, alt)) = mv (a_rotx a') (azalt2top (az + PI / 2, alt)).
Proof.
  intros a az0 tw az alt a'. cbn [a' set_pointing a_rotx a_roty]. unfold pointing_m. rewrite !mv_mm. replace (PI / 2 - PI / 2) with 0 by ring. rewrite rot_zero, !mv_ident.
  assert (U : unit (0, 0, 1)) by (unfold unit; cbn; ring).
  rewrite <- !mv_mm, !rot_add by auto. replace (- (PI / 2) + - tw + - (PI / 2 - az0)) with (- tw + - (PI / 2 - az0) + - (PI / 2)) by ring. rewrite <- (rot_add _ (- (PI / 2))) by auto. rewrite mv_mm. f_equal.
  unfold azalt2top, thphi2xyz. replace (PI / 2 - (az + PI / 2)) with (- az) by ring. unfold rot_m. rewrite !cos_neg, !sin_neg, !cos_shift, !sin_shift, cos_PI2, sin_PI2. cbn. vec_eq; ring.
Qed.
(* ... and not the other way round, as the docstring has it ("y is assumed to be +pi/2 azimuth from pol x"), which
   shows for beams that differ in opposite directions. *)
Theorem C53_y_refuted : exists (pat : vec -> C) a az alt, let a' := set_pointing a 0 (PI / 2) 0 in
  pat (mv (a_roty a') (azalt2top (az + PI / 2, alt))) <> pat (mv (a_rotx a') (azalt2top (az, alt))).
Proof.
  exists (fun v => let '(x, _, _) := v in (x, 0)), (ant_at (0, 0, 0)), 0, 0. cbv zeta. rewrite C53_y. 
  assert (Rz : forall v, mv (a_rotx (set_pointing (ant_at (0, 0, 0)) 0 (PI / 2) 0)) v = let '(x, y, z) := v in (y, - x, z)).
  { intros [[x y] z]. cbn [set_pointing a_rotx]. unfold pointing_m. rewrite !mv_mm. rewrite Ropp_0, rot_zero, mv_ident. replace (PI / 2 - PI / 2) with 0 by ring. rewrite rot_zero, mv_ident.
    unfold rot_m. rewrite Rminus_0_r, cos_neg, sin_neg, cos_PI2, sin_PI2. cbn. vec_eq; ring. }
  rewrite !Rz. unfold azalt2top, thphi2xyz. replace (PI / 2 - (0 + PI / 2 + PI / 2)) with (- (PI / 2)) by field. rewrite Rminus_0_r, sin_neg, sin_PI2. intros E. apply (f_equal fst) in E. cbn in E. lra.
Qed.
Example C53_case : tame (gauss_pat (Some (1 / 10)) None 1 (azalt2top (0, PI / 4))) /\
  exists a, a = set_pointing a 1 (1 / 2) 0 /\ (exists b, nth_error [new_beam [1] (poly_pat [[1 / 2]])] (a_beam a) = Some b /\ forall f, b_pat b f (0, 0, 1) = (1, 0)).
Proof.
  split; [apply C53_bounded|]. exists (set_pointing (ant_at (0, 0, 0)) 1 (1 / 2) 0). split; [reflexivity|]. eexists. split; [reflexivity|]. intros f. apply C53_zenith.
Qed.
Print Assumptions C53_bounded. Print Assumptions C53_zenith. Print Assumptions C53_gauss. Print Assumptions C53_poly. Print Assumptions C53_pointing. Print Assumptions C53_response.
Print Assumptions C53_width_refuted. Print Assumptions C53_y. Print Assumptions C53_y_refuted.
