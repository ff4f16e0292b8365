From Coq Require Import Reals Lra Nsatz.
From Verif Require Import Base GeoModel GeoSpec.
Ltac Zify.zify_post_hook ::= idtac.
Open Scope R_scope.
Ltac vec_eq := repeat match goal with |- (_, _) = (_, _) => apply f_equal2 end.
Lemma sc1 a : sin a * sin a + cos a * cos a = 1.
Proof. pose proof (sin2_cos2 a) as H. unfold Rsqr in H. auto. Qed.
Lemma rot_turn ang k v : unit k -> mv (rot_m ang k) v = turn ang k v.
Proof. destruct k as [[x y] z], v as [[a b] c]. intros U. cbn. vec_eq; ring. Qed.
Lemma turn_dot ang k v w : unit k -> dot (turn ang k v) (turn ang k w) = dot v w.
Proof.
  destruct k as [[x y] z], v as [[a b] c], w as [[d e] f]. unfold unit, turn. cbn. intros U. pose proof (sc1 ang) as S.
  set (s := sin ang) in *. set (q := cos ang) in *. clearbody s q. nsatz.
Qed.
Lemma rot_det ang k : unit k -> det (rot_m ang k) = 1.
Proof.
  destruct k as [[x y] z]. unfold unit. cbn. intros U. pose proof (sc1 ang) as S.
  set (s := sin ang) in *. set (q := cos ang) in *. clearbody s q. nsatz.
Qed.
Lemma rot_rotation ang k : unit k -> rotation (rot_m ang k).
Proof. intros U. split; [|apply rot_det; auto]. intros v w. rewrite !rot_turn by auto. apply turn_dot; auto. Qed.
Lemma rot_add a b k : unit k -> mm (rot_m a k) (rot_m b k) = rot_m (a + b) k.
Proof.
  destruct k as [[x y] z]. unfold unit. cbn. intros U. rewrite cos_plus, sin_plus.
  set (s := sin a). set (q := cos a). set (t := sin b). set (p := cos b). clearbody s q t p. vec_eq; nsatz.
Qed.
Lemma rot_zero k : rot_m 0 k = ident.
Proof. destruct k as [[x y] z]. unfold rot_m, ident. rewrite cos_0, sin_0. vec_eq; ring. Qed.
Lemma rot_axis ang k : unit k -> mv (rot_m ang k) k = k.
Proof. destruct k as [[x y] z]. unfold unit. cbn. intros U. set (s := sin ang). set (q := cos ang). clearbody s q. vec_eq; nsatz. Qed.
Lemma mv_mm m n v : mv (mm m n) v = mv m (mv n v).
Proof.
  destruct m as [[[[a b] c] [[d e] f]] [[g h] i]], n as [[[[a' b'] c'] [[d' e'] f']] [[g' h'] i']], v as [[x y] z]. cbn. vec_eq; ring.
Qed.
Lemma mv_ident v : mv ident v = v.
Proof. destruct v as [[x y] z]. cbn. vec_eq; ring. Qed.
Lemma mm_ident_l m : mm ident m = m.
Proof. destruct m as [[[[a b] c] [[d e] f]] [[g h] i]]. cbn. vec_eq; ring. Qed.
Lemma mm_ident_r m : mm m ident = m.
Proof. destruct m as [[[[a b] c] [[d e] f]] [[g h] i]]. cbn. vec_eq; ring. Qed.
Lemma mm_assoc m n k : mm m (mm n k) = mm (mm m n) k.
Proof.
  destruct m as [[[[a b] c] [[d e] f]] [[g h] i]], n as [[[[a' b'] c'] [[d' e'] f']] [[g' h'] i']], k as [[[[a2 b2] c2] [[d2 e2] f2]] [[g2 h2] i2]].
  cbn. vec_eq; ring.
Qed.
Lemma inv_ok m : det m <> 0 -> exists n, inv m = Ok n /\ mm m n = ident /\ mm n m = ident.
Proof.
  intros H. unfold inv. destruct (Req_EM_T (det m) 0) as [E|_]; [contradiction|].
  destruct m as [[[[a b] c] [[d e] f]] [[g h] i]]. eexists. split; [reflexivity|]. cbn in *. unfold ident. split; vec_eq; field; exact H.
Qed.
Lemma inv_unique m n k : mm m n = ident -> mm k m = ident -> n = k.
Proof. intros A B. rewrite <- (mm_ident_l n), <- B, <- mm_assoc, A, mm_ident_r. auto. Qed.
(* a rotation's inverse is its transpose *)
Lemma rotation_rows m : rotation m -> mm (transpose m) m = ident.
Proof.
  intros [D _]. destruct m as [[[[a b] c] [[d e] f]] [[g h] i]].
  pose proof (D (1,0,0) (1,0,0)) as D1. pose proof (D (1,0,0) (0,1,0)) as D2. pose proof (D (1,0,0) (0,0,1)) as D3.
  pose proof (D (0,1,0) (0,1,0)) as D4. pose proof (D (0,1,0) (0,0,1)) as D5. pose proof (D (0,0,1) (0,0,1)) as D6.
  cbn in *. unfold ident. vec_eq; lra.
Qed.
Lemma eq2top_rotation H d : rotation (eq2top_m H d).
Proof.
  pose proof (sc1 H) as S1. pose proof (sc1 d) as S2. unfold rotation, eq2top_m.
  set (s := sin H) in *. set (q := cos H) in *. set (t := sin d) in *. set (p := cos d) in *. clearbody s q t p.
  split.
  - intros [[a b] c] [[a' b'] c']. cbn. nsatz.
  - cbn. nsatz.
Qed.
Lemma top2eq_ok H d : top2eq_m H d = Ok (transpose (eq2top_m H d)).
Proof.
  pose proof (eq2top_rotation H d) as G. destruct G as [G1 G2] eqn:E. clear E.
  destruct (inv_ok (eq2top_m H d)) as [n [E1 [E2 E3]]]; [rewrite G2; lra|]. unfold top2eq_m. rewrite E1. f_equal.
  apply (inv_unique (eq2top_m H d)); auto. apply rotation_rows. split; auto.
Qed.
Lemma eq2top_zenith H d : mv (eq2top_m H d) (radec2eq (- H, d)) = (0, 0, 1).
Proof.
  unfold radec2eq, thphi2xyz, eq2top_m. rewrite cos_neg, sin_neg, cos_shift, sin_shift.
  pose proof (sc1 H) as S1. pose proof (sc1 d) as S2.
  set (s := sin H) in *. set (q := cos H) in *. set (t := sin d) in *. set (p := cos d) in *. clearbody s q t p. cbn. vec_eq; nsatz.
Qed.
Lemma eq2top_pole H d : mv (eq2top_m H d) (0, 0, 1) = (0, cos d, sin d).
Proof. unfold eq2top_m. cbn. vec_eq; ring. Qed.
Lemma eq2top_turned H d : eq2top_m H d = mm (eq2top_m 0 d) (rot_m H (0, 0, 1)).
Proof. unfold eq2top_m, rot_m. rewrite sin_0, cos_0. cbn. vec_eq; ring. Qed.

(* arctan2 *)
Lemma cos_atan_pos t : 0 < cos (atan t).
Proof. pose proof (atan_bound t). apply cos_gt_0; lra. Qed.
Lemma polar_atan x y : 0 < x -> let r := sqrt (x * x + y * y) in r * cos (atan (y / x)) = x /\ r * sin (atan (y / x)) = y.
Proof.
  intros P r. set (a := atan (y / x)). assert (C := cos_atan_pos (y / x)). fold a in C.
  assert (T : sin a = y / x * cos a). { pose proof (tan_atan (y / x)) as E. fold a in E. unfold tan in E. rewrite <- E at 1. field. lra. }
  assert (S := sc1 a). rewrite T in S.
  assert (R2 : (x * x + y * y) * (cos a * cos a) = x * x).
  { transitivity (x * x * (y / x * cos a * (y / x * cos a) + cos a * cos a)); [field; lra|rewrite S; ring]. }
  assert (E : r * cos a = x).
  { unfold r. rewrite <- (sqrt_square (cos a)) at 1 by lra. rewrite <- sqrt_mult; [|nra|nra]. rewrite R2. apply sqrt_square; lra. }
  split; auto. rewrite T. transitivity (r * cos a * (y / x)); [ring|]. rewrite E. field. lra.
Qed.
Lemma sqrt_self z : sqrt (z * z) = Rabs z.
Proof. apply sqrt_Rsqr_abs. Qed.
Lemma polar_atan2 x y : let r := sqrt (x * x + y * y) in r * cos (atan2 y x) = x /\ r * sin (atan2 y x) = y.
Proof.
  intros r. unfold atan2. destruct (Rlt_dec 0 x) as [P|P]; [apply polar_atan; auto|].
  destruct (Rlt_dec x 0) as [N|N].
  - destruct (polar_atan (- x) (- y)) as [E1 E2]; [lra|]. replace (- x * - x + - y * - y) with (x * x + y * y) in * by ring.
    fold r in E1, E2. replace (- y / - x) with (y / x) in * by (field; lra).
    destruct (Rle_dec 0 y).
    + rewrite neg_cos, neg_sin. clear - E1 E2. split; lra.
    + replace (atan (y / x) - PI) with (- (PI - atan (y / x))) by ring. rewrite cos_neg, sin_neg, Rtrigo_facts.cos_pi_minus, Rtrigo_facts.sin_pi_minus.
      split; lra.
  - assert (x = 0) by lra. subst x. assert (R0 : r = Rabs y). { unfold r. rewrite <- sqrt_self. f_equal. ring. } rewrite R0.
    destruct (Rlt_dec 0 y); [|destruct (Rlt_dec y 0)].
    + rewrite cos_PI2, sin_PI2, Rabs_right by lra. split; ring.
    + rewrite cos_neg, sin_neg, cos_PI2, sin_PI2, Rabs_left by lra. split; ring.
    + assert (y = 0) by lra. subst y. rewrite Rabs_R0. split; ring.
Qed.
Lemma atan2_range x y : - PI < atan2 y x <= PI.
Proof.
  pose proof PI_RGT_0. pose proof (atan_bound (y / x)) as B. unfold atan2.
  destruct (Rlt_dec 0 x); [lra|]. destruct (Rlt_dec x 0) as [N|N].
  - destruct (Rle_dec 0 y) as [Y|Y].
    + assert (atan (y / x) <= 0); [|lra]. rewrite <- atan_0.
      assert (Q : y / x <= 0) by (unfold Rdiv; pose proof (Rinv_lt_0_compat x N); nra).
      destruct Q as [Q|Q]; [left; apply atan_increasing; auto|rewrite Q; lra].
    + assert (0 < atan (y / x)); [|lra]. rewrite <- atan_0. apply atan_increasing.
      unfold Rdiv. pose proof (Rinv_lt_0_compat x N). nra.
  - destruct (Rlt_dec 0 y); [lra|]. destruct (Rlt_dec y 0); lra.
Qed.
Lemma atan2_upper x y : 0 <= y -> 0 <= atan2 y x.
Proof.
  intros Y. pose proof PI_RGT_0. pose proof (atan_bound (y / x)) as B. unfold atan2.
  destruct (Rlt_dec 0 x) as [P|P].
  - rewrite <- atan_0. assert (Q : 0 <= y / x) by (unfold Rdiv; pose proof (Rinv_0_lt_compat x P); nra).
    destruct Q as [Q|Q]; [left; apply atan_increasing; auto|rewrite <- Q; lra].
  - destruct (Rlt_dec x 0); [destruct (Rle_dec 0 y); lra|]. destruct (Rlt_dec 0 y); [lra|]. destruct (Rlt_dec y 0); lra.
Qed.
Lemma angle_unique a b : - PI < a <= PI -> - PI < b <= PI -> cos a = cos b -> sin a = sin b -> a = b.
Proof.
  intros A B E F. assert (Z : cos (a - b) = 1). { rewrite cos_minus, E, F. pose proof (sc1 b). lra. }
  assert (G : sin ((a - b) / 2) = 0).
  { replace (a - b) with (2 * ((a - b) / 2)) in Z by field. rewrite cos_2a_sin in Z. nra. }
  destruct (Rtotal_order ((a - b) / 2) 0) as [L|[L|L]]; [|lra|].
  - assert (sin ((a - b) / 2) < 0) by (apply sin_lt_0_var; lra). lra.
  - assert (0 < sin ((a - b) / 2)) by (apply sin_gt_0; lra). lra.
Qed.
Lemma atan2_polar r a : 0 < r -> - PI < a <= PI -> atan2 (r * sin a) (r * cos a) = a.
Proof.
  intros P A. destruct (polar_atan2 (r * cos a) (r * sin a)) as [E1 E2]. cbv zeta in *.
  assert (R1 : sqrt (r * cos a * (r * cos a) + r * sin a * (r * sin a)) = r).
  { replace (r * cos a * (r * cos a) + r * sin a * (r * sin a)) with (r * r) by (pose proof (sc1 a); nsatz). apply sqrt_square; lra. }
  rewrite R1 in *. apply angle_unique; auto; [apply atan2_range|nra|nra].
Qed.
(* angles and vectors *)
Lemma norm_pos v : v <> (0, 0, 0) -> 0 < norm v.
Proof.
  intros N. destruct v as [[x y] z]. unfold norm. apply sqrt_lt_R0. cbn.
  destruct (Req_EM_T x 0), (Req_EM_T y 0), (Req_EM_T z 0); subst; try congruence; nra.
Qed.
Lemma thphi_unit a : unit (thphi2xyz a).
Proof.
  destruct a as [th phi]. unfold unit, thphi2xyz. cbn. pose proof (sc1 th). pose proof (sc1 phi).
  set (s := sin th) in *. set (q := cos th) in *. set (t := sin phi) in *. set (p := cos phi) in *. clearbody s q t p. nsatz.
Qed.
Lemma xyz_thphi v : vscale (norm v) (thphi2xyz (xyz2thphi v)) = v.
Proof.
  destruct v as [[x y] z]. unfold xyz2thphi, thphi2xyz, vscale, norm. cbn.
  destruct (polar_atan2 x y) as [A1 A2]. destruct (polar_atan2 z (sqrt (x * x + y * y))) as [B1 B2]. cbv zeta in *.
  rewrite sqrt_sqrt in B1, B2 by nra. replace (z * z + (x * x + y * y)) with (x * x + y * y + z * z) in B1, B2 by ring.
  set (n := sqrt (x * x + y * y + z * z)) in *. set (r := sqrt (x * x + y * y)) in *.
  set (th := atan2 r z) in *. set (phi := atan2 y x) in *. clearbody n th phi.
  vec_eq; [rewrite <- Rmult_assoc, B2; auto|rewrite <- Rmult_assoc, B2; auto|auto].
Qed.
Lemma vscale_inv k v w : k <> 0 -> vscale k v = w -> v = vscale (/ k) w.
Proof. intros K <-. destruct v as [[a b] c]. cbn. vec_eq; field; auto. Qed.
Lemma xyz_thphi' v : v <> (0, 0, 0) -> thphi2xyz (xyz2thphi v) = vscale (/ norm v) v.
Proof. intros N. apply vscale_inv; [apply norm_pos in N; lra|]. apply xyz_thphi. Qed.
Lemma thphi_range v th phi : xyz2thphi v = (th, phi) -> 0 <= th <= PI /\ - PI < phi <= PI.
Proof.
  destruct v as [[x y] z]. unfold xyz2thphi. intros E. inversion E; subst. split; [|apply atan2_range].
  split; [apply atan2_upper, sqrt_pos|apply atan2_range].
Qed.
Lemma thphi_xyz th phi : 0 < th < PI -> - PI < phi <= PI -> xyz2thphi (thphi2xyz (th, phi)) = (th, phi).
Proof.
  intros T P. assert (S : 0 < sin th) by (apply sin_gt_0; lra). unfold xyz2thphi, thphi2xyz.
  replace (sqrt (sin th * cos phi * (sin th * cos phi) + sin th * sin phi * (sin th * sin phi))) with (sin th).
  2:{ symmetry. replace (sin th * cos phi * (sin th * cos phi) + sin th * sin phi * (sin th * sin phi)) with (sin th * sin th) by (pose proof (sc1 phi); nsatz).
      apply sqrt_square; lra. }
  rewrite atan2_polar by auto. f_equal. rewrite <- (Rmult_1_l (sin th)), <- (Rmult_1_l (cos th)). apply atan2_polar; lra.
Qed.
Lemma pole_xyz phi : xyz2thphi (thphi2xyz (0, phi)) = (0, 0) /\ xyz2thphi (thphi2xyz (PI, phi)) = (PI, 0).
Proof.
  assert (Z : atan2 0 0 = 0) by (unfold atan2; repeat destruct (Rlt_dec _ _); lra).
  unfold xyz2thphi, thphi2xyz. rewrite cos_0, sin_0, cos_PI, sin_PI, !Rmult_0_l.
  rewrite !Rplus_0_l, !sqrt_0, !Z. split; f_equal.
  - unfold atan2. destruct (Rlt_dec 0 1); [|lra]. replace (0 / 1) with 0 by field. apply atan_0.
  - unfold atan2. destruct (Rlt_dec 0 (-1)); [lra|]. destruct (Rlt_dec (-1) 0); [|lra]. destruct (Rle_dec 0 0); [|lra].
    replace (0 / -1) with 0 by field. rewrite atan_0. ring.
Qed.
Lemma xyz2thphi_scale k v : 0 < k -> xyz2thphi (vscale k v) = xyz2thphi v.
Proof.
  intros K. assert (A : forall y x, atan2 (k * y) (k * x) = atan2 y x).
  { intros y x. unfold atan2. assert (Q : x <> 0 -> k * y / (k * x) = y / x) by (intros; field; split; lra).
    destruct (Rlt_dec 0 (k * x)), (Rlt_dec 0 x); try nra; [rewrite Q by lra; auto|].
    destruct (Rlt_dec (k * x) 0), (Rlt_dec x 0); try nra.
    - rewrite Q by lra. destruct (Rle_dec 0 (k * y)), (Rle_dec 0 y); try nra; auto.
    - destruct (Rlt_dec 0 (k * y)), (Rlt_dec 0 y); try nra; auto. destruct (Rlt_dec (k * y) 0), (Rlt_dec y 0); try nra; auto. }
  destruct v as [[x y] z]. unfold vscale, xyz2thphi. rewrite A. f_equal.
  replace (k * x * (k * x) + k * y * (k * y)) with (k * k * (x * x + y * y)) by ring. rewrite sqrt_mult by nra. rewrite sqrt_square by lra. apply A.
Qed.
Lemma cos_2pi a : cos (a + 2 * PI) = cos a.
Proof. rewrite cos_plus, cos_2PI, sin_2PI. ring. Qed.
Lemma sin_2pi a : sin (a + 2 * PI) = sin a.
Proof. rewrite sin_plus, cos_2PI, sin_2PI. ring. Qed.
Lemma eq_radec v : v <> (0, 0, 0) -> radec2eq (eq2radec v) = vscale (/ norm v) v.
Proof.
  intros N. rewrite <- xyz_thphi' by auto. unfold eq2radec. destruct (xyz2thphi v) as [th phi]. unfold radec2eq.
  replace (PI / 2 - (PI / 2 - th)) with th by ring. destruct (Rlt_dec phi 0); auto. unfold thphi2xyz. rewrite cos_2pi, sin_2pi. auto.
Qed.
Lemma radec_range v ra dec : eq2radec v = (ra, dec) -> 0 <= ra < 2 * PI /\ - (PI / 2) <= dec <= PI / 2.
Proof.
  unfold eq2radec. destruct (xyz2thphi v) as [th phi] eqn:E. apply thphi_range in E. intros Q. inversion Q; subst.
  pose proof PI_RGT_0. destruct (Rlt_dec phi 0); lra.
Qed.
Lemma radec_eq ra dec : 0 <= ra < 2 * PI -> - (PI / 2) < dec < PI / 2 -> eq2radec (radec2eq (ra, dec)) = (ra, dec).
Proof.
  intros A D. pose proof PI_RGT_0. unfold eq2radec, radec2eq. destruct (Rle_dec ra PI) as [L|L].
  - rewrite thphi_xyz by lra. destruct (Rlt_dec ra 0); [lra|]. f_equal. ring.
  - replace (thphi2xyz (PI / 2 - dec, ra)) with (thphi2xyz (PI / 2 - dec, ra - 2 * PI)).
    2:{ unfold thphi2xyz. rewrite <- (cos_2pi (ra - 2 * PI)), <- (sin_2pi (ra - 2 * PI)). replace (ra - 2 * PI + 2 * PI) with ra by ring. auto. }
    rewrite thphi_xyz by lra. destruct (Rlt_dec (ra - 2 * PI) 0); [|lra]. f_equal; ring.
Qed.
Lemma top_azalt v : v <> (0, 0, 0) -> azalt2top (top2azalt v) = vscale (/ norm v) v.
Proof.
  intros N. rewrite <- xyz_thphi' by auto. unfold top2azalt. destruct (xyz2thphi v) as [th phi]. unfold azalt2top.
  replace (PI / 2 - (PI / 2 - th)) with th by ring. destruct (Rlt_dec (PI / 2 - phi) 0).
  - unfold thphi2xyz. rewrite <- (cos_2pi (PI / 2 - _)), <- (sin_2pi (PI / 2 - _)). replace (PI / 2 - (PI / 2 - phi + 2 * PI) + 2 * PI) with phi by ring. auto.
  - replace (PI / 2 - (PI / 2 - phi)) with phi by ring. auto.
Qed.
Lemma azalt_range v az alt : top2azalt v = (az, alt) -> 0 <= az < 2 * PI /\ - (PI / 2) <= alt <= PI / 2.
Proof.
  unfold top2azalt. destruct (xyz2thphi v) as [th phi] eqn:E. apply thphi_range in E. intros Q. inversion Q; subst.
  pose proof PI_RGT_0. destruct (Rlt_dec (PI / 2 - phi) 0); lra.
Qed.
Lemma azalt_top az alt : 0 <= az < 2 * PI -> - (PI / 2) < alt < PI / 2 -> top2azalt (azalt2top (az, alt)) = (az, alt).
Proof.
  intros A D. pose proof PI_RGT_0. unfold top2azalt, azalt2top. destruct (Rlt_dec az (3 * (PI / 2))) as [L|L].
  - rewrite thphi_xyz by lra. replace (PI / 2 - (PI / 2 - az)) with az by ring. destruct (Rlt_dec az 0); [lra|]. f_equal. ring.
  - replace (thphi2xyz (PI / 2 - alt, PI / 2 - az)) with (thphi2xyz (PI / 2 - alt, PI / 2 - az + 2 * PI)).
    2:{ unfold thphi2xyz. rewrite cos_2pi, sin_2pi. auto. }
    rewrite thphi_xyz by lra. destruct (Rlt_dec (PI / 2 - (PI / 2 - az + 2 * PI)) 0); [|lra]. f_equal; ring.
Qed.
Lemma unit_norm v : unit v -> norm v = 1.
Proof. unfold unit, norm. intros ->. apply sqrt_1. Qed.
Lemma vscale_1 v : vscale 1 v = v.
Proof. destruct v as [[a b] c]. cbn. vec_eq; ring. Qed.
Lemma unit_nz v : unit v -> v <> (0, 0, 0).
Proof. intros U E. subst. unfold unit in U. cbn in U. lra. Qed.
(* the matrix of a conversion that is linear *)
Lemma convert_m_ok eph M : (forall v, unit v -> radec2eq (eph (eq2radec v)) = mv M v) -> convert_m eph = M.
Proof.
  intros H. unfold convert_m. cbn [fold_left]. unfold convert.
  assert (U1 : unit (1, 0, 0)) by (unfold unit; cbn; ring). assert (U2 : unit (0, 1, 0)) by (unfold unit; cbn; ring).
  assert (U3 : unit (0, 0, 1)) by (unfold unit; cbn; ring).
  cbn [col transpose]. rewrite (H _ U1). destruct M as [[[[a b] c] [[d e] f]] [[g h] i]]. cbn [mv dot set_col transpose col].
  rewrite (H _ U2). cbn [mv dot set_col transpose col]. rewrite (H _ U3). cbn [mv dot set_col]. vec_eq; ring.
Qed.
