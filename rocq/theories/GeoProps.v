(* C24, C25: what the rotation matrices do, and that conversions between vectors and angles undo each other. *)
From Coq Require Import Reals Lra Nsatz.
From Verif Require Import Base GeoModel GeoSpec GeoProofs.
Ltac Zify.zify_post_hook ::= idtac.
Open Scope R_scope.

(* For every angle and unit axis the matrix turns every vector by that angle around that axis,
   right-handed; it keeps lengths and angles and handedness; turns around one axis add up and the
   opposite turn undoes it. *)
Theorem C24_rot_m : forall ang k, unit k ->
  (forall v, mv (rot_m ang k) v = turn ang k v) /\ rotation (rot_m ang k) /\ mv (rot_m ang k) k = k /\
  (forall b, mm (rot_m ang k) (rot_m b k) = rot_m (ang + b) k) /\
  (forall v, mv (rot_m (- ang) k) (mv (rot_m ang k) v) = v).
Proof.
  intros ang k U. split; [intros; apply rot_turn; auto|]. split; [apply rot_rotation; auto|]. split; [apply rot_axis; auto|].
  split; [intros; apply rot_add; auto|]. intros v. rewrite <- mv_mm, rot_add by auto. replace (- ang + ang) with 0 by ring.
  rewrite rot_zero. apply mv_ident.
Qed.
(* what turning means for the vectors at right angles to the axis *)
Theorem C24_right_handed : forall ang k v, unit k -> dot k v = 0 ->
  mv (rot_m ang k) v = vadd (vscale (cos ang) v) (vscale (sin ang) (cross k v)).
Proof.
  intros ang k v U D. rewrite rot_turn by auto. unfold turn. rewrite D.
  destruct v as [[a b] c], k as [[x y] z]. cbn. vec_eq; ring.
Qed.
Example C24_axis : unit (3 / 5, 0, 4 / 5) /\ mv (rot_m (PI / 2) (0, 0, 1)) (1, 0, 0) = (0, 1, 0).
Proof. split; [unfold unit; cbn; field|]. unfold rot_m. rewrite cos_PI2, sin_PI2. cbn. vec_eq; ring. Qed.
(* The documentation says an axis of another length scales the rotation: it does not. *)
Theorem C24_scaling_refuted :
  (forall k, rot_m 0 k = ident) /\
  ~ (forall ang k, exists m, rotation m /\ forall v, mv (rot_m ang k) v = vscale (norm k) (mv m v)).
Proof.
  split; [apply rot_zero|]. intros H. destruct (H 0 (2, 0, 0)) as [m [[R _] E]]. specialize (E (1, 0, 0)). rewrite rot_zero, mv_ident in E.
  assert (N : norm (2, 0, 0) = 2). { unfold norm. replace (dot (2, 0, 0) (2, 0, 0)) with (2 * 2) by (cbn; ring). apply sqrt_square. lra. }
  rewrite N in E. specialize (R (1, 0, 0) (1, 0, 0)). destruct (mv m (1, 0, 0)) as [[a b] c]. cbn in *. inversion E. nra.
Qed.
(* equatorial to topocentric: a rotation for every hour angle and latitude, under which the
   direction at right ascension minus that hour angle and that declination is straight up, the
   pole stands on the meridian at that altitude, and the hour angle is a turn around the pole *)
Theorem C24_eq2top : forall ha dec,
  rotation (eq2top_m ha dec) /\
  mv (eq2top_m ha dec) (radec2eq (- ha, dec)) = (0, 0, 1) /\
  mv (eq2top_m ha dec) (0, 0, 1) = (0, cos dec, sin dec) /\
  (forall v, mv (eq2top_m ha dec) v = mv (eq2top_m 0 dec) (turn ha (0, 0, 1) v)).
Proof.
  intros ha dec. split; [apply eq2top_rotation|]. split; [apply eq2top_zenith|]. split; [apply eq2top_pole|].
  intros v. rewrite eq2top_turned, mv_mm, rot_turn; auto. unfold unit. cbn. ring.
Qed.
(* The way back is always there and undoes it from both sides. *)
Theorem C24_top2eq : forall ha dec, exists m, top2eq_m ha dec = Ok m /\ rotation m /\
  (forall v, mv m (mv (eq2top_m ha dec) v) = v) /\ (forall v, mv (eq2top_m ha dec) (mv m v) = v).
Proof.
  intros ha dec. destruct (inv_ok (eq2top_m ha dec)) as [n [E1 [E2 E3]]]; [destruct (eq2top_rotation ha dec); lra|].
  exists n. split; [exact E1|].
  assert (F1 : forall v, mv n (mv (eq2top_m ha dec) v) = v) by (intros; rewrite <- mv_mm, E3; apply mv_ident).
  assert (F2 : forall v, mv (eq2top_m ha dec) (mv n v) = v) by (intros; rewrite <- mv_mm, E2; apply mv_ident).
  split; [|split; auto]. destruct (eq2top_rotation ha dec) as [R _]. split.
  - intros v w. rewrite <- R, !F2. auto.
  - pose proof (top2eq_ok ha dec) as T. unfold top2eq_m in T. rewrite E1 in T. inversion T; subst.
    unfold eq2top_m, transpose, det. pose proof (sc1 ha). pose proof (sc1 dec).
    set (s := sin ha) in *. set (q := cos ha) in *. set (t := sin dec) in *. set (p := cos dec) in *. clearbody s q t p. nsatz.
Qed.
(* If a conversion between systems acts linearly on unit vectors, its matrix maps a vector of the
   first system to the converted direction. *)
Theorem C24_convert_m : forall eph M, (forall v, unit v -> radec2eq (eph (eq2radec v)) = mv M v) ->
  forall v, unit v -> mv (convert_m eph) v = radec2eq (convert eph v).
Proof. intros eph M H v U. rewrite (convert_m_ok eph M H). unfold convert. rewrite H; auto. Qed.
Definition quarter (k : R) (a : R * R) : R * R := (fst a + k * (PI / 2), snd a).
Lemma quarter_linear k : forall v, unit v -> radec2eq (quarter k (eq2radec v)) = mv (rot_m (k * (PI / 2)) (0, 0, 1)) v.
Proof.
  intros v U. pose proof (eq_radec v (unit_nz v U)) as E. rewrite (unit_norm v U), Rinv_1, vscale_1 in E.
  destruct (eq2radec v) as [ra dec]. unfold quarter, fst, snd. rewrite <- E. unfold radec2eq, thphi2xyz, rot_m. rewrite cos_plus, sin_plus. cbn. vec_eq; ring.
Qed.
(* The documentation says the systems must be given in reverse for this: then it is wrong. *)
Theorem C24_reversed_refuted : exists eph back M, (forall v, unit v -> radec2eq (eph (eq2radec v)) = mv M v) /\
  (forall a, eph (back a) = a /\ back (eph a) = a) /\
  exists v, unit v /\ mv (convert_m back) v <> radec2eq (convert eph v).
Proof.
  exists (quarter 1), (quarter (-1)), (rot_m (1 * (PI / 2)) (0, 0, 1)). split; [apply quarter_linear|]. split.
  - intros [a b]. unfold quarter, fst, snd. split; f_equal; ring.
  - exists (1, 0, 0). assert (U : unit (1, 0, 0)) by (unfold unit; cbn; ring). split; auto.
    rewrite (convert_m_ok _ _ (quarter_linear (-1))). unfold convert. rewrite (quarter_linear 1) by auto.
    unfold rot_m. replace (-1 * (PI / 2)) with (- (1 * (PI / 2))) by ring. rewrite cos_neg, sin_neg, Rmult_1_l, cos_PI2, sin_PI2. cbn.
    intros E. inversion E. lra.
Qed.

(* Spherical angles: a vector gives angles in range from which its direction comes back ... *)
Theorem C25_thphi : forall v, v <> (0, 0, 0) ->
  thphi2xyz (xyz2thphi v) = vscale (/ norm v) v /\
  (forall th phi, xyz2thphi v = (th, phi) -> 0 <= th <= PI /\ - PI < phi <= PI).
Proof. intros v N. split; [apply xyz_thphi'; auto|intros; apply thphi_range with v; auto]. Qed.
(* ... and angles in range come back from their vector, which has length 1; at the poles the
   second angle is lost. *)
Theorem C25_thphi_back : forall th phi,
  unit (thphi2xyz (th, phi)) /\
  (0 < th < PI -> - PI < phi <= PI -> xyz2thphi (thphi2xyz (th, phi)) = (th, phi)) /\
  xyz2thphi (thphi2xyz (0, phi)) = (0, 0) /\ xyz2thphi (thphi2xyz (PI, phi)) = (PI, 0).
Proof. intros th phi. split; [apply thphi_unit|]. split; [intros; apply thphi_xyz; auto|apply pole_xyz]. Qed.
(* right ascension and declination, in both directions *)
Theorem C25_radec : forall v, v <> (0, 0, 0) ->
  radec2eq (eq2radec v) = vscale (/ norm v) v /\
  (forall ra dec, eq2radec v = (ra, dec) -> 0 <= ra < 2 * PI /\ - (PI / 2) <= dec <= PI / 2).
Proof. intros v N. split; [apply eq_radec; auto|intros; apply radec_range with v; auto]. Qed.
Theorem C25_radec_back : forall ra dec, unit (radec2eq (ra, dec)) /\
  (0 <= ra < 2 * PI -> - (PI / 2) < dec < PI / 2 -> eq2radec (radec2eq (ra, dec)) = (ra, dec)).
Proof. intros ra dec. split; [apply thphi_unit|intros; apply radec_eq; auto]. Qed.
(* The vector of right ascension and declination (and of longitude and latitude): z is the sine of the
   declination, x and y are its cosine at that angle from x towards y. *)
Theorem C25_directions : forall a b,
  radec2eq (a, b) = (cos b * cos a, cos b * sin a, sin b) /\
  latlong2xyz (b, a) = (cos b * cos a, cos b * sin a, sin b) /\
  azalt2top (a, b) = (cos b * sin a, cos b * cos a, sin b).
Proof.
  intros a b. unfold latlong2xyz, radec2eq, azalt2top, thphi2xyz. rewrite !cos_shift, !sin_shift. auto.
Qed.
(* azimuth and altitude, in both directions *)
Theorem C25_azalt : forall v, v <> (0, 0, 0) ->
  azalt2top (top2azalt v) = vscale (/ norm v) v /\
  (forall az alt, top2azalt v = (az, alt) -> 0 <= az < 2 * PI /\ - (PI / 2) <= alt <= PI / 2).
Proof. intros v N. split; [apply top_azalt; auto|intros; apply azalt_range with v; auto]. Qed.
Theorem C25_azalt_back : forall az alt, unit (azalt2top (az, alt)) /\
  (0 <= az < 2 * PI -> - (PI / 2) < alt < PI / 2 -> top2azalt (azalt2top (az, alt)) = (az, alt)).
Proof. intros az alt. split; [apply thphi_unit|intros; apply azalt_top; auto]. Qed.
(* the length of the vector does not matter *)
Theorem C25_length : forall k v, 0 < k ->
  xyz2thphi (vscale k v) = xyz2thphi v /\ eq2radec (vscale k v) = eq2radec v /\ top2azalt (vscale k v) = top2azalt v.
Proof. intros k v K. unfold eq2radec, top2azalt. rewrite xyz2thphi_scale by auto. auto. Qed.
(* azimuth 0 is the y axis, a quarter turn on is the x axis (the documentation says the x axis is
   azimuth 0) *)
Theorem C25_north : azalt2top (0, 0) = (0, 1, 0) /\ azalt2top (PI / 2, 0) = (1, 0, 0) /\ (forall az, azalt2top (az, PI / 2) = (0, 0, 1)).
Proof.
  assert (H : forall a b, azalt2top (a, b) = (cos b * sin a, cos b * cos a, sin b)) by (intros; apply C25_directions).
  split; [|split]; intros; rewrite !H, ?sin_0, ?cos_0, ?sin_PI2, ?cos_PI2; vec_eq; ring.
Qed.
Example C25_cases : (3, 4, 0) <> ((0, 0, 0) : vec) /\ (0 <= 4 < 2 * PI /\ - (PI / 2) < -1 < PI / 2).
Proof. split; [intros E; inversion E; lra|]. pose proof PI2_1. pose proof PI_RGT_0. lra. Qed.
Print Assumptions C24_rot_m. Print Assumptions C24_right_handed. Print Assumptions C24_scaling_refuted. Print Assumptions C24_eq2top.
Print Assumptions C24_top2eq. Print Assumptions C24_convert_m. Print Assumptions C24_reversed_refuted. Print Assumptions C25_thphi. Print Assumptions C25_thphi_back.
Print Assumptions C25_radec. Print Assumptions C25_radec_back. Print Assumptions C25_directions. Print Assumptions C25_azalt. Print Assumptions C25_azalt_back.
Print Assumptions C25_length. Print Assumptions C25_north.
