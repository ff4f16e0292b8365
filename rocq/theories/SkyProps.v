(* C58: where the sky appears in an image *)
From Coq Require Import Reals Lra Permutation.
From Verif Require Import Base CleanModel CleanSpec CleanProofs CleanProofs2 GridModel GridSpec GridProofs GridProofs2 GridProps ImgModel ImgSpec ImgProofs ImgProofs2 ImgProofs3 ImgProofs4 ImgProps GeoModel GeoProofs SkyModel SkySpec SkyProofs SkyProofs2 SkyProofs3.
Ltac Zify.zify_post_hook ::= idtac.
Open Scope R_scope.
Local Notation length := List.length.

(* an image which the theorems apply to: 64 pixels of 1/32 (size 2 wavelengths per uv cell) *)
Definition im0 : img := Img 64 (1 / 2) zeros [zeros].
Example windows_case : windows 3 T6.
Proof. intros f. apply (taps_window f 6). Qed.
Example shows_case : shows 64 (1 / 2) 32 32 36 30 (IZR 1 / 16) (1 / 8).
Proof. exists 4%Z, (-2)%Z. split; [split; [exists 1%Z; reflexivity|lia]|]. split; [split; [exists 1%Z; reflexivity|lia]|]. split; field. Qed.

(* get_LM: every pixel has one direction; those outside the unit circle, and no others, are masked *)
Theorem C58_pixel_coordinates n res c0 c1 : (0 < n)%Z -> res <> 0 -> exists t, get_LM n res c0 c1 = Ok t /\ rect (Z.to_nat n) (Z.to_nat n) t /\
  forall i j, pixel_of n i j -> exists l m masked, at2 t i j = Some (l, m, masked) /\ shows n res c0 c1 (Z.of_nat i) (Z.of_nat j) l m /\ (masked = true <-> 1 <= l * l + m * m).
Proof.
  intros N RZ. destruct (get_LM_at n res c0 c1 N RZ) as [t [E [R H]]]. exists t. split; auto. split; auto. intros i j PX.
  destruct (shows_some n res c0 c1 (Z.of_nat i) (Z.of_nat j) N) as [l [m SH]]. exists l, m, (if Rle_dec 1 (l * l + m * m) then true else false).
  split; [apply H; auto|]. split; auto. destruct (Rle_dec 1 (l * l + m * m)); split; intros X; auto; try discriminate; contradiction.
Qed.
(* get_eq: l and m are measured along east and north at the phase centre, and the vectors are of unit length *)
Theorem C58_directions n res ra dec c0 c1 : (0 < n)%Z -> res <> 0 -> exists t, get_eq n res ra dec c0 c1 = Ok t /\
  forall i j l m, pixel_of n i j -> shows n res c0 c1 (Z.of_nat i) (Z.of_nat j) l m ->
  exists x y z masked, at2 t i j = Some ((x, y, z), masked) /\ (masked = true <-> 1 <= l * l + m * m) /\ (x, y, z) = pole_frame ra dec l m (sqrt (1 - l * l - m * m)) /\
  (masked = false -> x * x + y * y + z * z = 1).
Proof.
  intros N RZ. destruct (get_eq_at n res ra dec c0 c1 N RZ) as [t [E H]]. exists t. split; auto. intros i j l m PX SH. specialize (H i j l m PX SH).
  destruct (pole_frame ra dec l m (sqrt (1 - l * l - m * m))) as [[x y] z] eqn:EP. exists x, y, z. eexists. split; [exact H|].
  destruct (Rle_dec 1 (l * l + m * m)) as [HL|HL]; (split; [split; intros X; auto; try discriminate; contradiction|]); (split; [auto|]); intros M; [discriminate|].
  pose proof (frame_unit ra dec l m (sqrt (1 - l * l - m * m))) as FU. rewrite EP in FU. apply FU. rewrite sqrt_sqrt; lra.
Qed.
Example C58_centre : shows 64 (1 / 2) 32 32 32 32 0 0 /\ pole_frame 1 (PI / 2) 0 0 1 = (0, 0, 1).
Proof.
  split.
  - exists 0%Z, 0%Z. split; [split; [exists 1%Z; reflexivity|lia]|]. split; [split; [exists 1%Z; reflexivity|lia]|]. split; field.
  - unfold pole_frame. rewrite cos_PI2, sin_PI2. f_equal; [f_equal|]; ring.
Qed.

(* Img.put, image: a pixel changes by the sum of the samples, each with its phase towards the pixel's direction *)
Theorem C58_image W im uvw data w im' c0 c1 i j l m : windows 3 W -> (0 < i_n im)%Z -> i_res im <> 0 -> put im uvw data w = Ok im' ->
  pixel_of (i_n im) i j -> shows (i_n im) (i_res im) c0 c1 (Z.of_nat i) (Z.of_nat j) l m ->
  exists v v', pixel im c0 c1 i j v /\ pixel im' c0 c1 i j v' /\
  v' = v + scale2 / IZR (i_n im * i_n im) * rsum (seq 0 (length uvw)) (fun k => let f := put_at (i_res im) (nth k uvw (0, 0, 0)) in
    fst (times (nth k data (0, 0)) (times (spread W (fst f) (i_res im * m)) (spread W (snd f) (- (i_res im * l)))))).
Proof. exact (put_pixel W im uvw data w im' c0 c1 i j l m). Qed.
(* for samples at grid points, this is the Fourier sum of the samples, tapered *)
Theorem C58_fourier_sum W im uvw data w im' c0 c1 i j l m : windows 3 W -> (0 < i_n im)%Z -> i_res im <> 0 -> put im uvw data w = Ok im' ->
  Forall (on_grid (i_res im)) uvw -> pixel_of (i_n im) i j -> shows (i_n im) (i_res im) c0 c1 (Z.of_nat i) (Z.of_nat j) l m ->
  0 < taper (i_res im * m) * taper (i_res im * l) /\
  exists v v', pixel im c0 c1 i j v /\ pixel im' c0 c1 i j v' /\
  v' = v + scale2 / IZR (i_n im * i_n im) * (taper (i_res im * m) * taper (i_res im * l)) *
    rsum (seq 0 (length uvw)) (fun k => fst (times (nth k data (0, 0)) (turns (- path (nth k uvw (0, 0, 0)) l m)))).
Proof.
  intros HW N RZ P OG PX SH. split; [apply Rmult_lt_0_compat; apply taper_pos|]. exact (put_pixel_grid W im uvw data w im' c0 c1 i j l m HW N RZ P OG PX SH).
Qed.
Lemma put_none im uvw data : (0 < i_n im)%Z -> length (i_bm im) = 1%nat -> length data = length uvw -> exists im', put im uvw data WNone = Ok im'.
Proof.
  intros N LB LD. unfold put. cbn [norm_wgts]. rewrite LB. cbn [Nat.sub repeat bind]. unfold put_on. cbn [fst snd].
  destruct (put_grid (i_n im) (i_res im) uvw data (seq 0 (length uvw)) (i_uv im) N) as (g & EG & _). rewrite take_all in EG. rewrite <- LD in EG. rewrite take_all in EG. rewrite EG. cbn [bind].
  destruct (i_bm im) as [|b [|b2 r]] eqn:EB; try discriminate. cbn [grid_all].
  destruct (put_grid (i_n im) (i_res im) uvw (repeat (1, 0) (length data)) (seq 0 (length uvw)) b N) as (h & EH & _). rewrite take_all in EH.
  replace (seq 0 (length uvw)) with (seq 0 (length (repeat ((1, 0) : C) (length data)))) in EH by (rewrite repeat_length, LD; auto). rewrite take_all in EH. rewrite EH. cbn [bind].
  eexists. reflexivity.
Qed.
Example C58_fourier_case : exists im', put im0 [(1, 2, 0); (-3, 0, 5)] [(1, 0); (0, 2)] WNone = Ok im' /\ Forall (on_grid (1 / 2)) [(1, 2, 0); (-3, 0, 5)].
Proof.
  destruct (put_none im0 [(1, 2, 0); (-3, 0, 5)] [(1, 0); (0, 2)] ltac:(cbn; lia) eq_refl eq_refl) as [im' E]. exists im'. split; [exact E|].
  constructor; [exists 2%Z, 4%Z; cbn [fst snd]; split; lra|]. constructor; [exists (-6)%Z, 0%Z; cbn [fst snd]; split; lra|]. constructor.
Qed.
(* the image of a source at (l0, m0): in every pixel, the sum of the cosines of the phases between the pixel and the source *)
Theorem C58_point_source W im uvw flux l0 m0 w im' c0 c1 i j l m : windows 3 W -> (0 < i_n im)%Z -> i_res im <> 0 -> (forall k, i_uv im k = (0, 0)) ->
  put im uvw (map (fun p => times (flux, 0) (turns (path p l0 m0))) uvw) w = Ok im' ->
  Forall (on_grid (i_res im)) uvw -> pixel_of (i_n im) i j -> shows (i_n im) (i_res im) c0 c1 (Z.of_nat i) (Z.of_nat j) l m ->
  pixel im' c0 c1 i j (flux * scale2 / IZR (i_n im * i_n im) * (taper (i_res im * m) * taper (i_res im * l)) *
    rsum uvw (fun p => cos (2 * PI * path p (l - l0) (m - m0)))).
Proof.
  intros HW N RZ BL P OG PX SH. destruct (put_pixel_grid W im uvw _ w im' c0 c1 i j l m HW N RZ P OG PX SH) as [v [v' [A [B E]]]].
  assert (V : v = 0).
  { eapply pixel_det; [exact A|]. replace 0 with (fst (ifft2 (i_n im) (i_uv im) ((Z.of_nat i + c0) mod i_n im) ((Z.of_nat j + c1) mod i_n im))); [apply pixel_value; auto|].
    rewrite ifft2_sum. assert (X : S2 (i_n im) (fun a b => cmul (i_uv im (a * i_n im + b)%Z) (cis (IZR (a * ((Z.of_nat i + c0) mod i_n im) + b * ((Z.of_nat j + c1) mod i_n im)) / IZR (i_n im)))) = (0, 0)).
    { unfold S2. apply csum_zero. intros a _. apply csum_zero. intros b _. rewrite BL. cr. }
    rewrite X. unfold cscale. cbn [fst]. ring. }
  rewrite V in E. rewrite Rplus_0_l in E. rewrite E in B. 
  match type of B with pixel _ _ _ _ _ (?s * ?t * ?r) => replace (flux * scale2 / IZR (i_n im * i_n im) * t * rsum uvw (fun p => cos (2 * PI * path p (l - l0) (m - m0)))) with (s * t * r); [exact B|] end.
  replace (rsum (seq 0 (length uvw)) _) with (flux * rsum uvw (fun p => cos (2 * PI * path p (l - l0) (m - m0)))); [unfold Rdiv; ring|].
  rewrite <- rsum_mul. transitivity (rsum (seq 0 (length uvw)) (fun k => flux * cos (2 * PI * path (nth k uvw (0, 0, 0)) (l - l0) (m - m0)))).
  - clear. transitivity (rsum (take (0, 0, 0) (seq 0 (length uvw)) uvw) (fun p => flux * cos (2 * PI * path p (l - l0) (m - m0)))); [rewrite take_all; auto|]. unfold take. rewrite rsum_map. auto.
  - apply rsum_eq. intros k K. apply in_seq in K. set (p := nth k uvw (0, 0, 0)).
    assert (ND : nth k (map (fun p => times (flux, 0) (turns (path p l0 m0))) uvw) (0, 0) = times (flux, 0) (turns (path p l0 m0))).
    { rewrite (nth_indep _ (0, 0) ((fun p => times (flux, 0) (turns (path p l0 m0))) (0, 0, 0))) by (rewrite map_length; lia). rewrite (map_nth (fun p => times (flux, 0) (turns (path p l0 m0)))). auto. }
    match goal with |- context [cmul ?x _] => replace x with (times (flux, 0) (turns (path p l0 m0))) by (symmetry; exact ND) end. replace (2 * PI * path p (l - l0) (m - m0)) with (2 * PI * path p l m - 2 * PI * path p l0 m0) by (unfold path; ring). rewrite cos_minus.
    unfold times, turns, cis, cmul. cbn [fst snd]. replace (2 * PI * - path p l m) with (- (2 * PI * path p l m)) by ring. rewrite cos_neg, sin_neg. ring.
Qed.
(* so that, the taper apart, no pixel is brighter than the one which shows the source *)
Theorem C58_peak W im uvw flux l0 m0 w im' c0 c1 i0 j0 i j l m v0 v : windows 3 W -> (0 < i_n im)%Z -> i_res im <> 0 -> (forall k, i_uv im k = (0, 0)) -> 0 <= flux ->
  put im uvw (map (fun p => times (flux, 0) (turns (path p l0 m0))) uvw) w = Ok im' -> Forall (on_grid (i_res im)) uvw ->
  pixel_of (i_n im) i0 j0 -> shows (i_n im) (i_res im) c0 c1 (Z.of_nat i0) (Z.of_nat j0) l0 m0 -> pixel im' c0 c1 i0 j0 v0 ->
  pixel_of (i_n im) i j -> shows (i_n im) (i_res im) c0 c1 (Z.of_nat i) (Z.of_nat j) l m -> pixel im' c0 c1 i j v ->
  v / (taper (i_res im * m) * taper (i_res im * l)) <= v0 / (taper (i_res im * m0) * taper (i_res im * l0)) /\
  v0 / (taper (i_res im * m0) * taper (i_res im * l0)) = flux * scale2 * INR (length uvw) / IZR (i_n im * i_n im).
Proof.
  intros HW N RZ BL FX P OG PX0 SH0 V0 PX SH V.
  pose proof (pixel_det _ _ _ _ _ _ _ V0 (C58_point_source W im uvw flux l0 m0 w im' c0 c1 i0 j0 l0 m0 HW N RZ BL P OG PX0 SH0)) as E0.
  pose proof (pixel_det _ _ _ _ _ _ _ V (C58_point_source W im uvw flux l0 m0 w im' c0 c1 i j l m HW N RZ BL P OG PX SH)) as E.
  assert (T : forall a b, taper a * taper b <> 0) by (intros a b; pose proof (taper_pos a); pose proof (taper_pos b); apply Rgt_not_eq; apply Rmult_lt_0_compat; auto).
  assert (NP : 0 < IZR (i_n im * i_n im)) by (apply IZR_lt; lia).
  assert (C0 : rsum uvw (fun p => cos (2 * PI * path p (l0 - l0) (m0 - m0))) = INR (length uvw)).
  { clear. induction uvw as [|p r IH]; [reflexivity|]. cbn [rsum]. rewrite IH. cbn [List.length]. rewrite S_INR. unfold path. replace (2 * PI * (fst (fst p) * (l0 - l0) + snd (fst p) * (m0 - m0))) with 0 by ring. rewrite cos_0. ring. }
  assert (CL : rsum uvw (fun p => cos (2 * PI * path p (l - l0) (m - m0))) <= INR (length uvw)).
  { clear. induction uvw as [|p r IH]; [cbn; lra|]. cbn [rsum]. cbn [List.length]. rewrite S_INR. pose proof (COS_bound (2 * PI * path p (l - l0) (m - m0))). lra. }
  rewrite C0 in E0.
  assert (Q0 : v0 / (taper (i_res im * m0) * taper (i_res im * l0)) = flux * scale2 / IZR (i_n im * i_n im) * INR (length uvw)).
  { rewrite E0. set (t := taper (i_res im * m0) * taper (i_res im * l0)). assert (TZ : t <> 0) by apply T. clearbody t. field. split; auto. apply not_0_IZR. lia. }
  assert (Q : v / (taper (i_res im * m) * taper (i_res im * l)) = flux * scale2 / IZR (i_n im * i_n im) * rsum uvw (fun p => cos (2 * PI * path p (l - l0) (m - m0)))).
  { rewrite E. set (t := taper (i_res im * m) * taper (i_res im * l)). assert (TZ : t <> 0) by apply T. clearbody t. field. split; auto. apply not_0_IZR. lia. }
  rewrite Q, Q0. split.
  - apply Rmult_le_compat_l; auto. unfold Rdiv. apply Rmult_le_pos; [apply Rmult_le_pos; auto; unfold scale2; lra|]. left. apply Rinv_0_lt_compat. auto.
  - unfold Rdiv. ring.
Qed.
Example C58_source_case : exists im', put im0 [(1, 2, 0); (-3, 0, 5)] (map (fun p => times (2, 0) (turns (path p (1 / 16) (1 / 8)))) [(1, 2, 0); (-3, 0, 5)]) WNone = Ok im' /\
  pixel_of 64 36 30 /\ (forall k, i_uv im0 k = (0, 0)).
Proof.
  destruct (put_none im0 [(1, 2, 0); (-3, 0, 5)] (map (fun p => times (2, 0) (turns (path p (1 / 16) (1 / 8)))) [(1, 2, 0); (-3, 0, 5)]) ltac:(cbn; lia) eq_refl eq_refl) as [im' E].
  exists im'. split; [exact E|]. split; [split; cbn; lia|]. reflexivity.
Qed.

(* ImgW.put: with the samples of each w further apart than the resolution, a pixel above the horizon changes by the Fourier
   sum over u, v and w, and the others by nothing *)
Theorem C58_w_projection W fuel wres order im uvw data w ws c0 c1 i j l m :
  windows 3 W -> 0 < wres -> (0 < i_n im)%Z -> i_res im <> 0 -> (0 < length uvw <= fuel)%nat ->
  argsorts (map snd uvw) order -> norm_wgts_w (length (i_bm im)) (length data) w = Ok ws -> length ws = length (i_bm im) ->
  length data = length uvw -> Forall (fun l => length l = length uvw) ws ->
  separated wres uvw -> Forall (on_grid (i_res im)) uvw ->
  pixel_of (i_n im) i j -> shows (i_n im) (i_res im) c0 c1 (Z.of_nat i) (Z.of_nat j) l m ->
  exists im' v v', imgw_put (wproj (i_n im) (i_res im)) fuel wres order im uvw data w = Some (Ok im') /\ pixel im c0 c1 i j v /\ pixel im' c0 c1 i j v' /\
  (1 <= l * l + m * m -> v' = v) /\
  (l * l + m * m < 1 -> v' = v + scale2 / IZR (i_n im * i_n im) / IZR (i_n im * i_n im) * (taper (i_res im * m) * taper (i_res im * l)) *
    rsum (seq 0 (length uvw)) (fun k => fst (times (nth k data (0, 0)) (turns (- path_w (nth k uvw (0, 0, 0)) l m))))).
Proof.
  intros HW WR N RZ LU AS NW LW LD LWS SP OG PX SH.
  destruct (C35_put (wproj (i_n im) (i_res im)) (fun _ => 0%Z) W fuel wres order im uvw data w ws HW WR N LU AS NW LW LD LWS) as (im' & cs & gs & hs & E & EN & ER & WP & F & _ & H & _).
  destruct (w_pixel_separated W wres im im' uvw data cs gs c0 c1 i j l m N RZ EN SP WP F H PX SH) as [v [v' [A [B EV]]]]. exists im', v, v'. split; auto. split; auto. split; auto.
  rewrite csum_fst in EV. unfold beyond in EV. destruct (Rle_dec 1 (l * l + m * m)) as [HL|HL]; split; intros H1; try lra.
  - rewrite EV. rewrite (rsum_eq _ _ (fun k => 0 * 0)). { rewrite rsum_mul. ring. } intros k _. unfold cmul, cscale. cbn [fst snd]. ring.
  - rewrite EV. f_equal. rewrite <- rsum_mul. apply rsum_eq. intros k K. apply in_seq in K. set (p := nth k uvw (0, 0, 0)).
    rewrite (seen_grid W) by (auto; apply nth_grid; auto; lia). unfold path_w. change (turns ?t) with (cis t).
    replace (- (path p l m + snd p * (sqrt (1 - l * l - m * m) - 1))) with (- path p l m + - (snd p * (sqrt (1 - l * l - m * m) - 1))) by ring. rewrite cis_add.
    unfold C in *. set (a := cis (- path p l m)). set (b := cis _). set (d := nth k data (0, 0)). clearbody a b d. change times with cmul. unfold cmul, cscale. cbn [fst snd]. ring.
Qed.
(* planes of several w: each sample gets the phase of the mean w of its plane *)
Theorem C58_w_planes W fuel wres order im uvw data w ws c0 c1 i j l m :
  windows 3 W -> 0 < wres -> (0 < i_n im)%Z -> i_res im <> 0 -> (0 < length uvw <= fuel)%nat ->
  argsorts (map snd uvw) order -> norm_wgts_w (length (i_bm im)) (length data) w = Ok ws -> length ws = length (i_bm im) ->
  length data = length uvw -> Forall (fun l => length l = length uvw) ws -> Forall (on_grid (i_res im)) uvw ->
  pixel_of (i_n im) i j -> shows (i_n im) (i_res im) c0 c1 (Z.of_nat i) (Z.of_nat j) l m -> l * l + m * m < 1 ->
  exists im' v v' cs, imgw_put (wproj (i_n im) (i_res im)) fuel wres order im uvw data w = Some (Ok im') /\ pixel im c0 c1 i j v /\ pixel im' c0 c1 i j v' /\
  w_planes wres (map snd uvw) cs /\
  v' = v + scale2 / IZR (i_n im * i_n im) / IZR (i_n im * i_n im) * (taper (i_res im * m) * taper (i_res im * l)) *
    rsum cs (fun c => let w := mean (map (fun k => snd (nth k uvw (0, 0, 0))) c) in
      rsum c (fun k => fst (times (nth k data (0, 0)) (turns (- path_w (fst (nth k uvw (0, 0, 0)), w) l m))))).
Proof.
  intros HW WR N RZ LU AS NW LW LD LWS OG PX SH HL.
  destruct (C35_put (wproj (i_n im) (i_res im)) (fun _ => 0%Z) W fuel wres order im uvw data w ws HW WR N LU AS NW LW LD LWS) as (im' & cs & gs & hs & E & EN & ER & WP & F & _ & H & _).
  destruct (w_pixel W im im' uvw data cs gs c0 c1 i j l m N RZ EN F H PX SH) as [v [v' [A [B EV]]]]. exists im', v, v', cs. split; auto. split; auto. split; auto. split; auto.
  rewrite csum_fst in EV. unfold beyond in EV. destruct (Rle_dec 1 (l * l + m * m)) as [H1|_]; [lra|].
  rewrite EV. f_equal. rewrite <- rsum_mul. apply rsum_eq. intros c IC. rewrite csum_fst. cbv zeta. rewrite <- rsum_mul. apply rsum_eq. intros k IK. fold (wmean uvw c).
  assert (K : (k < length uvw)%nat).
  { destruct WP as [P _]. assert (X : In k (seq 0 (length (map snd uvw)))) by (eapply Permutation_in; [exact P|]; apply in_concat; exists c; auto). apply in_seq in X. rewrite map_length in X. lia. }
  set (p := nth k uvw (0, 0, 0)). rewrite (seen_grid W) by (auto; apply nth_grid; auto). unfold path_w, path. cbn [fst snd]. fold (path p l m). change (turns ?t) with (cis t).
  replace (- (path p l m + wmean uvw c * (sqrt (1 - l * l - m * m) - 1))) with (- path p l m + - (wmean uvw c * (sqrt (1 - l * l - m * m) - 1))) by ring. rewrite cis_add.
  unfold C in *. set (a := cis (- path p l m)). set (b := cis _). set (d := nth k data (0, 0)). clearbody a b d. change times with cmul. unfold cmul, cscale. cbn [fst snd]. ring.
Qed.
Example C58_w_case : argsorts (map snd [(1, 2, 4); (-3, 0, 0)]) [1; 0]%nat /\ separated (1 / 2) [(1, 2, 4); (-3, 0, 0)] /\
  norm_wgts_w 1 2 WNone = Ok [[(1, 0); (1, 0)]] /\ IZR 1 / 16 * (IZR 1 / 16) + 1 / 8 * (1 / 8) < 1.
Proof.
  split. { split; [cbn; apply perm_swap|]. cbn. repeat constructor; lra. } split; [|split; [reflexivity|lra]].
  assert (S4 : forall s, signed_sqrt 4 s -> s = 2). { intros s [A _]. destruct (A ltac:(lra)) as [B D]. nra. }
  assert (S0 : forall s, signed_sqrt 0 s -> s = 0). { intros s [A _]. destruct (A ltac:(lra)) as [B D]. nra. }
  intros p q s t [<-|[<-|[]]] [<-|[<-|[]]] P Q L1 L2; cbn [snd] in *; auto; exfalso; repeat match goal with H : signed_sqrt 4 ?x |- _ => apply S4 in H; subst x | H : signed_sqrt 0 ?x |- _ => apply S0 in H; subst x end; lra.
Qed.
Lemma blank_pixel im c0 c1 i j v : (0 < i_n im)%Z -> pixel_of (i_n im) i j -> (forall k, i_uv im k = (0, 0)) -> pixel im c0 c1 i j v -> v = 0.
Proof.
  intros N PX BL A. eapply pixel_det; [exact A|]. replace 0 with (fst (ifft2 (i_n im) (i_uv im) ((Z.of_nat i + c0) mod i_n im) ((Z.of_nat j + c1) mod i_n im))); [apply pixel_value; auto|].
  rewrite ifft2_sum. assert (X : S2 (i_n im) (fun a b => cmul (i_uv im (a * i_n im + b)%Z) (cis (IZR (a * ((Z.of_nat i + c0) mod i_n im) + b * ((Z.of_nat j + c1) mod i_n im)) / IZR (i_n im)))) = (0, 0)).
  { unfold S2. apply csum_zero. intros a _. apply csum_zero. intros b _. rewrite BL. cr. }
  rewrite X. unfold cscale. cbn [fst]. ring.
Qed.
(* the image of a source at (l0, m0) seen with w terms: phases agree at the source's own pixel, whatever w is *)
Theorem C58_w_source W fuel wres order im uvw flux l0 m0 w ws c0 c1 i j l m :
  let data := map (fun p => times (flux, 0) (turns (path_w p l0 m0))) uvw in
  windows 3 W -> 0 < wres -> (0 < i_n im)%Z -> i_res im <> 0 -> (0 < length uvw <= fuel)%nat ->
  argsorts (map snd uvw) order -> norm_wgts_w (length (i_bm im)) (length data) w = Ok ws -> length ws = length (i_bm im) ->
  Forall (fun l => length l = length uvw) ws ->
  separated wres uvw -> Forall (on_grid (i_res im)) uvw -> (forall k, i_uv im k = (0, 0)) ->
  pixel_of (i_n im) i j -> shows (i_n im) (i_res im) c0 c1 (Z.of_nat i) (Z.of_nat j) l m -> l * l + m * m < 1 ->
  exists im', imgw_put (wproj (i_n im) (i_res im)) fuel wres order im uvw data w = Some (Ok im') /\
  pixel im' c0 c1 i j (flux * scale2 / IZR (i_n im * i_n im) / IZR (i_n im * i_n im) * (taper (i_res im * m) * taper (i_res im * l)) *
    rsum uvw (fun p => cos (2 * PI * (path_w p l m - path_w p l0 m0)))).
Proof.
  intros data HW WR N RZ LU AS NW LW LWS SP OG BL PX SH HL.
  destruct (C58_w_projection W fuel wres order im uvw data w ws c0 c1 i j l m HW WR N RZ LU AS NW LW ltac:(apply map_length) LWS SP OG PX SH) as (im' & v & v' & E & A & B & _ & EV).
  exists im'. split; auto. rewrite (EV HL) in B. rewrite (blank_pixel im c0 c1 i j v N PX BL A), Rplus_0_l in B. clear E EV.
  match type of B with pixel _ _ _ _ _ (?s * ?t * ?r) => replace (flux * scale2 / IZR (i_n im * i_n im) / IZR (i_n im * i_n im) * t * rsum uvw (fun p => cos (2 * PI * (path_w p l m - path_w p l0 m0)))) with (s * t * r); [exact B|] end.
  replace (rsum (seq 0 (length uvw)) _) with (flux * rsum uvw (fun p => cos (2 * PI * (path_w p l m - path_w p l0 m0)))); [unfold Rdiv; ring|].
  rewrite <- rsum_mul. transitivity (rsum (seq 0 (length uvw)) (fun k => flux * cos (2 * PI * (path_w (nth k uvw (0, 0, 0)) l m - path_w (nth k uvw (0, 0, 0)) l0 m0)))).
  - clear. transitivity (rsum (take (0, 0, 0) (seq 0 (length uvw)) uvw) (fun p => flux * cos (2 * PI * (path_w p l m - path_w p l0 m0)))); [rewrite take_all; auto|]. unfold take. rewrite rsum_map. auto.
  - apply rsum_eq. intros k K. apply in_seq in K. set (p := nth k uvw (0, 0, 0)).
    assert (ND : nth k data (0, 0) = times (flux, 0) (turns (path_w p l0 m0))).
    { unfold data. rewrite (nth_indep _ (0, 0) ((fun p => times (flux, 0) (turns (path_w p l0 m0))) (0, 0, 0))) by (rewrite map_length; lia). rewrite (map_nth (fun p => times (flux, 0) (turns (path_w p l0 m0)))). auto. }
    match goal with |- context [times ?x (turns (- _))] => replace x with (times (flux, 0) (turns (path_w p l0 m0))) by (symmetry; exact ND) end.
    replace (2 * PI * (path_w p l m - path_w p l0 m0)) with (2 * PI * path_w p l m - 2 * PI * path_w p l0 m0) by ring. rewrite cos_minus.
    unfold times, turns. cbn [fst snd]. replace (2 * PI * - path_w p l m) with (- (2 * PI * path_w p l m)) by ring. rewrite cos_neg, sin_neg. ring.
Qed.
Example C58_w_source_case : imgw_put (wproj 64 (1 / 2)) 2 (1 / 2) [1; 0]%nat im0 [(1, 2, 4); (-3, 0, 0)] (map (fun p => times (3, 0) (turns (path_w p (1 / 16) (1 / 8)))) [(1, 2, 4); (-3, 0, 0)]) WNone <> None.
Proof.
  destruct C58_w_case as [AS [SP [NW HL]]].
  assert (OG : Forall (on_grid (i_res im0)) [(1, 2, 4); (-3, 0, 0)]).
  { constructor; [exists 2%Z, 4%Z; cbn [fst snd im0 i_res]; split; lra|]. constructor; [exists (-6)%Z, 0%Z; cbn [fst snd im0 i_res]; split; lra|]. constructor. }
  destruct (C58_w_source T6 2 (1 / 2) [1; 0]%nat im0 [(1, 2, 4); (-3, 0, 0)] 3 (1 / 16) (1 / 8) WNone [[(1, 0); (1, 0)]] 32 32 36 30 (1 / 16) (1 / 8)
    windows_case ltac:(lra) ltac:(cbn; lia) ltac:(cbn [im0 i_res]; lra) ltac:(cbn; lia) AS NW eq_refl ltac:(constructor; [reflexivity|constructor]) SP OG (fun _ => eq_refl) ltac:(split; cbn; lia) shows_case HL) as [im' [E _]].
  cbn [im0 i_n i_res] in E. rewrite E. discriminate.
Qed.
(* samples of w = 0 put into an ImgW appear n*n times fainter than in an Img: conv_invker divides the kernel by its number
   of pixels *)
Theorem C58_w_scale_refuted W fuel wres order im uvw data w ws ia c0 c1 i j l m :
  windows 3 W -> 0 < wres -> (0 < i_n im)%Z -> i_res im <> 0 -> (0 < length uvw <= fuel)%nat ->
  argsorts (map snd uvw) order -> norm_wgts_w (length (i_bm im)) (length data) w = Ok ws -> length ws = length (i_bm im) ->
  Forall (fun l => length l = length uvw) ws -> Forall (on_grid (i_res im)) uvw -> Forall (fun p => snd p = 0) uvw ->
  put im uvw data w = Ok ia -> pixel_of (i_n im) i j -> shows (i_n im) (i_res im) c0 c1 (Z.of_nat i) (Z.of_nat j) l m -> l * l + m * m < 1 ->
  exists ib v va vb, imgw_put (wproj (i_n im) (i_res im)) fuel wres order im uvw data w = Some (Ok ib) /\
  pixel im c0 c1 i j v /\ pixel ia c0 c1 i j va /\ pixel ib c0 c1 i j vb /\ vb - v = (va - v) / IZR (i_n im * i_n im).
Proof.
  intros HW WR N RZ LU AS NW LW LWS OG WZ P PX SH HL.
  destruct (C58_fourier_sum W im uvw data w ia c0 c1 i j l m HW N RZ P OG PX SH) as [_ (v & va & A & B & E)].
  destruct (put_inv _ _ _ _ _ P) as [_ [_ [_ LD]]].
  destruct (C58_w_projection W fuel wres order im uvw data w ws c0 c1 i j l m HW WR N RZ LU AS NW LW LD LWS (separated_zero wres uvw WZ) OG PX SH) as (ib & v2 & vb & EP & A2 & B2 & _ & EV).
  rewrite (pixel_det _ _ _ _ _ _ _ A2 A) in *. exists ib, v, va, vb. split; auto. split; auto. split; auto. split; auto. rewrite (EV HL), E.
  rewrite (rsum_eq _ _ (fun k => fst (times (nth k data (0, 0)) (turns (- path (nth k uvw (0, 0, 0)) l m))))); [unfold Rdiv; ring|].
  intros k K. apply in_seq in K. rewrite Forall_forall in WZ. unfold path_w. rewrite (WZ (nth k uvw (0, 0, 0))) by (apply nth_In; lia). rewrite Rmult_0_l, Rplus_0_r. auto.
Qed.
(* Img.get_uv numbers the rows by u and the columns by v; put writes the sample (u, v) to row -v, column u *)
Theorem C58_get_uv_refuted : exists n res i j u v, (0 < n)%Z /\ 0 < res /\ (0 <= i < n)%Z /\ (0 <= j < n)%Z /\ uv_coords n res i j = (u, v) /\
  get_indices res u v = (-5, 3) /\ (i = 3 /\ j = 5)%Z.
Proof.
  exists 64%Z, (1 / 2), 3%Z, 5%Z, (IZR 3 * (1 / 2)), (IZR 5 * (1 / 2)). split; [lia|]. split; [lra|]. split; [lia|]. split; [lia|]. split; [reflexivity|].
  split; [unfold get_indices; f_equal; field|]. auto.
Qed.
(* what get_uv gives: row i stands for the u, and column j for the v, congruent to it, in a range of n that starts at
   n // 2 - n; and everywhere, not only in that case, put writes the sample at those coordinates to row -j, column i *)
Theorem C58_get_uv n res i j : (0 < n)%Z -> res <> 0 -> (0 <= i < n)%Z -> (0 <= j < n)%Z ->
  exists a b, uv_coords n res i j = (IZR a * res, IZR b * res) /\ (a mod n = i)%Z /\ (b mod n = j)%Z /\
    (n / 2 - n <= a < n / 2)%Z /\ (n / 2 - n <= b < n / 2)%Z /\ get_indices res (IZR a * res) (IZR b * res) = (IZR (- b), IZR a).
Proof.
  intros N R I J. exists (if (i <? n / 2)%Z then i else (i - n)%Z), (if (j <? n / 2)%Z then j else (j - n)%Z).
  assert (G : forall k, (0 <= k < n)%Z -> let c := if (k <? n / 2)%Z then k else (k - n)%Z in (c mod n = k /\ n / 2 - n <= c < n / 2)%Z).
  { intros k K c. pose proof (Z.div_mod n 2 ltac:(lia)). pose proof (Z.mod_pos_bound n 2 ltac:(lia)). unfold c. destruct (Z.ltb_spec k (n / 2)).
    - rewrite Z.mod_small by lia. lia.
    - replace (k - n)%Z with (k + (-1) * n)%Z by lia. rewrite Z_mod_plus_full, Z.mod_small by lia. lia. }
  destruct (G i I), (G j J). split; [reflexivity|]. repeat split; auto; try apply H0; try apply H2.
  unfold get_indices. f_equal; [rewrite opp_IZR|]; field; auto.
Qed.
Example C58_get_uv_case : uv_coords 5 2 2 1 = (IZR (-3) * 2, IZR 1 * 2).
Proof. reflexivity. Qed.
(* convolve2d is circular convolution, and ifft2 the inverse of fft2 *)
Theorem C58_convolution n a b i j : (0 < n)%Z -> (0 <= i < n)%Z -> (0 <= j < n)%Z -> convolve2d n a b (i * n + j)%Z = circular n a b i j.
Proof. apply convolve2d_circular. Qed.
Theorem C58_inverse_transform n m a b : (0 < n)%Z -> (0 <= a < n)%Z -> (0 <= b < n)%Z -> ifft2 n (flat n (fft2 n m)) a b = m (a * n + b)%Z.
Proof. apply ifft_fft. Qed.
Example C58_convolution_case : circular 2 (fun k => (IZR k, 0)) (fun k => (IZR k + 1, 0)) 0 0 = (IZR (1 * 2 + 2 * 3 + 3 * 4), 0).
Proof. unfold circular. change (ring 2) with [0%Z; 1%Z]. unfold csum, times. cbn [rsum fst snd]. cbn -[IZR]. f_equal; lra. Qed.
(* gaussian_beam: height amp, down by 1/e at distance sigma, distances taken around the edges *)
Theorem C58_gaussian_beam s0 s1 sigma amp c0 c1 (s := match sigma with inl k => IZR k | inr x => x end) : (0 < s0)%nat -> (0 < s1)%nat ->
  exists t, gaussian_beam sigma (inr (s0, s1)) amp c0 c1 = Ok t /\ rect s0 s1 t /\
  forall i j a b, (i < s0)%nat -> (j < s1)%nat -> signed (Z.of_nat s0) (Z.of_nat i + c0) a -> signed (Z.of_nat s1) (Z.of_nat j + c1) b ->
  at2 t i j = Some (amp * exp (- (IZR a * IZR a + IZR b * IZR b) / (s * s))).
Proof. apply gaussian_at. Qed.
Example C58_gaussian_case : signed (Z.of_nat 8) (Z.of_nat 6 + 3) 1 /\ signed (Z.of_nat 8) (Z.of_nat 1 + 4) (-3).
Proof. split; (split; [|cbn; lia]); [exists 1%Z|exists 1%Z]; reflexivity. Qed.
(* the area is not amp, as documented: amp is the height *)
Theorem C58_gaussian_area_refuted : exists t, gaussian_beam (inr 1) (inr (2, 1)%nat) 1 0 0 = Ok t /\ 1 < fold_right (fun r s => fold_right Rplus s r) 0 t.
Proof.
  destruct (C58_gaussian_beam 2 1 (inr 1) 1 0 0 ltac:(lia) ltac:(lia)) as [t [E [[L R] H]]]. exists t. split; auto.
  destruct t as [|r0 [|r1 [|r2 t]]]; try discriminate. inversion R as [|? ? R0 R']; subst. inversion R' as [|? ? R1 _]; subst.
  destruct r0 as [|x [|? r0]]; try discriminate. destruct r1 as [|y [|? r1]]; try discriminate.
  pose proof (H 0%nat 0%nat 0%Z 0%Z ltac:(lia) ltac:(lia) ltac:(split; [exists 0%Z; reflexivity|cbn; lia]) ltac:(split; [exists 0%Z; reflexivity|cbn; lia])) as X.
  pose proof (H 1%nat 0%nat 1%Z 0%Z ltac:(lia) ltac:(lia) ltac:(split; [exists 0%Z; reflexivity|cbn; lia]) ltac:(split; [exists 0%Z; reflexivity|cbn; lia])) as Y.
  cbn [at2 nth_error] in X, Y. injection X as ->. injection Y as ->. cbn [fold_right].
  replace (- (0 * 0 + 0 * 0) / (1 * 1)) with 0 by field. rewrite exp_0. pose proof (exp_pos (- (1 * 1 + 0 * 0) / (1 * 1))). lra.
Qed.
(* the peak is not at `center' but opposite to it: with center (3, 1) on an 8 by 8 grid, at (5, 7) *)
Theorem C58_gaussian_center_refuted : exists t, gaussian_beam (inl 2%Z) (inr (8, 8)%nat) 1 3 1 = Ok t /\ at2 t 5 7 = Some 1 /\ exists v, at2 t 3 1 = Some v /\ v < 1.
Proof.
  destruct (C58_gaussian_beam 8 8 (inl 2%Z) 1 3 1 ltac:(lia) ltac:(lia)) as [t [E [_ H]]]. exists t. split; auto. split.
  - rewrite (H 5%nat 7%nat 0%Z 0%Z); try lia; [|split; [exists 1%Z; reflexivity|cbn; lia]|split; [exists 1%Z; reflexivity|cbn; lia]]. replace (- (0 * 0 + 0 * 0) / (2 * 2)) with 0 by field. rewrite exp_0. f_equal. ring.
  - rewrite (H 3%nat 1%nat (-2)%Z 2%Z); try lia; [|split; [exists 1%Z; reflexivity|cbn; lia]|split; [exists 0%Z; reflexivity|cbn; lia]]. eexists. split; [reflexivity|].
    rewrite Rmult_1_l. apply Rlt_le_trans with (exp 0); [apply exp_increasing; lra|rewrite exp_0; lra].
Qed.
(* an integer `shape' is not looked at: the array is 2 sigma wide; with a float sigma this fails *)
Theorem C58_gaussian_shape_refuted : forall shape amp c0 c1,
  (forall k, (0 < k)%Z -> exists t, gaussian_beam (inl k) (inl shape) amp c0 c1 = Ok t /\ rect (2 * Z.to_nat k) (2 * Z.to_nat k) t) /\
  forall x, gaussian_beam (inr x) (inl shape) amp c0 c1 = Err.
Proof.
  intros shape amp c0 c1. split; [|reflexivity]. intros k K.
  destruct (C58_gaussian_beam (2 * Z.to_nat k) (2 * Z.to_nat k) (inl k) amp c0 c1 ltac:(lia) ltac:(lia)) as [t [E [R _]]]. exists t. split; [|exact R].
  rewrite <- E. unfold gaussian_beam. destruct (Z.ltb_spec k 0); [lia|]. replace (Z.to_nat (2 * k)) with (2 * Z.to_nat k)%nat by lia. reflexivity.
Qed.
(* images are said to have east to the right: l, the component towards east, falls along a row (but for the wrap) *)
Theorem C58_right_is_west_refuted n res c0 c1 i j b : (0 < n)%Z -> 0 < res -> signed n (j + c1) b -> (2 * b < n - 1)%Z ->
  forall l m l' m', shows n res c0 c1 i j l m -> shows n res c0 c1 i (j + 1) l' m' -> l' < l.
Proof.
  intros N RP B LB l m l' m' (a & b1 & _ & B1 & _ & ->) (a' & b2 & _ & B2 & _ & ->).
  rewrite (signed_unique n (j + c1) b1 b N B1 B). assert (B3 : signed n (j + 1 + c1) (b + 1)). { destruct B as [[k K] B]. split; [exists k; lia|lia]. }
  rewrite (signed_unique n (j + 1 + c1) b2 (b + 1) N B2 B3). rewrite plus_IZR.
  assert (NR : 0 < IZR n * res) by (apply Rmult_lt_0_compat; auto; apply IZR_lt; auto).
  apply (Rmult_lt_compat_r (/ (IZR n * res)) (- (IZR b + 1)) (- IZR b)); [apply Rinv_0_lt_compat; auto|lra].
Qed.
(* the origin of an image is not moved to `center' but to its opposite *)
Theorem C58_center_refuted n res c0 c1 : (0 < n)%Z -> res <> 0 -> shows n res c0 c1 ((- c0) mod n) ((- c1) mod n) 0 0 /\
  (shows n res c0 c1 (c0 mod n) (c1 mod n) 0 0 <-> ((2 * c0) mod n = 0 /\ (2 * c1) mod n = 0)%Z).
Proof.
  intros N RZ. assert (NZ : IZR n <> 0) by (apply not_0_IZR; lia).
  assert (O : forall x, signed n x 0 <-> (x mod n = 0)%Z).
  { intros x. split; [intros [[k ->] _]; rewrite Z.add_0_l; apply Z_mod_mult|]. intros M. split; [|lia]. exists (x / n)%Z. pose proof (Z.div_mod x n ltac:(lia)). lia. }
  assert (Q : forall i j, shows n res c0 c1 i j 0 0 <-> (signed n (i + c0) 0 /\ signed n (j + c1) 0)).
  { intros i j. split.
    - intros (a & b & A & B & E1 & E2).
      assert (IA : IZR a = 0) by (apply (Rmult_eq_reg_r (/ (IZR n * res))); [rewrite Rmult_0_l; symmetry; exact E1|apply Rinv_neq_0_compat; apply Rmult_integral_contrapositive; auto]).
      assert (IB : - IZR b = 0) by (apply (Rmult_eq_reg_r (/ (IZR n * res))); [rewrite Rmult_0_l; symmetry; exact E2|apply Rinv_neq_0_compat; apply Rmult_integral_contrapositive; auto]).
      apply (eq_IZR a 0) in IA. rewrite <- opp_IZR in IB. apply (eq_IZR (- b) 0) in IB. assert (b = 0)%Z by lia. subst. auto.
    - intros [A B]. exists 0%Z, 0%Z. split; auto. split; auto. split; field; auto. }
  rewrite !Q, !O. rewrite !Zplus_mod_idemp_l. split; [split; rewrite Z.add_opp_diag_l; apply Z.mod_0_l; lia|].
  replace (c0 + c0)%Z with (2 * c0)%Z by lia. replace (c1 + c1)%Z with (2 * c1)%Z by lia. reflexivity.
Qed.
Example C58_center_case : ((2 * 3) mod 64 <> 0)%Z /\ signed 64 (30 + 32) (-2).
Proof. split; [discriminate|]. split; [exists 1%Z; reflexivity|lia]. Qed.
Print Assumptions C58_pixel_coordinates.
Print Assumptions C58_directions.
Print Assumptions C58_image.
Print Assumptions C58_fourier_sum.
Print Assumptions C58_point_source.
Print Assumptions C58_peak.
Print Assumptions C58_w_projection.
Print Assumptions C58_w_planes.
Print Assumptions C58_w_source.
Print Assumptions C58_w_scale_refuted.
Print Assumptions C58_get_uv_refuted.
Print Assumptions C58_get_uv.
Print Assumptions C58_convolution.
Print Assumptions C58_inverse_transform.
Print Assumptions C58_gaussian_beam.
Print Assumptions C58_gaussian_area_refuted.
Print Assumptions C58_gaussian_center_refuted.
Print Assumptions C58_gaussian_shape_refuted.
Print Assumptions C58_right_is_west_refuted.
Print Assumptions C58_center_refuted.
