(* C26: baselines. Here "r" is any array, "run sid j1 l (new_arr ...)" one that has been through any
   history of operations since it was made. *)
From Coq Require Import Reals Lra String Nsatz.
From Verif Require Import Base CleanModel ImgModel GeoModel GeoSpec GeoProofs ArrModel ArrSpec ArrProofs.
Ltac Zify.zify_post_hook ::= idtac.
Open Scope R_scope.
Local Notation length := List.length.
Section Sky.
Variable sid j1 : R -> R.
(* the other way round: the opposite vector, in every frame *)
Theorem C26_opposite : forall r i j src l, get_baseline sid r i j src = Val l -> get_baseline sid r j i src = Val (map (vscale (-1)) l).
Proof.
  intros r i j src l. rewrite !baseline_val. intros [A [B [ms [E1 E2]]]]. split; [|split]; auto. exists ms. split; auto. subst l. rewrite map_map.
  apply map_ext. intros m. rewrite <- mv_scale. f_equal. unfold separation. destruct (pos_of r i) as [[? ?] ?], (pos_of r j) as [[? ?] ?]. cbn. vec_eq; ring.
Qed.
(* baselines add up around a triangle, in every frame *)
Theorem C26_closure : forall r i j k src a b, get_baseline sid r i j src = Val a -> get_baseline sid r j k src = Val b ->
  get_baseline sid r i k src = Val (zip_with vadd a b).
Proof.
  intros r i j k src a b. rewrite !baseline_val. intros [A [B [ms [E1 E2]]]] [_ [D [ns [F1 F2]]]]. split; [|split]; auto. exists ms. split; auto.
  assert (ns = ms) by congruence. subst. clear. induction ms as [|m ms IH]; cbn [map zip_with]; auto. f_equal; auto. rewrite <- mv_add. f_equal.
  unfold separation. destruct (pos_of r i) as [[? ?] ?], (pos_of r j) as [[? ?] ?], (pos_of r k) as [[? ?] ?]. cbn. vec_eq; ring.
Qed.
Theorem C26_self : forall r i src l, get_baseline sid r i i src = Val l -> Forall (fun v => v = (0, 0, 0)) l.
Proof.
  intros r i src l. rewrite baseline_val. intros [_ [_ [ms [_ ->]]]]. apply Forall_forall. intros v I. apply in_map_iff in I. destruct I as [m [<- _]].
  replace (separation r i i) with ((0, 0, 0) : vec); [apply mv_0|]. unfold separation. destruct (pos_of r i) as [[? ?] ?]. cbn. vec_eq; ring.
Qed.
(* no frame changes lengths *)
Theorem C26_length : forall lat t0 bs ants ops i j src l, let r := run sid j1 ops (new_arr lat t0 bs ants) in
  (forall b, src = SBody b -> rotation (s_map b)) ->
  get_baseline sid r i j src = Val l -> Forall (fun v => norm v = norm (separation r i j)) l.
Proof.
  intros lat t0 bs ants ops i j src l r B. rewrite baseline_val. intros [_ [_ [ms [E ->]]]]. apply (frames_rot sid j1) in E; auto.
  rewrite Forall_forall in *. intros v I. apply in_map_iff in I. destruct I as [m [<- I]]. destruct (E m I) as [D _]. unfold norm. rewrite D. auto.
Qed.
(* maps of bodies are rotations once computed *)
Theorem C26_body_rotation : forall alt_of r b, rotation (s_map (compute sid alt_of r b)).
Proof. intros. apply eq2top_rotation. Qed.
(* Towards equatorial vectors: u, v, w are the projections of the separation on the directions east,
   north and towards each source, the source standing at its right ascension minus the sidereal time. *)
Theorem C26_projection : forall r i j srcs, (i < length (r_ants r))%nat -> (j < length (r_ants r))%nat ->
  get_baseline sid r i j (SVecs srcs) = Val (map (fun v => let '(ra, dec) := eq2radec v in seen_from (ra - lst sid r) dec (separation r i j)) srcs).
Proof.
  intros r i j srcs A B. apply baseline_val. split; [|split]; auto. eexists. split; [reflexivity|]. rewrite map_map. apply map_ext. intros v.
  destruct (eq2radec v) as [ra dec]. rewrite <- eq2top_seen. f_equal. f_equal. ring.
Qed.
(* w is the projection on the unit vector of the source, turned back by the sidereal time *)
Theorem C26_w : forall r i j v, v <> (0, 0, 0) -> (i < length (r_ants r))%nat -> (j < length (r_ants r))%nat ->
  exists u v', get_baseline sid r i j (SVecs [v]) = Val [(u, v', dot (separation r i j) (turn (- lst sid r) (0, 0, 1) (vscale (/ norm v) v)))].
Proof.
  intros r i j v N A B. rewrite C26_projection by auto. cbn [map]. pose proof (eq_radec v N) as E. destruct (eq2radec v) as [ra dec]. rewrite <- E.
  unfold seen_from. eexists. eexists. f_equal. f_equal. f_equal. f_equal.
  assert (D : radec2eq (ra, dec) = towards ra dec) by (unfold radec2eq, thphi2xyz, towards; rewrite cos_shift, sin_shift; auto).
  rewrite D, <- rot_turn by (unfold unit; cbn; ring). unfold towards, rot_m. replace (ra - lst sid r) with (ra + - lst sid r) by ring. rewrite sin_plus, cos_plus. cbn. vec_eq; ring.
Qed.
(* A body computed for the present time gives the same as its vector; below the horizon it is refused. *)
Theorem C26_body : forall alt_of r i j b, let b' := compute sid alt_of r b in
  0 <= s_ra b < 2 * PI -> - (PI / 2) < s_dec b < PI / 2 ->
  (0 <= s_alt b' -> get_baseline sid r i j (SBody b') = get_baseline sid r i j (SVecs [radec2eq (s_ra b, s_dec b)])) /\
  (s_alt b' < 0 -> (i < length (r_ants r))%nat -> (j < length (r_ants r))%nat -> get_baseline sid r i j (SBody b') = Exc PointingError).
Proof.
  intros alt_of r i j b b' A D. split.
  - intros P. rewrite !baseline_frames. unfold frames. cbn [map]. rewrite radec_eq by auto. destruct (Rlt_dec (s_alt b') 0); [lra|]. reflexivity.
  - intros P Hi Hj. rewrite baseline_frames. apply nth_error_Some in Hi, Hj. destruct (nth_error (r_ants r) j), (nth_error (r_ants r) i); try contradiction.
    unfold frames. destruct (Rlt_dec (s_alt b') 0); [auto|lra].
Qed.
(* Zenith: the same as towards the point of the sky straight up. Unrotated: the separation.
   Other strings are refused. *)
Theorem C26_strings : forall lat t0 bs ants ops i j, let r := run sid j1 ops (new_arr lat t0 bs ants) in
  (i < length (r_ants r))%nat -> (j < length (r_ants r))%nat ->
  get_baseline sid r i j (SStr "z") = Val [seen_from 0 lat (separation r i j)] /\
  (0 <= lst sid r < 2 * PI -> - (PI / 2) < lat < PI / 2 -> get_baseline sid r i j (SStr "z") = get_baseline sid r i j (SVecs [radec2eq (lst sid r, lat)])) /\
  get_baseline sid r i j (SStr "r") = Val [separation r i j] /\
  (times ops <> [] -> get_baseline sid r i j (SStr "e") = Val [turn (- lst sid r) (0, 0, 1) (separation r i j)]) /\
  (times ops = [] -> get_baseline sid r i j (SStr "e") = Exc AttributeError) /\
  (forall s, s <> "e"%string -> s <> "z"%string -> s <> "r"%string -> get_baseline sid r i j (SStr s) = Exc ValueError).
Proof.
  intros lat t0 bs ants ops i j r A B. pose proof (run_geo sid j1 lat t0 bs ants ops) as G. cbv zeta in G. fold r in G.
  assert (G1 : r_eq2zen r = eq2top_m 0 lat) by (unfold geo in G; congruence).
  assert (G2 : r_eq2now r = option_map (fun t => rot_m (- sid t) (0, 0, 1)) (lastopt (times ops))) by (unfold geo in G; congruence).
  assert (G3 : r_date r = last (times ops) t0) by (unfold geo in G; congruence). clear G.
  assert (V : forall src ms, frames sid r src = Val ms -> get_baseline sid r i j src = Val (map (fun m => mv m (separation r i j)) ms)).
  { intros src ms E. apply baseline_val. split; [|split]; auto. eauto. }
  assert (X : forall src e, frames sid r src = Exc e -> get_baseline sid r i j src = Exc e).
  { intros src e E. rewrite baseline_frames, E. apply nth_error_Some in A, B. destruct (nth_error (r_ants r) j), (nth_error (r_ants r) i); auto; contradiction. }
  assert (Z : get_baseline sid r i j (SStr "z") = Val [seen_from 0 lat (separation r i j)]).
  { rewrite (V _ [r_eq2zen r]) by reflexivity. cbn [map]. rewrite G1, <- eq2top_seen. rewrite Ropp_0. auto. }
  split; [exact Z|]. split.
  { intros L D. rewrite C26_projection by auto. cbn [map]. rewrite radec_eq by auto. rewrite Rminus_diag_eq by auto. exact Z. }
  split. { rewrite (V _ [ident]) by reflexivity. cbn [map]. rewrite mv_ident. auto. }
  split. { intros T. destruct (lastopt (times ops)) as [t|] eqn:L.
    2:{ destruct (times ops) as [|x l] using rev_ind; [congruence|]. rewrite lastopt_app in L. discriminate. }
    assert (t = last (times ops) t0). { destruct (times ops) as [|x l _] using rev_ind; [congruence|]. rewrite lastopt_app in L. rewrite last_last. congruence. }
    rewrite (V _ [rot_m (- sid t) (0, 0, 1)]). 2:{ unfold frames. cbn. rewrite G2. reflexivity. }
    cbn [map]. rewrite rot_turn by (unfold unit; cbn; ring). unfold lst. rewrite G3. subst t. auto. }
  split. { intros T. apply X. unfold frames. cbn. rewrite G2, T. reflexivity. }
  intros s S1 S2 S3. apply X. unfold frames. rewrite (proj2 (String.eqb_neq s "e") S1), (proj2 (String.eqb_neq s "z") S2), (proj2 (String.eqb_neq s "r") S3). auto.
Qed.
(* uvw: the baseline times each active frequency *)
Theorem C26_uvw : forall r i j src l fs, get_baseline sid r i j src = Val l -> get_afreqs r = Val fs ->
  gen_uvw sid r i j src = Val (map (fun bl => map (fun f => vscale f bl) fs) l).
Proof.
  intros r i j src l fs E F. unfold gen_uvw. rewrite E. cbn [obind]. rewrite F. cbn [obind]. f_equal. apply map_ext. intros [[x y] z]. apply map_ext. intros f. cbn. vec_eq; ring.
Qed.
End Sky.
(* "Current equatorial" baselines are turned the wrong way: the projection of that vector on a source's
   equatorial direction is not the w of that source. *)
Definition unit_beam := new_beam [1] (fun _ _ => (1, 0)).
Definition ant_at (p : vec) : ant := {| a_pos := p; a_beam := 0; a_phspoly := [0; 0]; a_phsoff := [0]; a_bpr := [1]; a_bpi := [0]; a_amp := 1;
  a_gain := [(1, 0)]; a_rotx := ident; a_roty := ident |}.
Theorem C26_equatorial_refuted :
  ~ (forall sid lat t0 bs ants t i j v, unit v -> let r := set_jultime sid (new_arr lat t0 bs ants) t in
     forall e uvw, get_baseline sid r i j (SStr "e") = Val [e] -> get_baseline sid r i j (SVecs [v]) = Val [uvw] -> third uvw = dot e v).
Proof.
  intros H. set (sid := fun _ : R => PI / 2). set (r := set_jultime sid (new_arr 0 0 [unit_beam] [ant_at (0, 0, 0); ant_at (1, 0, 0)]) 0).
  assert (U : unit (0, 1, 0)) by (unfold unit; cbn; ring). specialize (H sid 0 0 [unit_beam] [ant_at (0, 0, 0); ant_at (1, 0, 0)] 0 0%nat 1%nat (0, 1, 0) U).
  cbv zeta in H. fold r in H.
  destruct (C26_strings sid sid 0 0 [unit_beam] [ant_at (0, 0, 0); ant_at (1, 0, 0)] [OTime 0] 0 1) as [_ [_ [_ [E _]]]]; [cbn; lia|cbn; lia|].
  destruct (C26_w sid r 0 1 (0, 1, 0)) as [u [v' W]]; [apply unit_nz; auto|cbn; lia|cbn; lia|].
  specialize (H _ _ (E ltac:(discriminate)) W). unfold third in H. change (run sid sid [OTime 0] (new_arr 0 0 [unit_beam] [ant_at (0, 0, 0); ant_at (1, 0, 0)])) with r in H.
  rewrite unit_norm, Rinv_1, vscale_1 in H by auto. replace (lst sid r) with (PI / 2) in H by reflexivity.
  unfold turn, separation, pos_of in H. cbn in H. rewrite cos_neg, sin_neg, cos_PI2, sin_PI2 in H. lra.
Qed.
Example C26_case : let r := set_jultime (fun _ => 0) (new_arr 0 0 [unit_beam] [ant_at (0, 0, 0); ant_at (1, 2, 3); ant_at (0, 5, 0)]) 0 in
  get_baseline (fun _ => 0) r 0 1 (SVecs [(1, 0, 0)]) = Val [(2, 3, 1)].
Proof.
  cbv zeta. rewrite C26_projection by (cbn; lia). cbn [map]. replace (1, 0, 0) with (radec2eq (0, 0)).
  2:{ unfold radec2eq, thphi2xyz. rewrite cos_shift, sin_shift, sin_0, cos_0. vec_eq; ring. }
  pose proof PI_RGT_0. rewrite radec_eq by lra. unfold seen_from, separation, pos_of, lst, east, north, towards. cbn. rewrite Rminus_0_r, sin_0, cos_0. f_equal. f_equal. vec_eq; ring.
Qed.
Print Assumptions C26_opposite. Print Assumptions C26_closure. Print Assumptions C26_self. Print Assumptions C26_length. Print Assumptions C26_body_rotation.
Print Assumptions C26_projection. Print Assumptions C26_w. Print Assumptions C26_body. Print Assumptions C26_strings. Print Assumptions C26_uvw. Print Assumptions C26_equatorial_refuted.
