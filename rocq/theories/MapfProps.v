(* C64: maps in files (aipy/healpix.py, aipy/map.py). *)
From Coq Require Import Reals Ascii String Lra.
From Verif Require Import Base ScriptModel ScriptProofs HpxModel HpxSpec HpxProofs2 HpxProps FitsModel FitsProofs MapfModel MapfSpec MapfProofs.
Local Open Scope Z_scope.
Local Notation length := List.length.

Lemma f2_length {A B} (P : A -> B -> Prop) l m : Forall2 P l m -> length l = length m.
Proof. induction 1; cbn; congruence. Qed.
(* one map: what is written is read, whatever the map it is read into held *)
Theorem C64_healpix_roundtrip f name cl n h f' h0 :
  full n h -> hpm_to_fits true (fun x => x) f name cl h = Ok f' ->
  exists h', hpm_from_fits f' name 0 h0 = Ok h' /\ shows (h_interp h0) h h'.
Proof.
  intros F. unfold hpm_to_fits, write_table. destruct (negb cl && _); [discriminate|]. intros [= <-].
  unfold hpm_from_fits. rewrite streq_refl. cbn [t_cols table_of].
  rewrite (new_table_same _ _ (length (h_map h))) by (repeat constructor || discriminate). cbn [map nth_error snd].
  rewrite (from_col_full (fun x => x) n (h_scheme h)) by (exact F || reflexivity). eexists. split; [reflexivity|].
  rewrite map_id. destruct F as [_ [F _]]. repeat split. symmetry. exact F.
Qed.
(* with a column format: every pixel as the format keeps it *)
Theorem C64_healpix_format cast f name cl n h f' h0 :
  full n h -> hpm_to_fits true cast f name cl h = Ok f' ->
  exists h', hpm_from_fits f' name 0 h0 = Ok h' /\ h_nside h' = n /\ h_scheme h' = h_scheme h /\ h_map h' = map cast (h_map h).
Proof.
  intros F. unfold hpm_to_fits, write_table. destruct (negb cl && _); [discriminate|]. intros [= <-].
  unfold hpm_from_fits. rewrite streq_refl. cbn [t_cols table_of].
  rewrite (new_table_same _ _ (length (h_map h))) by (repeat constructor || discriminate). cbn [map nth_error snd].
  rewrite (from_col_full cast n (h_scheme h)) by (exact F || reflexivity). eexists. repeat split.
Qed.
(* a map with weights and indices: written and made anew from the file, everything is there *)
Lemma to_inv cast f name cl hist n s k f' : alike n s k -> map_to_fits true cast f name cl hist k = Ok f' ->
  exists hc, history_cards 0 hist = Ok hc /\ f' name = Some (table_of (k_map k) (cols_of cast k) (map rtrim hc)) /\ (forall m, m <> name -> f' m = f m) /\ (cl = false -> f name = None).
Proof.
  intros A. unfold map_to_fits. destruct (history_cards 0 hist) as [hc|] eqn:E; [|discriminate]. cbn [bind]. rewrite (map_cols cast n s) by exact A.
  unfold write_table. destruct (negb cl && _) eqn:C; [discriminate|]. intros [= <-]. exists hc. split; [reflexivity|]. rewrite streq_refl. split; [reflexivity|]. split.
  - intros m N. destruct (streq m name) eqn:Q; [apply streq_spec in Q; contradiction|reflexivity].
  - intros ->. cbn in C. destruct (f name); [discriminate|reflexivity].
Qed.
Theorem C64_roundtrip f name cl hist n s k f' n0 s0 i0 :
  alike n s k -> map_to_fits true (fun x => x) f name cl hist k = Ok f' -> (exists j, 0 <= j /\ n0 = 2 ^ j) ->
  exists k', make_map f' n0 s0 i0 (Some name) None = Ok k' /\ alike n s k' /\
  shows i0 (k_map k) (k_map k') /\ shows i0 (k_wgt k) (k_wgt k') /\ Forall2 (shows false) (k_ind k) (k_ind k').
Proof.
  intros A H [j [J ->]]. destruct (to_inv _ _ _ _ _ _ _ _ _ A H) as [hc [_ [E _]]].
  assert (P : pow2 (2 ^ j) = true).
  { unfold pow2. rewrite Z.log2_pow2, Z.eqb_refl by lia. replace (0 <? 2 ^ j) with true by (symmetry; apply Z.ltb_lt; apply Z.pow_pos_nonneg; lia). reflexivity. }
  unfold make_map. rewrite P, (map_read _ n s k f' name _ _ A E). cbn [bind k_map k_wgt k_ind h_interp new_hpm app]. eexists. split; [reflexivity|].
  destruct A as [[A1 [A2 A3]] [A4 [[B1 [B2 B3]] [B4 C]]]]. rewrite !map_id. split; [|split; [|split]].
  - split; [split; [exact A1|split; [reflexivity|exact A3]]|]. split; [reflexivity|]. split; [split; [exact B1|split; [reflexivity|exact B3]]|]. split; [reflexivity|].
    cbn. apply Forall_forall. intros h I. apply in_map_iff in I. destruct I as [g [<- I]]. rewrite Forall_forall in C. destruct (C g I) as [[C1 [C2 C3]] C4].
    split; [split; [exact C1|split; [reflexivity|cbn; rewrite map_id; exact C3]]|reflexivity].
  - repeat split; cbn; congruence.
  - repeat split; cbn; congruence.
  - cbn. induction C as [|g l [[C1 [C2 C3]] C4] C IH]; cbn; constructor; [|exact IH]. repeat split; cbn; try congruence. apply map_id.
Qed.
(* so every direction has the flux, weight and indices it had *)
Theorem C64_sky {Dir} (pixel : Z -> scheme -> Dir -> Z) f name cl hist n s k f' n0 s0 i0 k' :
  alike n s k -> map_to_fits true (fun x => x) f name cl hist k = Ok f' -> (exists j, 0 <= j /\ n0 = 2 ^ j) ->
  make_map f' n0 s0 i0 (Some name) None = Ok k' ->
  forall d, sky pixel (k_map k') d = sky pixel (k_map k) d /\ sky pixel (k_wgt k') d = sky pixel (k_wgt k) d /\
  map (fun h => sky pixel h d) (k_ind k') = map (fun h => sky pixel h d) (k_ind k).
Proof.
  intros A H J E d. destruct (C64_roundtrip f name cl hist n s k f' n0 s0 i0 A H J) as [k2 [E2 [_ [S1 [S2 S3]]]]]. rewrite E in E2. injection E2 as <-.
  assert (X : forall i g h, shows i g h -> sky pixel h d = sky pixel g d) by (intros i g h [Q1 [Q2 [Q3 _]]]; unfold sky; rewrite Q1, Q2, Q3; reflexivity).
  split; [exact (X _ _ _ S1)|]. split; [exact (X _ _ _ S2)|]. induction S3 as [|g h l l' Q S3 IH]; [reflexivity|]. cbn. rewrite (X _ _ _ Q). f_equal. exact IH.
Qed.
(* asking for a number of indices: the first of the file, then empty ones like the map in the file *)
Theorem C64_nindices f name cl hist n s k f' n0 s0 i0 q :
  alike n s k -> map_to_fits true (fun x => x) f name cl hist k = Ok f' -> (exists j, 0 <= j /\ n0 = 2 ^ j) ->
  exists k', make_map f' n0 s0 i0 (Some name) (Some q) = Ok k' /\ alike n s k' /\ shows i0 (k_map k) (k_map k') /\ shows i0 (k_wgt k) (k_wgt k') /\
  length (k_ind k') = q /\ forall j h', nth_error (k_ind k') j = Some h' ->
    match nth_error (k_ind k) j with Some h => shows false h h' | None => Forall (fun x => x = 0%R) (h_map h') end.
Proof.
  intros A H J. destruct (C64_roundtrip f name cl hist n s k f' n0 s0 i0 A H J) as [k2 [E2 [A2 [S1 [S2 S3]]]]].
  pose proof (to_inv _ _ _ _ _ _ _ _ _ A H) as [hc [_ [E _]]].
  unfold make_map in *. destruct (pow2 n0); [|discriminate]. rewrite (map_read _ n s k f' name _ _ A E) in *. cbn [bind] in *. injection E2 as <-.
  eexists. split; [reflexivity|]. set (K := Sky _ _ _) in *. destruct A2 as [B1 [B2 [B3 [B4 B5]]]]. unfold set_nindices. cbn [k_map k_wgt k_ind].
  set (ind := firstn q (k_ind K)). assert (LI : (length ind <= q)%nat) by (unfold ind; rewrite firstn_length; lia).
  split; [|split; [exact S1|split; [exact S2|split]]].
  - repeat split; try apply B1; try apply B3; try exact B2; try exact B4. cbn [k_ind]. apply Forall_app. split.
    + apply Forall_forall. intros h I. rewrite Forall_forall in B5. apply B5. rewrite <- (firstn_skipn q). apply in_or_app. left. exact I.
    + apply Forall_forall. intros h I. apply repeat_spec in I. subst h. split; [apply new_full, B1|reflexivity].
  - rewrite app_length, repeat_length. lia.
  - intros j h' N. destruct (Nat.lt_ge_cases j (length ind)) as [L|L].
    + rewrite nth_error_app1 in N by exact L. unfold ind in N.
      assert (N2 : nth_error (k_ind K) j = Some h').
      { rewrite <- (firstn_skipn q (k_ind K)). rewrite nth_error_app1 by exact L. exact N. }
      clear - N2 S3. revert j N2. induction S3 as [|g h l l' Q S3 IH]; intros [|j] N2; try discriminate; cbn in *; [injection N2 as <-; exact Q|apply IH, N2].
    + rewrite nth_error_app2 in N by exact L.
      assert (G : (j - length ind < q - length ind)%nat) by (rewrite <- (repeat_length (new_hpm n s false) (q - length ind)); apply nth_error_Some; rewrite N; discriminate).
      apply nth_error_In in N. apply repeat_spec in N. subst h'.
      rewrite (proj2 (nth_error_None (k_ind k) j)).
      * rewrite new_hpm_map. apply Forall_forall. intros x I. apply repeat_spec in I. exact I.
      * rewrite (f2_length _ _ _ S3). unfold ind in L, G. rewrite firstn_length in L, G. lia.
Qed.
(* when it is accepted, with a history of printable lines; other files are left alone *)
Theorem C64_accepts old cast f name cl hist k : (forall c, In c hist -> 32 <= Z.of_N (N_of_ascii c) <= 126 \/ c = "010"%char) ->
  (exists f', map_to_fits old cast f name cl hist k = Ok f') <-> old = true /\ (cl = true \/ f name = None).
Proof.
  intros P. destruct (hist_ok0 hist) as [hc E]; [intros c I; destruct (P c I) as [K|K]; [left; unfold printable, cval; lia|right; exact K]|].
  unfold map_to_fits. destruct old; [|split; [intros [f' K]; discriminate|intros [K _]; discriminate]]. rewrite E. cbn [bind]. unfold write_table.
  destruct cl, (f name) eqn:Q; cbn; split; intros K; try (split; auto; fail); eauto; [destruct K as [? K]; discriminate|destruct K as [_ [K|K]]; discriminate].
Qed.
Theorem C64_healpix_accepts old cast f name cl h : (exists f', hpm_to_fits old cast f name cl h = Ok f') <-> old = true /\ (cl = true \/ f name = None).
Proof.
  unfold hpm_to_fits, write_table. destruct old; [|split; [intros [f' K]; discriminate|intros [K _]; discriminate]].
  destruct cl, (f name) eqn:Q; cbn; split; intros K; try (split; auto; fail); eauto; [destruct K as [? K]; discriminate|destruct K as [_ [K|K]]; discriminate].
Qed.
Theorem C64_other_files old cast f name cl hist k f' m : map_to_fits old cast f name cl hist k = Ok f' -> m <> name -> f' m = f m.
Proof.
  unfold map_to_fits, write_table. destruct old; [|discriminate]. destruct (history_cards 0 hist); [|discriminate]. cbn [bind].
  destruct (negb cl && _); [discriminate|]. intros [= <-] N. destruct (streq m name) eqn:Q; [apply streq_spec in Q; contradiction|reflexivity].
Qed.
(* the table: side, last pixel, ordering, and the columns with their names *)
Theorem C64_table cast f name cl hist n s k f' : alike n s k -> map_to_fits true cast f name cl hist k = Ok f' ->
  exists t, f' name = Some t /\ ordered t s /\ t_nside t = n /\ t_lastpix t = 12 * (n * n) - 1 /\ length (t_cols t) = (2 + length (k_ind k))%nat /\
  nth_error (t_cols t) 0 = Some (Signal, map cast (h_map (k_map k))) /\ nth_error (t_cols t) 1 = Some (Weights, map cast (h_map (k_wgt k))) /\
  forall j h, nth_error (k_ind k) j = Some h -> nth_error (t_cols t) (2 + j) = Some (SpIndex j, map cast (h_map h)).
Proof.
  intros A H. destruct (to_inv _ _ _ _ _ _ _ _ _ A H) as [hc [_ [E _]]]. eexists. split; [exact E|].
  destruct A as [[_ [A2 _]] [A4 _]]. cbn [t_cols table_of cols_of t_nside t_lastpix t_ordering].
  split; [exists []; cbn; rewrite A4, app_nil_r; destruct s; reflexivity|]. split; [exact A2|]. split; [rewrite A2; reflexivity|].
  split; [cbn; rewrite map_length, <- (map_length snd), number_snd; reflexivity|]. split; [reflexivity|]. split; [reflexivity|].
  intros j h N. cbn. apply (map_nth_error (fun '(n0, i) => (SpIndex n0, map cast (h_map i))) j (number 0 (k_ind k)) (d := (j, h))). rewrite number_nth, N. reflexivity.
Qed.
(* any file: it is read exactly when the ordering is named and every column is a full map *)
Theorem C64_reads f name k : (exists r, map_from_fits f name k = Ok r) <->
  exists t s, f name = Some t /\ ordered t s /\ t_cols t <> [] /\ Forall (fun c => map_size (snd c)) (t_cols t).
Proof.
  assert (O : forall t data h h', from_col t data h = Ok h' -> (exists s, ordered t s) /\ map_size data).
  { intros t data h h'. unfold from_col, ordered. destruct (t_ordering t) as [o|]; [|discriminate]. destruct (scheme_of o) as [s|] eqn:S; [|discriminate].
    apply scheme_of_iff in S. destruct S as [rest ->]. intros E. split; [exists s, rest; destruct s; reflexivity|]. apply (C43_set_map h data s). eauto. }
  assert (I : forall t s data h, ordered t s -> map_size data -> exists h', from_col t data h = Ok h' /\ h_scheme h' = s /\ full (h_nside h') h').
  { intros t s data h [rest E] M. unfold from_col. rewrite E. replace (scheme_of _) with (Some s) by (destruct s; reflexivity).
    destruct (proj2 (C43_set_map h data s) M) as [h' Q]. exists h'. split; [exact Q|].
    destruct M as [j [J L]]. pose proof (set_map_full (2 ^ j) (Hpm (2 ^ j) s data false) h s) as T. cbn [h_map] in T. rewrite T in Q by (repeat split; eauto). injection Q as <-. repeat split; eauto. }
  split.
  - intros [r H]. unfold map_from_fits in H. destruct (f name) as [t|]; [|discriminate]. destruct (t_cols t) as [|c0 cols] eqn:C; [discriminate|].
    destruct (from_col t (snd c0) (k_map k)) as [m|] eqn:E0; [|discriminate]. cbn [bind] in H. destruct (O _ _ _ _ E0) as [[s Os] M0].
    exists t, s. split; [reflexivity|]. split; [exact Os|]. rewrite C. split; [discriminate|]. constructor; [exact M0|].
    destruct cols as [|c1 cols]; [constructor|]. destruct (from_col t (snd c1) (k_wgt k)) as [w|] eqn:E1; [|discriminate]. cbn [bind skipn] in H.
    destruct (O _ _ _ _ E1) as [_ M1]. constructor; [exact M1|]. destruct (mapM _ cols) as [inds|] eqn:E2; [|discriminate]. clear - O E2.
    revert inds E2. induction cols as [|c cols IH]; intros inds E2; [constructor|]. cbn [mapM] in E2. destruct (from_col t (snd c) _) as [h|] eqn:E; [|discriminate]. cbn [bind] in E2.
    destruct (mapM _ cols) as [r|]; [|discriminate]. constructor; [apply (O _ _ _ _ E)|]. eapply IH. reflexivity.
  - intros [t [s [E [Os [N F]]]]]. unfold map_from_fits. rewrite E. destruct (t_cols t) as [|c0 cols]; [contradiction|]. inversion F as [|x y M0 F1]; subst x y.
    destruct (I t s (snd c0) (k_map k) Os M0) as [m [-> [_ Fm]]]. cbn [bind].
    assert (X : exists inds, mapM (fun c => from_col t (snd c) (new_hpm (h_nside m) (h_scheme m) false)) (skipn 1 cols) = Ok inds).
    { assert (G : Forall (fun c => map_size (snd c)) (skipn 1 cols)) by (destruct F1; [constructor|exact F1]). clear - G I Os. induction G as [|c l M G IH]; [exists []; reflexivity|].
      cbn [mapM]. destruct (I t s (snd c) (new_hpm (h_nside m) (h_scheme m) false) Os M) as [h [-> _]]. cbn [bind]. destruct IH as [r ->]. eexists. reflexivity. }
    destruct X as [inds X]. destruct cols as [|c1 cols].
    + destruct (proj2 (C43_set_map (new_hpm (h_nside m) (h_scheme m) false) (map (fun _ => 1%R) (h_map (new_hpm (h_nside m) (h_scheme m) false))) RING)) as [w ->].
      { destruct Fm as [[j [J Nm]] _]. exists j. split; [exact J|]. unfold lenZ. rewrite map_length, new_hpm_map, repeat_length, <- Nm. nia. }
      cbn [bind]. rewrite X. eexists. reflexivity.
    + inversion F1 as [|x y M1 F2]; subst x y. destruct (I t s (snd c1) (k_wgt k) Os M1) as [w [-> _]]. cbn [bind]. rewrite X. eexists. reflexivity.
Qed.
(* a file of one column: every pixel has weight one *)
Theorem C64_no_weights f name t s c k k' a : f name = Some t -> ordered t s -> t_cols t = [c] -> map_from_fits f name k = Ok (k', a) ->
  h_map (k_map k') = snd c /\ h_scheme (k_map k') = s /\ length (h_map (k_wgt k')) = length (snd c) /\ Forall (fun w => w = 1%R) (h_map (k_wgt k')) /\ k_ind k' = k_ind k.
Proof.
  intros E [rest O] C. unfold map_from_fits, from_col. rewrite E, C, O. replace (scheme_of _) with (Some s) by (destruct s; reflexivity).
  destruct (set_map (k_map k) (snd c) s) as [m|] eqn:S; [|discriminate]. cbn [bind].
  destruct (set_map _ _ RING) as [w|] eqn:W; [|discriminate]. cbn [bind skipn mapM]. intros [= <- <-]. cbn.
  apply C43_set_map_side in S. apply C43_set_map_side in W. destruct S as [S1 [S2 S3]], W as [W1 [W2 W3]]. rewrite W1, app_nil_r. repeat split; auto.
  - rewrite map_length, new_hpm_map, repeat_length. unfold lenZ in S3. lia.
  - apply Forall_forall. intros x I. apply in_map_iff in I. destruct I as [y [<- _]]. reflexivity.
Qed.

(* ---- findings ---- *)
Definition x_sky : skymap := Sky (Hpm 1 NEST [1; 2; 3; 4; 5; 6; 7; 8; 9; 10; 11; 12]%R false) (Hpm 1 NEST [2; 1; 1; 1; 1; 1; 1; 1; 1; 1; 1; 3]%R false)
   [Hpm 1 NEST [1; 0; 0; 0; 0; 0; 0; 0; 0; 0; 0; 5]%R false].
Definition nothing : tables := fun _ => None.
Example C64_case : alike 1 NEST x_sky /\ exists f', map_to_fits true (fun x => x) nothing (lit "a.fits") false (lit "made") x_sky = Ok f' /\ f' (lit "a.fits") <> None.
Proof.
  split; [|eexists; split; [reflexivity|discriminate]].
  assert (P : exists k, 0 <= k /\ 1 = 2 ^ k) by (exists 0; split; [lia|reflexivity]). repeat split; try exact P. constructor; [|constructor]. repeat split. exact P.
Qed.
(* with the library setup.py asks for nothing is ever written *)
Theorem C64_new_table_refuted cast f name cl hist k h : map_to_fits false cast f name cl hist k = Err /\ hpm_to_fits false cast f name cl h = Err.
Proof. split; reflexivity. Qed.
(* reading a file a second time doubles the indices *)
Theorem C64_read_twice_refuted : exists f' k1 a1 k2 a2, map_to_fits true (fun x => x) nothing (lit "a.fits") false [] x_sky = Ok f' /\
  map_from_fits f' (lit "a.fits") (Sky (new_hpm 1 RING false) (new_hpm 1 RING false) []) = Ok (k1, a1) /\ length (k_ind k1) = 1%nat /\
  map_from_fits f' (lit "a.fits") k1 = Ok (k2, a2) /\ length (k_ind k2) = 2%nat.
Proof. eexists. eexists. eexists. eexists. eexists. repeat split. Qed.
(* a map in NEST ordering without weights: the weights made for it are in RING ordering *)
Theorem C64_weights_scheme_refuted : exists f' k a, hpm_to_fits true (fun x => x) nothing (lit "a.fits") true (k_map x_sky) = Ok f' /\
  map_from_fits f' (lit "a.fits") (new_map 1 NEST false 0) = Ok (k, a) /\ h_scheme (k_map k) = NEST /\ h_scheme (k_wgt k) = RING.
Proof. eexists. eexists. eexists. repeat split. Qed.
(* after change_scheme, which reorders the fluxes only, the file has weights at the wrong places *)
Theorem C64_change_scheme_refuted : exists k' f' k2, map_change_scheme x_flip x_flip x_pixel x_sky RING = Ok k' /\
  map_to_fits true (fun x => x) nothing (lit "a.fits") false [] k' = Ok f' /\ make_map f' 1 RING false (Some (lit "a.fits")) None = Ok k2 /\
  (forall d, sky x_pixel (k_map k2) d = sky x_pixel (k_map x_sky) d) /\ exists d, sky x_pixel (k_wgt k2) d = 3%R /\ sky x_pixel (k_wgt x_sky) d = 2%R.
Proof.
  assert (G : good (k_map x_sky)) by (split; [exists 0; split; [lia|reflexivity]|reflexivity]).
  destruct (change_ok x_flip x_flip x_pixel x_centre x_healpix (k_map x_sky) RING G) as [m [E [L S]]].
  unfold map_change_scheme. rewrite E. cbn [bind]. cbn in L.
  do 12 (destruct m as [|? m]; [discriminate L|]). destruct m; [|discriminate L].
  eexists. eexists. eexists. split; [reflexivity|]. split; [reflexivity|]. split; [reflexivity|].
  split; [intros d; exact (S d)|]. exists 0. split; vm_compute; reflexivity.
Qed.
(* the ordering is written as NEST where the standard has NESTED *)
Theorem C64_ordering_refuted : exists f' t, hpm_to_fits true (fun x => x) nothing (lit "a.fits") true (k_map x_sky) = Ok f' /\ f' (lit "a.fits") = Some t /\
  t_ordering t <> Some (lit "NESTED").
Proof. eexists. eexists. split; [reflexivity|]. split; [reflexivity|discriminate]. Qed.
(* an interpolating map made from a file interpolates its fluxes but not its indices *)
Theorem C64_interp_refuted : exists f' k, map_to_fits true (fun x => x) nothing (lit "a.fits") false [] x_sky = Ok f' /\
  make_map f' 1 NEST true (Some (lit "a.fits")) None = Ok k /\ h_interp (k_map k) = true /\ exists i, In i (k_ind k) /\ h_interp i = false.
Proof. eexists. eexists. repeat split. eexists. split; [left; reflexivity|reflexivity]. Qed.
(* a shorter part is filled up with zeros: what is saved cannot be read as it was *)
Theorem C64_unequal_refuted : exists f' k, map_to_fits true (fun x => x) nothing (lit "a.fits") false [] (Sky (new_hpm 2 RING false) (new_hpm 1 RING false) []) = Ok f' /\
  make_map f' 1 RING false (Some (lit "a.fits")) None = Ok k /\ h_nside (k_wgt k) = 2.
Proof. eexists. eexists. repeat split. Qed.

Print Assumptions C64_healpix_roundtrip. Print Assumptions C64_healpix_format. Print Assumptions C64_roundtrip. Print Assumptions C64_sky. Print Assumptions C64_nindices.
Print Assumptions C64_accepts. Print Assumptions C64_healpix_accepts. Print Assumptions C64_other_files. Print Assumptions C64_table. Print Assumptions C64_reads. Print Assumptions C64_no_weights.
Print Assumptions C64_new_table_refuted. Print Assumptions C64_read_twice_refuted. Print Assumptions C64_weights_scheme_refuted. Print Assumptions C64_change_scheme_refuted.
Print Assumptions C64_ordering_refuted. Print Assumptions C64_interp_refuted. Print Assumptions C64_unequal_refuted.
