From Coq Require Import Reals Lra Permutation.
From Verif Require Import Base CleanModel CleanSpec CleanProofs GridModel GridSpec GridProofs HpxModel HpxSpec HpxProofs HpxProofs2.
Ltac Zify.zify_post_hook ::= idtac.
Open Scope Z_scope.

Section MapP.
Context {Dir : Type} (pixel : Z -> scheme -> Dir -> Z) (interp_weights : Z -> scheme -> Dir -> list (Z * R)).
Notation pixels := (pixels Dir pixel).
Notation setitem := (setitem Dir pixel).
Notation getitem := (getitem Dir pixel interp_weights).
Notation iadd := (iadd Dir pixel interp_weights).
Notation map_add := (map_add Dir pixel interp_weights).
Lemma pixels_eq h c : pixels h c = pixels_of pixel (h_nside h) (h_scheme h) c. Proof. destruct c; reflexivity. Qed.
Lemma get_ok h c : h_interp h = false -> Forall (fun p => 0 <= p < lenZ (h_map h)) (pixels h c) -> getitem h c = Ok (map (px (h_map h)) (pixels h c)).
Proof.
  intros I F. assert (G : mapM (np_get 0%R (h_map h)) (pixels h c) = Ok (map (px (h_map h)) (pixels h c))).
  { apply mapM_map. intros x X. rewrite Forall_forall in F. unfold np_get. rewrite np_index_pos by auto. reflexivity. }
  unfold getitem. destruct c; [exact G|]. rewrite I. exact G.
Qed.
Lemma sum_old n m ps vals k : Forall (fun p => 0 <= p < n) ps -> length vals = length ps -> 0 <= k < n ->
  sum_at n ps (zip_add (map (px m) ps) vals) k = (count_at n ps k * px m k + sum_at n ps vals k)%R.
Proof.
  intros F. revert vals. induction F as [|p ps P F IH]; intros [|v vals] L K; try discriminate.
  - unfold sum_at, count_at. cbn. lra.
  - unfold sum_at, count_at, zip_add in *. cbn [map combine rsum]. rewrite IH by (cbn in L; auto). rewrite hits_pos by auto.
    destruct (Z.eqb_spec p k) as [-> |]; lra.
Qed.
Lemma hit_dec n ps k : {addressed_px n ps k} + {~ addressed_px n ps k}.
Proof.
  destruct (existsb (fun i => hits n i k) ps) eqn:E; [left; apply existsb_exists in E as (i & I & H); exists i; auto|].
  right. intros (i & I & H). assert (existsb (fun i => hits n i k) ps = true) by (apply existsb_exists; eauto). congruence.
Qed.
Lemma sum_miss n ps vals k : ~ addressed_px n ps k -> sum_at n ps vals k = 0%R.
Proof.
  intros A. unfold sum_at. apply rsum_const0. intros [i v] I. destruct (hits n i k) eqn:H; auto. exfalso. apply A. exists i.
  split; auto. apply in_combine_l in I. auto.
Qed.
Lemma count_one n ps k : NoDup ps -> Forall (fun p => 0 <= p < n) ps -> 0 <= k < n -> addressed_px n ps k -> count_at n ps k = 1%R.
Proof.
  intros N F K (i & I & H). rewrite Forall_forall in F. rewrite hits_pos in H by auto. apply Z.eqb_eq in H. subst i.
  unfold count_at. rewrite (rsum_single _ _ k); auto.
  - rewrite hits_pos by auto. rewrite Z.eqb_refl. auto.
  - intros j J NJ. rewrite hits_pos by auto. destruct (Z.eqb_spec j k); congruence.
Qed.
Definition added (n : Z) (ps : list Z) (vals old new : list R) : Prop :=
  length new = length old /\ forall k, 0 <= k < n ->
  (addressed_px n ps k -> px new k = count_at n ps k * px old k + sum_at n ps vals k)%R /\ (~ addressed_px n ps k -> px new k = px old k).
Lemma iadd_ok h c vals : h_interp h = false -> good h -> Forall (fun p => 0 <= p < lenZ (h_map h)) (pixels h c) -> length vals = length (pixels h c) ->
  exists m, iadd h c vals = Ok (with_map h m) /\ added (lenZ (h_map h)) (pixels h c) vals (h_map h) m.
Proof.
  intros I [G LG] F L. unfold iadd. rewrite get_ok by auto. cbn [bind]. rewrite map_length, L, Nat.eqb_refl.
  destruct (set_ok pixel h c (zip_add (map (px (h_map h)) (pixels h c)) vals)) as (m & E & A & B).
  - rewrite LG. pose proof (good_npix _ G) as GN. unfold npix in GN. lia.
  - eapply Forall_impl; [|exact F]. cbn. unfold valid_px. intros. lia.
  - unfold zip_add. rewrite map_length, combine_length, map_length. lia.
  - exists m. split; auto. split; auto. intros k K. destruct (B k K) as [B1 B2]. split; auto. intros H. rewrite B1 by auto. apply sum_old; auto.
Qed.
Lemma zip_wsum n ps v w k : length v = length ps -> length w = length ps -> sum_at n ps (zip_mul v w) k = wsum n ps w v k.
Proof.
  unfold sum_at, wsum, zip_mul. revert v w. induction ps as [|p ps IH]; intros [|x v] [|y w] L1 L2; try discriminate; cbn [combine map rsum]; auto.
  rewrite IH by (cbn in *; auto). destruct (hits n p k); lra.
Qed.
Lemma mul_ok v w : length v = length w -> mul_chk v w = Ok (zip_mul v w) /\ length (zip_mul v w) = length w.
Proof. intros L. unfold mul_chk, zip_mul. rewrite L, Nat.eqb_refl. split; auto. rewrite map_length, combine_length. lia. Qed.
Lemma after_iadd n s h c vals S : part_of n s h -> Forall (fun p => 0 <= p < 12 * (n * n)) (pixels_of pixel n s c) -> length vals = length (pixels_of pixel n s c) ->
  (forall k, sum_at (12 * (n * n)) (pixels_of pixel n s c) vals k = S k) ->
  exists h', iadd h c vals = Ok h' /\ after_add (12 * (n * n)) (pixels_of pixel n s c) S h h'.
Proof.
  intros ((G & L) & <- & <- & I) F LV ES. rewrite <- pixels_eq in *. rewrite <- L in *.
  destruct (iadd_ok h c vals I (conj G L) F LV) as (m & E & A & B). exists (with_map h m). split; auto. repeat (split; [auto; fail|]).
  intros k K. rewrite <- ES. apply B. auto.
Qed.
Lemma part_after n s ps S h h' : part_of n s h -> after_add (12 * (n * n)) ps S h h' -> part_of n s h'.
Proof.
  intros ((G & L) & <- & <- & I) (A & B & C & D & _). repeat split; try congruence. unfold lenZ in *. rewrite D, A. auto.
Qed.
Lemma inds_ok n s c w : Forall (fun p => 0 <= p < 12 * (n * n)) (pixels_of pixel n s c) -> length w = length (pixels_of pixel n s c) ->
  forall maps inds, length inds = length maps -> Forall (fun v => length v = length (pixels_of pixel n s c)) inds -> Forall (part_of n s) maps ->
  exists maps', inds_upd (fun h v => bind (mul_chk v w) (iadd h c)) maps inds = Ok maps' /\
    Forall2 (fun hv h' => after_add (12 * (n * n)) (pixels_of pixel n s c) (wsum (12 * (n * n)) (pixels_of pixel n s c) w (snd hv)) (fst hv) h') (combine maps inds) maps'.
Proof.
  intros F LW. induction maps as [|h maps IH]; intros [|v inds] LI FI FP; try discriminate.
  - exists []. split; auto. constructor.
  - inversion FI as [|? ? LV FI']; inversion FP as [|? ? P FP']; subst. cbn [inds_upd].
    destruct (mul_ok v w) as [E LZ]; [congruence|]. rewrite E. cbn [bind].
    destruct (after_iadd n s h c (zip_mul v w) (wsum (12 * (n * n)) (pixels_of pixel n s c) w v) P F) as (h' & E' & A); [congruence | intros k; apply zip_wsum; auto|].
    rewrite E'. cbn [bind]. destruct (IH inds) as (ms & E2 & A2); auto. rewrite E2. cbn [bind]. eexists. split; [reflexivity|]. cbn [combine]. constructor; auto.
Qed.
Notation add_result := (add_result pixel).
Lemma forall2_after n s ps w (maps : list hpm) inds maps' : length inds = length maps ->
  Forall2 (fun hv h' => after_add (12 * (n * n)) ps (w (snd hv : list R)) (fst hv) h') (combine maps inds) maps' -> Forall (part_of n s) maps ->
  Forall (part_of n s) maps' /\ length maps' = length maps.
Proof.
  revert inds maps'. induction maps as [|h maps IH]; intros [|v inds] maps' L F P; try discriminate; inversion F; subst; [split; auto|].
  inversion P; subst. destruct (IH inds l') as [A B]; auto. split; [constructor; auto; eapply part_after; eauto | cbn; auto].
Qed.
Lemma map_add_ok n s k a : sky_of n s k -> valid_addition pixel n s (length (k_ind k)) a ->
  exists k', map_add k (ad_crd a) (ad_wgts a) (ad_fluxes a) (ad_inds a) = Ok k' /\ sky_of n s k' /\ length (k_ind k') = length (k_ind k) /\ add_result n s a k k'.
Proof.
  intros (PM & PW & PI) (F & LW & LF & LI & FI). unfold map_add.
  destruct (after_iadd n s (k_wgt k) (ad_crd a) (ad_wgts a) _ PW F LW (fun k => eq_refl)) as (w & EW & AW). rewrite EW. cbn [bind].
  destruct (mul_ok (ad_fluxes a) (ad_wgts a)) as [E LZ]; [congruence|]. rewrite E. cbn [bind].
  destruct (after_iadd n s (k_map k) (ad_crd a) (zip_mul (ad_fluxes a) (ad_wgts a)) (wsum (12 * (n * n)) (pixels_of pixel n s (ad_crd a)) (ad_wgts a) (ad_fluxes a)) PM F)
    as (m & EM & AM); [congruence | intros j; apply zip_wsum; auto|]. rewrite EM. cbn [bind].
  destruct (inds_ok n s (ad_crd a) (ad_wgts a) F LW (k_ind k) (ad_inds a) LI FI PI) as (ms & EI & AI). rewrite EI. cbn [bind].
  eexists. split; [reflexivity|]. destruct (forall2_after n s _ _ _ _ _ LI AI PI) as [Q1 Q2].
  assert (PM' : part_of n s m) by (exact (part_after _ _ _ _ _ _ PM AM)). assert (PW' : part_of n s w) by (exact (part_after _ _ _ _ _ _ PW AW)).
  split; [exact (conj PM' (conj PW' Q1))|]. split; [exact Q2|]. exact (conj AW (conj AM AI)).
Qed.
(* adds without repeats accumulate *)
Lemma after_plain n ps S h h' : NoDup ps -> Forall (fun p => 0 <= p < n) ps -> (forall k, ~ addressed_px n ps k -> S k = 0%R) -> after_add n ps S h h' ->
  forall k, 0 <= k < n -> px (h_map h') k = (px (h_map h) k + S k)%R.
Proof.
  intros N F Z (_ & _ & _ & _ & H) k K. destruct (H k K) as [H1 H2]. destruct (hit_dec n ps k) as [A|A].
  - rewrite H1 by auto. rewrite count_one by auto. lra.
  - rewrite H2 by auto. rewrite Z by auto. lra.
Qed.
Lemma wsum_miss n ps w v k : ~ addressed_px n ps k -> wsum n ps w v k = 0%R.
Proof.
  intros A. unfold wsum. apply rsum_const0. intros [i [x y]] I. destruct (hits n i k) eqn:H; auto. exfalso. apply A. exists i.
  split; auto. apply in_combine_l in I. auto.
Qed.
Notation run_adds := (run_adds pixel interp_weights).
Notation tot_w := (tot_w pixel).
Notation tot_v := (tot_v pixel).
Lemma nth_forall2 {A B C} (P : A * B -> C -> Prop) dA dB dC (l : list A) : forall (m : list B) (r : list C) i, length m = length l -> Forall2 P (combine l m) r -> (i < length l)%nat ->
  P (nth i l dA, nth i m dB) (nth i r dC).
Proof.
  induction l as [|x l IH]; intros [|y m] r i L F I; try discriminate; cbn in I; [lia|]. inversion F; subst. destruct i; auto.
  cbn [nth]. apply IH; auto. cbn in I. lia.
Qed.
Lemma runs_ok n s adds : forall k, sky_of n s k -> Forall (valid_addition pixel n s (length (k_ind k))) adds -> Forall (no_repeats pixel n s) adds ->
  exists k', run_adds k adds = Ok k' /\ sky_of n s k' /\ length (k_ind k') = length (k_ind k) /\
  forall p, 0 <= p < 12 * (n * n) ->
    px (h_map (k_wgt k')) p = (px (h_map (k_wgt k)) p + tot_w n s adds p)%R /\
    px (h_map (k_map k')) p = (px (h_map (k_map k)) p + tot_v ad_fluxes n s adds p)%R /\
    forall i, (i < length (k_ind k))%nat ->
      px (h_map (nth i (k_ind k') (k_wgt k))) p = (px (h_map (nth i (k_ind k) (k_wgt k))) p + tot_v (fun a => nth i (ad_inds a) []) n s adds p)%R.
Proof.
  induction adds as [|a adds IH]; intros k SK V N.
  - exists k. split; auto. split; auto. split; auto. intros p P. unfold tot_w, tot_v. cbn. split; [lra|]. split; [lra|]. intros. lra.
  - inversion V as [|? ? VA V']; inversion N as [|? ? NA N']; subst. cbn [run_adds].
    destruct (map_add_ok n s k a SK VA) as (k1 & E & SK1 & L1 & (AW & AM & AI)). rewrite E. cbn [bind].
    destruct (IH k1) as (k' & E' & SK' & L' & H); auto; [rewrite L1; auto|]. exists k'. split; auto. split; auto. split; [congruence|].
    destruct VA as (F & LW & LF & LI & FI).
    intros p P. destruct (H p P) as (HW & HM & HI). split; [|split].
    + rewrite HW. rewrite (after_plain _ _ _ _ _ NA F (fun k => sum_miss _ _ _ k) AW p P). unfold tot_w. cbn [rsum]. lra.
    + rewrite HM. rewrite (after_plain _ _ _ _ _ NA F (fun k => wsum_miss _ _ _ _ k) AM p P). unfold tot_v. cbn [rsum]. lra.
    + intros i I. rewrite L1 in HI. specialize (HI i I). rewrite (nth_indep _ _ (k_wgt k1)) by lia. rewrite HI.
      rewrite (nth_indep _ (k_wgt k1) (k_wgt k)) by lia.
      pose proof (nth_forall2 _ (k_wgt k) [] (k_wgt k) (k_ind k) (ad_inds a) (k_ind k1) i LI AI I) as A. cbn [fst snd] in A.
      rewrite (after_plain _ _ _ _ _ NA F (fun k => wsum_miss _ _ _ _ k) A p P). unfold tot_v. cbn [rsum]. lra.
Qed.
(* reading the average *)
Lemma zip_div_nth a b i : length a = length b -> (i < length a)%nat -> nth i (zip_div a b) 0%R = (nth i a 0 / nth i b 0)%R.
Proof.
  unfold zip_div. revert b i. induction a as [|x a IH]; intros [|y b] [|i] L I; try discriminate; cbn in *; try lia; auto. apply IH; lia.
Qed.
Lemma map_get_px n s k p : sky_of n s k -> 0 <= p < 12 * (n * n) ->
  HpxModel.map_get Dir pixel interp_weights k (Px _ [p]) = Ok ([px (h_map (k_map k)) p / pos_or_1 (px (h_map (k_wgt k)) p)]%R,
    map (fun h => [px (h_map h) p / pos_or_1 (px (h_map (k_wgt k)) p)]%R) (k_ind k)).
Proof.
  intros (((GM & LM) & NM & SM & IM) & ((GW & LW) & NW & SW & IW) & PI) P. unfold map_get.
  rewrite get_ok; auto; [|constructor; [rewrite LW, NW; lia | constructor]]. cbn [bind].
  rewrite get_ok; auto; [|constructor; [rewrite LM, NM; lia | constructor]]. cbn [bind pixels HpxModel.pixels map zip_div combine].
  rewrite (mapM_map _ (fun h => [px (h_map h) p / pos_or_1 (px (h_map (k_wgt k)) p)]%R)); auto.
  intros h H. rewrite Forall_forall in PI. destruct (PI h H) as ((G & L) & NN & SS & II). rewrite get_ok; [reflexivity | auto |]. constructor; [rewrite L, NN; lia | constructor].
Qed.
End MapP.
Lemma new_part n s : good_nside n -> part_of n s (new_hpm n s false).
Proof.
  intros G. unfold new_hpm. repeat split; auto. cbn [h_map h_nside]. unfold lenZ. rewrite repeat_length. pose proof (good_npix n G). fold (npix n). lia.
Qed.
Lemma new_sky n s i : good_nside n -> sky_of n s (new_map n s false i) /\ length (k_ind (new_map n s false i)) = i.
Proof.
  intros G. unfold new_map, set_nindices, sky_of. cbn [k_map k_wgt k_ind]. rewrite firstn_nil. cbn [app length]. rewrite Nat.sub_0_r, repeat_length.
  repeat split; try apply new_part; auto. apply Forall_forall. intros h H. apply repeat_spec in H. subst. apply new_part. auto.
Qed.
Lemma px_repeat n k : px (repeat 0%R n) k = 0%R.
Proof. unfold px. revert k. assert (H : forall j, nth j (repeat 0%R n) 0%R = 0%R) by (induction n; intros [|j]; cbn; auto). intros. apply H. Qed.
