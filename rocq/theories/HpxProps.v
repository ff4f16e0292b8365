(* C41: averaged sky maps. C42: assignment to healpix maps. C43: schemes and resolutions.
   C44: spherical-harmonic coefficient tables. *)
From Coq Require Import Reals Lra Permutation.
From Verif Require Import Base CleanModel CleanSpec CleanProofs GridModel HpxModel HpxSpec HpxProofs HpxProofs2 HpxProofs3.
Ltac Zify.zify_post_hook ::= idtac.
Open Scope Z_scope.

(* ---------------- a pixelization, to show that the contract can be met ---------------- *)
(* Directions are the nested pixel numbers of side 8192; RING counts backwards. *)
Definition x_cell (n : Z) : Z := (8192 / n) * (8192 / n).
Definition x_flip (n p : Z) : Z := npix n - 1 - p.
Definition x_nest (n d : Z) : Z := (d mod npix 8192) / x_cell n.
Definition x_pixel (n : Z) (s : scheme) (d : Z) : Z := match s with NEST => x_nest n d | RING => x_flip n (x_nest n d) end.
Definition x_centre (n : Z) (s : scheme) (p : Z) : Z := match s with NEST => p * x_cell n | RING => x_flip n p * x_cell n end.
Lemma x_npix n : good_nside n -> 0 < x_cell n /\ npix n * x_cell n = npix 8192 /\ (forall n', good_nside n' -> n <= n' -> exists c, 0 < c /\ x_cell n = x_cell n' * c).
Proof.
  intros (k & K & ->). unfold x_cell, npix. assert (E : forall k, 0 <= k <= 13 -> 8192 / 2 ^ k = 2 ^ (13 - k)).
  { intros j J. change 8192 with (2 ^ 13). rewrite Z.pow_sub_r by lia. reflexivity. }
  rewrite E by auto. assert (P : 0 < 2 ^ (13 - k)) by (apply Z.pow_pos_nonneg; lia). split; [nia|]. split.
  - assert (Q : 2 ^ k * 2 ^ (13 - k) = 8192) by (rewrite <- Z.pow_add_r by lia; replace (k + (13 - k)) with 13 by lia; reflexivity). nia.
  - intros n' (j & J & ->) L. rewrite E by auto. assert (KJ : k <= j) by (apply (Z.pow_le_mono_r_iff 2); lia).
    exists (2 ^ (j - k) * 2 ^ (j - k)). assert (R : 0 < 2 ^ (j - k)) by (apply Z.pow_pos_nonneg; lia). split; [nia|].
    replace (13 - k) with ((13 - j) + (j - k)) by lia. rewrite Z.pow_add_r by lia. ring.
Qed.
Lemma x_nest_range n d : good_nside n -> 0 <= x_nest n d < npix n.
Proof.
  intros G. destruct (x_npix n G) as (C & E & _). unfold x_nest. assert (P : 0 < npix 8192) by reflexivity. pose proof (Z.mod_pos_bound d _ P).
  split; [apply Z.div_pos; lia|]. apply Z.div_lt_upper_bound; [auto|]. lia.
Qed.
Lemma x_nest_cell n p : good_nside n -> 0 <= p < npix n -> x_nest n (p * x_cell n) = p.
Proof. intros G P. destruct (x_npix n G) as (C & E & _). unfold x_nest. rewrite Z.mod_small by nia. apply Z.div_mul. lia. Qed.
Lemma x_healpix : healpix Z x_flip x_flip x_pixel x_centre.
Proof.
  assert (F : forall n p, 0 <= p < 12 * (n * n) -> 0 <= x_flip n p < 12 * (n * n) /\ x_flip n (x_flip n p) = p) by (intros n p; unfold x_flip, npix; lia).
  split.
  - intros; apply F; auto.
  - intros; apply F; auto.
  - intros n [|] d G; cbn [x_pixel]; [apply F; apply x_nest_range; auto | apply x_nest_range; auto].
  - intros n [|] p G P; cbn [x_pixel x_centre]; rewrite x_nest_cell; auto; apply F; auto.
  - intros n d G. cbn [x_pixel]. symmetry. apply F. apply x_nest_range. auto.
  - intros n s n' s' d G G' L.
    assert (X : x_centre n' s' (x_pixel n' s' d) = x_nest n' d * x_cell n').
    { destruct s'; cbn [x_pixel x_centre]; auto. rewrite (proj2 (F n' _ (x_nest_range n' d G'))). auto. }
    rewrite X. assert (Y : x_nest n (x_nest n' d * x_cell n') = x_nest n d); [|destruct s; cbn [x_pixel]; rewrite Y; auto].
    destruct (x_npix n G) as (C & E & H). destruct (H n' G' L) as (c & C0 & EC). destruct (x_npix n' G') as (C' & E' & _).
    pose proof (x_nest_range n' d G') as R'. unfold x_nest at 1. rewrite Z.mod_small by nia. rewrite EC.
    rewrite <- Z.div_div by lia. rewrite Z.div_mul by lia. unfold x_nest. rewrite EC. rewrite Z.div_div by lia. reflexivity.
Qed.
Definition x_weights (n : Z) (s : scheme) (d : Z) : list (Z * R) := [(x_pixel n s d, / 2); (x_pixel n s 0, / 2)]%R.
Lemma good1 : good_nside 1. Proof. exists 0. lia. Qed.
Lemma good2 : good_nside 2. Proof. exists 1. lia. Qed.

(* ---------------- C42 ---------------- *)
Section C42.
Context {Dir : Type} (pixel : Z -> scheme -> Dir -> Z).
(* hpm[crds] = data: sums at the addressed pixels, nothing else changes; coordinates may repeat *)
Theorem C42_assign h c data : lenZ (h_map h) <= 2147483648 -> Forall (valid_px (lenZ (h_map h))) (pixels_of pixel (h_nside h) (h_scheme h) c) ->
  length data = length (pixels_of pixel (h_nside h) (h_scheme h) c) ->
  exists m, setitem Dir pixel h c (Arr data) = Ok (Hpm (h_nside h) (h_scheme h) m (h_interp h)) /\
            assigned (pixels_of pixel (h_nside h) (h_scheme h) c) data (h_map h) m.
Proof. rewrite <- pixels_eq. intros N V L. destruct (set_ok pixel h c data N V L) as (m & E & A). exists m. auto. Qed.
(* then reading a pixel gives the sum *)
Theorem C42_read_back (interp_weights : Z -> scheme -> Dir -> list (Z * R)) h c data p : good h -> h_interp h = false ->
  Forall (valid_px (lenZ (h_map h))) (pixels_of pixel (h_nside h) (h_scheme h) c) -> length data = length (pixels_of pixel (h_nside h) (h_scheme h) c) ->
  0 <= p < lenZ (h_map h) ->
  exists h', setitem Dir pixel h c (Arr data) = Ok h' /\
    getitem Dir pixel interp_weights h' (Px _ [p]) =
      if existsb (fun i => hits (lenZ (h_map h)) i p) (pixels_of pixel (h_nside h) (h_scheme h) c)
      then Ok [sum_at (lenZ (h_map h)) (pixels_of pixel (h_nside h) (h_scheme h) c) data p]
      else getitem Dir pixel interp_weights h (Px _ [p]).
Proof.
  intros [G L] I V LD P. destruct (C42_assign h c data) as (m & E & A & B); auto.
  { rewrite L. apply good_npix in G. unfold npix in G. lia. }
  eexists. split; [exact E|]. assert (LM : lenZ m = lenZ (h_map h)) by (unfold lenZ; lia).
  rewrite !get_ok by (auto; cbn; repeat constructor; lia). cbn [pixels map h_map]. destruct (B p P) as [B1 B2].
  destruct (existsb _ _) eqn:X.
  - rewrite B1; auto. apply existsb_exists in X as (i & Hi & X). exists i. auto.
  - rewrite B2; auto. intros (i & Hi & X'). assert (existsb (fun i => hits (lenZ (h_map h)) i p) (pixels_of pixel (h_nside h) (h_scheme h) c) = true)
      by (apply existsb_exists; eauto). congruence.
Qed.
(* one pixel takes a scalar too *)
Theorem C42_scalar h i x : valid_px (lenZ (h_map h)) i ->
  exists m, setitem Dir pixel h (Px _ [i]) (Scalar x) = Ok (Hpm (h_nside h) (h_scheme h) m (h_interp h)) /\ assigned [i] [x] (h_map h) m.
Proof.
  intros V. assert (E : setitem Dir pixel h (Px _ [i]) (Scalar x) = setitem Dir pixel h (Px _ [i]) (Arr [x])) by reflexivity. rewrite E. clear E.
  unfold setitem. cbn [pixels]. destruct (np_index_ok (lenZ (h_map h)) i V) as (k & EK & KL & KH). rewrite EK. cbn [bind].
  eexists. split; [reflexivity|]. split; [apply np_set_length|]. intros j J. unfold px. rewrite np_set_nth by (unfold lenZ in *; lia). split.
  - intros (q & [<- | []] & Hq). assert (EJ : j = Z.of_nat k) by (apply (hits_uniq _ i j (Z.of_nat k) J) in Hq; auto; lia). subst j.
    rewrite Nat2Z.id, Nat.eqb_refl, sum_at_single, KH. auto.
  - intros A. destruct (Nat.eqb_spec (Z.to_nat j) k); auto. exfalso. apply A. exists i. split; [left; auto|]. replace j with (Z.of_nat k) by lia. auto.
Qed.
(* an invalid pixel number or the wrong number of values is refused *)
Theorem C42_invalid h ps i data : lenZ (h_map h) <= 2147483648 -> Forall (fun p => -2147483648 <= p < 2147483648) ps -> In i ps -> ~ valid_px (lenZ (h_map h)) i ->
  setitem Dir pixel h (Px _ ps) (Arr data) = Err.
Proof.
  intros N F I B. unfold setitem. cbn [pixels]. assert (N' : 0 <= lenZ (h_map h) <= 2147483648) by (unfold lenZ in *; lia).
  assert (X : match add2array Rplus [lenZ (h_map h)] (fun _ => 0%R) (map (fun p => [p]) ps) data with Some (true, _) => False | _ => True end).
  { destruct (Nat.eq_dec (length ps) (length data)) as [L|L].
    - destruct (loop1_bad Rplus (lenZ (h_map h)) ps i N' F I B data (fun _ => 0%R) L) as (b & ->). exact Logic.I.
    - unfold add2array. rewrite map_length. destruct (Nat.eqb_spec (length ps) (length data)); [contradiction|]. exact Logic.I. }
  destruct ps as [|p [|q ps]]; [destruct I | |].
  - destruct I as [-> | []]. rewrite np_index_bad by auto. reflexivity.
  - destruct (add2array Rplus _ _ _ data) as [[[] b]|]; try reflexivity. destruct X.
Qed.
Theorem C42_wrong_count h ps data : length data <> length ps -> setitem Dir pixel h (Px _ ps) (Arr data) = Err.
Proof.
  intros L. unfold setitem. cbn [pixels].
  assert (X : add2array Rplus [lenZ (h_map h)] (fun _ => 0%R) (map (fun p => [p]) ps) data = None).
  { unfold add2array. rewrite map_length. destruct (Nat.eqb_spec (length ps) (length data)); [congruence|]. reflexivity. }
  destruct ps as [|p [|q ps]]; [rewrite X; reflexivity | | rewrite X; reflexivity].
  destruct (np_index _ _); cbn [bind]; auto. destruct data as [|x [|y data]]; cbn in L; auto. lia.
Qed.
(* a scalar is not spread over several pixels *)
Theorem C42_scalar_refuted h ps x : length ps <> 1%nat -> setitem Dir pixel h (Px _ ps) (Scalar x) = Err.
Proof.
  intros L. unfold setitem. cbn [pixels].
  assert (X : add2array Rplus [lenZ (h_map h)] (fun _ => 0%R) (map (fun p => [p]) ps) [x] = None).
  { unfold add2array. rewrite map_length. destruct (Nat.eqb_spec (length ps) (length [x])); [contradiction|]. reflexivity. }
  destruct ps as [|p [|q ps]]; [rewrite X; reflexivity | | rewrite X; reflexivity]. cbn in L. lia.
Qed.
(* add2array keeps indices in an int: on a map of side 16384, a value for pixel 3000000000
   lands on pixel 1926258176 *)
Theorem C42_side_16384_refuted h : lenZ (h_map h) = npix 16384 -> exists m, setitem Dir pixel h (Px _ [0; 3000000000]) (Arr [1; 1]%R) = Ok (with_map h m) /\
  px m 1926258176 = 1%R /\ px m 3000000000 = px (h_map h) 3000000000.
Proof.
  intros L. unfold setitem. cbn [pixels]. assert (N : lenZ (h_map h) = 3221225472) by (rewrite L; reflexivity). rewrite N.
  assert (A : forall T (add : T -> T -> T) z o, add2array add [3221225472] (fun _ => z) (map (fun p => [p]) [0; 3000000000]) [o; o] =
     Some (true, fun k => if cell_eqb [1926258176] k then add (if cell_eqb [0] k then add z o else z) o else if cell_eqb [0] k then add z o else z)) by reflexivity.
  rewrite A. cbn [map]. rewrite (A bool orb false true : add2array orb [3221225472] (fun _ => false) [[0]; [3000000000]] [true; true] = _).
  eexists. split; [reflexivity|]. unfold lenZ in N. split; rewrite uncells_px by lia.
  - assert (E1 : cell_eqb [1926258176] [1926258176] = true) by reflexivity. assert (E2 : cell_eqb [0] [1926258176] = false) by reflexivity. rewrite E1, E2. cbn. lra.
  - assert (E1 : cell_eqb [1926258176] [3000000000] = false) by reflexivity. assert (E2 : cell_eqb [0] [3000000000] = false) by reflexivity. rewrite E1, E2. reflexivity.
Qed.
End C42.
Example C42_case : let h := new_hpm 1 RING false in good h /\ h_interp h = false /\
  Forall (valid_px (lenZ (h_map h))) [3; 3; -1] /\ assigned [3; 3; -1] [1; 2; 4]%R (repeat 0%R 12) [0; 0; 0; 3; 0; 0; 0; 0; 0; 0; 0; 4]%R.
Proof.
  cbv zeta. split; [apply (new_part 1 RING good1)|]. split; [auto|]. split; [change (lenZ (h_map (new_hpm 1 RING false))) with 12; unfold valid_px; apply Forall_forall; intros i [<- | [<- | [<- | []]]]; lia|].
  split; [reflexivity|]. intros k K. change (lenZ (repeat 0%R 12)) with 12 in *.
  assert (E : k = 0 \/ k = 1 \/ k = 2 \/ k = 3 \/ k = 4 \/ k = 5 \/ k = 6 \/ k = 7 \/ k = 8 \/ k = 9 \/ k = 10 \/ k = 11) by lia.
  unfold sum_at, hits, addressed_px, px. split.
  - intros (i & I & H). unfold hits in H. assert (k = 3 \/ k = 11) as [-> | ->] by (clear E; apply orb_true_iff in H as [H|H]; apply Z.eqb_eq in H; destruct I as [<- | [<- | [<- | []]]]; lia); [change (Z.to_nat 3) with 3%nat | change (Z.to_nat 11) with 11%nat]; cbn; lra.
  - intros H. repeat (destruct E as [-> | E]; [reflexivity || exfalso; apply H; unfold hits; (exists 3; split; [left; reflexivity|reflexivity]) || (exists (-1); split; [right; right; left; reflexivity|reflexivity])|]).
    subst k. exfalso. apply H. exists (-1). split; [right; right; left; reflexivity|reflexivity].
Qed.

(* ---------------- C43 ---------------- *)
Section C43.
Context {Dir : Type} (ring2nest nest2ring : Z -> Z -> Z) (pixel : Z -> scheme -> Dir -> Z) (centre : Z -> scheme -> Z -> Dir).
Hypothesis HX : healpix Dir ring2nest nest2ring pixel centre.
Notation change_scheme := (change_scheme Dir ring2nest nest2ring pixel).
Theorem C43_change_scheme h s : good h -> exists h', change_scheme h s = Ok h' /\ good h' /\ h_scheme h' = s /\ h_nside h' = h_nside h /\
  (forall d, sky pixel h' d = sky pixel h d) /\ change_scheme h' (h_scheme h) = Ok h.
Proof.
  intros G. destruct (change_back ring2nest nest2ring pixel centre HX h s G) as (h' & E & B). destruct (change_ok ring2nest nest2ring pixel centre HX h s G) as (m & E' & L & S).
  rewrite E' in E. injection E as <-. eexists. split; [exact E'|]. destruct G as [G1 G2]. split; [split; auto; cbn; unfold lenZ in *; rewrite L; auto|]. auto.
Qed.
Context (interp_weights : Z -> scheme -> Dir -> list (Z * R)).
Notation from_hpm := (from_hpm Dir ring2nest nest2ring pixel centre interp_weights).
(* onto a coarser map: every pixel is the sum of the pixels inside it; the total is kept *)
Theorem C43_to_coarser self hp : good self -> good hp -> h_nside self < h_nside hp -> exists m,
  from_hpm self hp = Ok (Hpm (h_nside self) (h_scheme self) m (h_interp self), hp) /\ length m = length (h_map self) /\
  (forall p, 0 <= p < lenZ m -> px m p = rsum (arange (lenZ (h_map hp))) (fun q =>
     if pixel (h_nside self) (h_scheme self) (centre (h_nside hp) (h_scheme hp) q) =? p then px (h_map hp) q else 0%R)) /\
  total m = total (h_map hp).
Proof. intros G G' N. exact (degrade_ok ring2nest nest2ring pixel centre HX interp_weights self hp G G' N). Qed.
(* onto a finer map: every pixel is the interpolation of the other map at its centre *)
Theorem C43_to_finer self hp : good self -> good hp -> h_nside hp < h_nside self ->
  (forall d, Forall (fun qw => 0 <= fst qw < lenZ (h_map hp)) (interp_weights (h_nside hp) (h_scheme hp) d)) -> exists m hp',
  from_hpm self hp = Ok (Hpm (h_nside self) (h_scheme self) m (h_interp self), hp') /\ length m = length (h_map self) /\
  forall p, 0 <= p < lenZ m -> px m p = rsum (interp_weights (h_nside hp) (h_scheme hp) (centre (h_nside self) (h_scheme self) p))
     (fun qw => px (h_map hp) (fst qw) * snd qw)%R.
Proof.
  intros G G' N IW. destruct (upgrade_ok ring2nest nest2ring pixel centre interp_weights self hp G G' N IW) as (m & E & L & H).
  exists m. eexists. split; [exact E|]. auto.
Qed.
(* but it leaves interpolation switched on in the map it reads from *)
Theorem C43_argument_changed_refuted self hp : good self -> good hp -> h_nside hp < h_nside self -> h_interp hp = false ->
  (forall d, Forall (fun qw => 0 <= fst qw < lenZ (h_map hp)) (interp_weights (h_nside hp) (h_scheme hp) d)) ->
  exists self' hp', from_hpm self hp = Ok (self', hp') /\ hp' <> hp.
Proof.
  intros G G' N I IW. destruct (upgrade_ok ring2nest nest2ring pixel centre interp_weights self hp G G' N IW) as (m & E & _).
  eexists. eexists. split; [exact E|]. intros E'. rewrite <- E' in I. cbn in I. discriminate.
Qed.
(* same side, same scheme: a copy *)
Theorem C43_same_scheme self hp : h_nside self = h_nside hp -> h_scheme self = h_scheme hp -> exists self',
  from_hpm self hp = Ok (self', hp) /\ forall d, sky pixel self' d = sky pixel hp d.
Proof.
  intros N S. eexists. split.
  - unfold HpxModel.from_hpm. rewrite N, S, Z.ltb_irrefl. replace (scheme_eqb (h_scheme hp) (h_scheme hp)) with true by (destruct (h_scheme hp); reflexivity). reflexivity.
  - intros d. unfold sky. cbn. rewrite N, S. reflexivity.
Qed.
(* same side, other scheme: the pixels are put in this map's order but the map takes the other
   scheme's name, so that it shows a different sky (at any side where the two numberings differ) *)
Theorem C43_other_scheme_refuted n p : good_nside n -> 0 <= p < 12 * (n * n) -> ring2nest n p <> p ->
  exists self hp self' d, good self /\ good hp /\ h_nside self = n /\ h_nside hp = n /\ h_scheme self = RING /\ h_scheme hp = NEST /\
  from_hpm self hp = Ok (self', hp) /\ h_scheme self' = NEST /\ sky pixel hp d = 1%R /\ sky pixel self' d = 0%R.
Proof.
  intros G P D. set (q := ring2nest n p). pose proof (hx_r2n _ _ _ _ _ HX n p G P) as [Q1 Q2]. fold q in Q1, Q2.
  set (m := map (fun k => if k =? q then 1%R else 0%R) (arange (npix n))).
  assert (PM : forall k, 0 <= k < npix n -> px m k = if k =? q then 1%R else 0%R).
  { intros k K. unfold m, px. rewrite (nth_indep _ 0%R ((fun k => if k =? q then 1%R else 0%R) (Z.of_nat 0))) by (unfold arange; rewrite !map_length, seq_length; lia).
    rewrite (map_nth (fun k => if k =? q then 1%R else 0%R)). unfold arange. rewrite map_nth, seq_nth by lia. rewrite Nat.add_0_l, Z2Nat.id by lia. reflexivity. }
  pose proof (good_npix n G) as GN. assert (LM : lenZ m = npix n) by (unfold m, lenZ; rewrite map_length; apply arange_length; lia).
  exists (new_hpm n RING false), (Hpm n NEST m false). exists (Hpm n NEST (map (fun k => px m (ring2nest n k)) (arange (npix n))) false), (centre n RING p).
  split; [apply (new_part n RING G)|]. split; [split; auto|]. repeat (split; [reflexivity|]).
  assert (RN : pixel n NEST (centre n RING p) = q) by (rewrite (hx_same _ _ _ _ _ HX) by auto; rewrite (hx_centre _ _ _ _ _ HX) by auto; reflexivity).
  split; [|split; [reflexivity|split]].
  - unfold HpxModel.from_hpm. cbn [h_nside new_hpm h_scheme scheme_eqb nest_ring_conv with_scheme h_map]. rewrite Z.ltb_irrefl.
    rewrite (mapM_map _ (px m)); [cbn [bind]; rewrite map_map; reflexivity|]. intros x X. apply in_map_iff in X as (y & <- & Y). apply arange_in in Y.
    unfold np_get. rewrite np_index_pos; [reflexivity|]. rewrite LM. apply HX; auto.
  - unfold sky. cbn [h_map h_nside h_scheme]. rewrite RN, PM by auto. rewrite Z.eqb_refl. auto.
  - unfold sky. cbn [h_map h_nside h_scheme]. rewrite RN. unfold px at 1.
    rewrite (nth_indep _ 0%R ((fun k => px m (ring2nest n k)) (Z.of_nat 0))) by (unfold arange; rewrite !map_length, seq_length; unfold npix; lia).
    rewrite (map_nth (fun k => px m (ring2nest n k))). unfold arange. rewrite map_nth, seq_nth by (unfold npix; lia). rewrite Nat.add_0_l, Z2Nat.id by lia.
    pose proof (hx_r2n _ _ _ _ _ HX n q G Q1) as [Q3 Q4]. rewrite PM by auto. destruct (Z.eqb_spec (ring2nest n q) q) as [E|]; auto.
    exfalso. apply D. rewrite E in Q4. fold q. congruence.
Qed.
(* going to a coarser map adds up brightness instead of keeping it: a sky that is 1 everywhere
   does not stay so *)
Theorem C43_brightness_refuted self hp : good self -> good hp -> h_nside self < h_nside hp -> h_map hp = repeat 1%R (length (h_map hp)) ->
  exists self', from_hpm self hp = Ok (self', hp) /\ exists d, sky pixel self' d <> 1%R.
Proof.
  intros G G' N H. destruct (C43_to_coarser self hp G G' N) as (m & E & L & _ & T). eexists. split; [exact E|].
  assert (T1 : total (h_map hp) = IZR (lenZ (h_map hp))).
  { rewrite H. unfold total, lenZ. rewrite repeat_length. generalize (length (h_map hp)). clear. induction n; [reflexivity|]. cbn [repeat rsum]. rewrite IHn, Nat2Z.inj_succ, succ_IZR. lra. }
  destruct G as [G L1], G' as [G' L2]. pose proof (good_pos _ G). pose proof (good_pos _ G').
  assert (LM : lenZ m = 12 * (h_nside self * h_nside self)) by (unfold lenZ in *; rewrite L; auto).
  destruct (List.forallb (fun p => if Req_EM_T (px m p) 1%R then true else false) (arange (lenZ m))) eqn:F.
  - exfalso. rewrite forallb_forall in F. assert (T2 : total m = IZR (lenZ m)).
    { rewrite total_arange. rewrite (rsum_ext _ _ (fun _ => 1%R)).
      - unfold arange. rewrite rsum_map. unfold lenZ. rewrite Nat2Z.id. generalize (length m) 0%nat. clear. induction n; intros a; [reflexivity|]. cbn [seq rsum]. rewrite IHn, Nat2Z.inj_succ, succ_IZR. lra.
      - intros p P. specialize (F p P). destruct (Req_EM_T (px m p) 1); [auto | discriminate]. }
    rewrite T1, T2 in T. apply eq_IZR in T. rewrite LM, L2 in T. nia.
  - assert (X : exists p, In p (arange (lenZ m)) /\ px m p <> 1%R).
    { clear - F. induction (arange (lenZ m)) as [|a l IH]; [discriminate|]. cbn in F. destruct (Req_EM_T (px m a) 1) as [_|D]; [|exists a; split; [left|]; auto].
      destruct (IH F) as (p & I & D). exists p. split; [right|]; auto. }
    destruct X as (p & I & D). apply arange_in in I. rewrite LM in I. exists (centre (h_nside self) (h_scheme self) p). unfold sky. cbn [h_map h_nside h_scheme].
    rewrite (hx_centre _ _ _ _ _ HX) by auto. auto.
Qed.
(* from_map does so for the map, the weights and every spectral map, pairwise *)
Theorem C43_from_map self k k' : from_map Dir ring2nest nest2ring pixel centre interp_weights self k = Ok k' ->
  (exists o, from_hpm (k_map self) (k_map k) = Ok (k_map k', o)) /\
  (exists o, from_hpm (k_wgt self) (k_wgt k) = Ok (k_wgt k', o)) /\
  length (k_ind k') = length (k_ind self) /\
  forall i a, nth_error (k_ind self) i = Some a -> exists b, nth_error (k_ind k') i = Some b /\
    match nth_error (k_ind k) i with
    | Some c => exists o, from_hpm a c = Ok (b, o)
    | None => b = a
    end.
Proof.
  unfold from_map. intros H.
  destruct (from_hpm (k_map self) (k_map k)) as [[m om]|]; [|discriminate]. cbn [bind] in H.
  destruct (from_hpm (k_wgt self) (k_wgt k)) as [[w ow]|]; [|discriminate]. cbn [bind] in H.
  destruct (inds_from _ _ _ _ _ _ (k_ind self) (k_ind k)) as [l|] eqn:E; [|discriminate]. injection H as <-. cbn [k_map k_wgt k_ind fst].
  split; [eauto|]. split; [eauto|]. revert l E. generalize (k_ind k) as th. induction (k_ind self) as [|x mine IH]; intros th l E.
  - destruct th; injection E as <-; split; auto; intros [|i] a; discriminate.
  - destruct th as [|t th].
    + injection E as <-. split; auto. intros i a A. exists a. split; auto. destruct i; reflexivity.
    + cbn [inds_from] in E. destruct (from_hpm x t) as [[b o]|] eqn:B; [|discriminate]. cbn [bind] in E.
      destruct (inds_from _ _ _ _ _ _ mine th) as [ms|] eqn:M; [|discriminate]. injection E as <-. destruct (IH th ms M) as [L R].
      split; [cbn [length]; auto|]. intros [|i] a; cbn [nth_error]; [intros [= <-]; exists b; split; eauto | apply R].
Qed.
End C43.
(* set_map accepts exactly 12*N**2 values with N a power of 2, and takes N from their number *)
Theorem C43_set_map h data s : (exists h', set_map h data s = Ok h') <-> exists k, 0 <= k /\ lenZ data = 12 * (2 ^ k * 2 ^ k).
Proof.
  unfold set_map, npix2nside. split.
  - intros (h' & E). destruct (Z.eqb_spec (npix (Z.sqrt (lenZ data / 12))) (lenZ data)) as [Q|]; [|discriminate]. cbn [bind] in E.
    destruct (pow2 _) eqn:P; [|discriminate]. unfold pow2 in P. apply andb_true_iff in P as [P1 P2]. apply Z.eqb_eq in P2.
    exists (Z.log2 (Z.sqrt (lenZ data / 12))). split; [apply Z.log2_nonneg|]. rewrite P2. symmetry. exact Q.
  - intros (k & K & E). rewrite E. replace (12 * (2 ^ k * 2 ^ k) / 12) with (2 ^ k * 2 ^ k) by (symmetry; rewrite (Z.mul_comm 12); apply Z.div_mul; lia).
    rewrite Z.sqrt_square by (apply Z.pow_nonneg; lia). unfold npix. rewrite Z.eqb_refl. cbn [bind]. unfold pow2. rewrite Z.log2_pow2, Z.eqb_refl by lia.
    replace (0 <? 2 ^ k) with true by (symmetry; apply Z.ltb_lt; apply Z.pow_pos_nonneg; lia). cbn [andb]. eauto.
Qed.
Theorem C43_set_map_side h data s h' : set_map h data s = Ok h' -> h_map h' = data /\ h_scheme h' = s /\ lenZ data = 12 * (h_nside h' * h_nside h').
Proof.
  unfold set_map, npix2nside. destruct (Z.eqb_spec (npix (Z.sqrt (lenZ data / 12))) (lenZ data)) as [Q|]; [|discriminate]. cbn [bind].
  destruct (pow2 _); [|discriminate]. intros [= <-]. cbn. auto.
Qed.
Example C43_case : good (new_hpm 1 RING false) /\ good (new_hpm 2 NEST false) /\ healpix Z x_flip x_flip x_pixel x_centre /\ x_flip 1 3 <> 3 /\
  (forall d, Forall (fun qw => 0 <= fst qw < lenZ (h_map (new_hpm 2 NEST false))) (x_weights 2 NEST d)) /\ 12 = 12 * (2 ^ 0 * 2 ^ 0) /\
  (let h := Hpm 1 RING [1; 2; 3; 4; 5; 6; 7; 8; 9; 10; 11; 12]%R false in good h /\ sky x_pixel h 0 = 12%R).
Proof.
  split; [apply (new_part 1 RING good1)|]. split; [apply (new_part 2 NEST good2)|]. split; [exact x_healpix|]. split; [discriminate|]. split; [|split; [reflexivity|]].
  - intros d. unfold x_weights. change (lenZ (h_map (new_hpm 2 NEST false))) with (npix 2). constructor; [|constructor; [|constructor]]; cbn [fst]; apply x_nest_range; exact good2.
  - split; [split; [exact good1|reflexivity]|reflexivity].
Qed.

(* ---------------- C41 ---------------- *)
Section C41.
Context {Dir : Type} (pixel : Z -> scheme -> Dir -> Z) (interp_weights : Z -> scheme -> Dir -> list (Z * R)).
(* a call of add with any coordinates: what an addressed pixel held counts once per time it is
   addressed (add_result), others are unchanged *)
Theorem C41_one_add n s k a : sky_of n s k -> valid_addition pixel n s (length (k_ind k)) a ->
  exists k', map_add Dir pixel interp_weights k (ad_crd a) (ad_wgts a) (ad_fluxes a) (ad_inds a) = Ok k' /\ sky_of n s k' /\ add_result pixel n s a k k'.
Proof. intros S V. destruct (map_add_ok pixel interp_weights n s k a S V) as (k' & E & S' & _ & A). exists k'. auto. Qed.
(* from an empty map, any history of adds none of which repeats a pixel: every pixel holds the
   sums over the history, and reading it gives the weighted means *)
Theorem C41_history n s nind adds : good_nside n -> Forall (valid_addition pixel n s nind) adds -> Forall (no_repeats pixel n s) adds ->
  exists k, run_adds pixel interp_weights (new_map n s false nind) adds = Ok k /\ length (k_ind k) = nind /\
  forall p, 0 <= p < 12 * (n * n) ->
    px (h_map (k_wgt k)) p = tot_w pixel n s adds p /\ px (h_map (k_map k)) p = tot_v pixel ad_fluxes n s adds p /\
    ((0 < tot_w pixel n s adds p)%R ->
     map_get Dir pixel interp_weights k (Px _ [p]) =
       Ok ([tot_v pixel ad_fluxes n s adds p / tot_w pixel n s adds p]%R,
           map (fun i => [tot_v pixel (fun a => nth i (ad_inds a) []) n s adds p / tot_w pixel n s adds p]%R) (seq 0 nind))).
Proof.
  intros G V N. destruct (new_sky n s nind G) as [S L]. rewrite <- L in V. destruct (runs_ok pixel interp_weights n s adds _ S V N) as (k & E & SK & LK & H).
  exists k. split; [exact E|]. split; [congruence|]. intros p P. destruct (H p P) as (HW & HM & HI).
  assert (Z0 : forall x, px (repeat 0%R x) p = 0%R) by (intros; apply px_repeat).
  cbn [new_map set_nindices k_wgt k_map new_hpm h_map] in HW, HM. rewrite Z0 in HW, HM. rewrite Rplus_0_l in HW, HM.
  split; auto. split; auto. intros W. rewrite (map_get_px pixel interp_weights n s) by auto. rewrite HW, HM. unfold pos_or_1.
  replace (Rltb 0 (tot_w pixel n s adds p)) with true by (symmetry; apply Rltb_true; auto). f_equal. f_equal.
  apply (nth_ext _ _ [] []); [rewrite !map_length, seq_length; congruence|]. rewrite map_length. intros i I.
  rewrite (nth_indep _ [] ((fun h => [px (h_map h) p / tot_w pixel n s adds p]%R) (k_wgt (new_map n s false nind)))) by (rewrite map_length; auto).
  rewrite (map_nth (fun h => [px (h_map h) p / tot_w pixel n s adds p]%R)).
  rewrite LK in I. rewrite HI by auto. rewrite L in I.
  set (d := tot_v pixel (fun a => nth (length (@nil nat)) (ad_inds a) []) n s adds p).
  rewrite (nth_indep _ [] ((fun i => [tot_v pixel (fun a => nth i (ad_inds a) []) n s adds p / tot_w pixel n s adds p]%R) 0%nat)) by (rewrite map_length, seq_length; auto).
  rewrite (map_nth (fun i => [tot_v pixel (fun a => nth i (ad_inds a) []) n s adds p / tot_w pixel n s adds p]%R)). rewrite seq_nth by auto. rewrite Nat.add_0_l.
  f_equal. f_equal. replace (px (h_map (nth i (k_ind (new_map n s false nind)) (k_wgt (new_map n s false nind)))) p) with 0%R; [lra|].
  symmetry. unfold new_map, set_nindices. cbn [k_ind k_wgt]. rewrite firstn_nil. cbn [app length].
  assert (X : forall j m, h_map (nth j (repeat (new_hpm n s false) m) (new_hpm n s false)) = h_map (new_hpm n s false)) by (intros j m; revert j; induction m; intros [|j]; cbn [nth repeat]; auto).
  rewrite X. apply Z0.
Qed.
(* a single call on an empty map is right even with repeated pixels *)
Theorem C41_first_add n s nind a : good_nside n -> valid_addition pixel n s nind a ->
  exists k, run_adds pixel interp_weights (new_map n s false nind) [a] = Ok k /\ forall p, 0 <= p < 12 * (n * n) ->
    px (h_map (k_wgt k)) p = tot_w pixel n s [a] p /\ px (h_map (k_map k)) p = tot_v pixel ad_fluxes n s [a] p.
Proof.
  intros G V. destruct (new_sky n s nind G) as [S L]. rewrite <- L in V. destruct (map_add_ok pixel interp_weights n s _ a S V) as (k & E & SK & LK & (AW & AM & _)).
  exists k. cbn [run_adds]. rewrite E. split; [reflexivity|]. intros p P. unfold tot_w, tot_v. cbn [rsum]. rewrite !Rplus_0_r.
  destruct AW as (_ & _ & _ & _ & AW), AM as (_ & _ & _ & _ & AM). destruct (AW p P) as [W1 W2], (AM p P) as [M1 M2].
  assert (ZW : px (h_map (k_wgt (new_map n s false nind))) p = 0%R) by apply px_repeat. assert (ZM : px (h_map (k_map (new_map n s false nind))) p = 0%R) by apply px_repeat.
  destruct (hit_dec (12 * (n * n)) (pixels_of pixel n s (ad_crd a)) p) as [A|A].
  - rewrite W1, M1 by auto. rewrite ZW, ZM. split; lra.
  - rewrite W2, M2 by auto. rewrite ZW, ZM. rewrite sum_miss, wsum_miss by auto. auto.
Qed.
(* a later call that names a pixel twice counts what the pixel held twice *)
Theorem C41_repeated_pixel_refuted n s : good_nside n -> exists adds k, Forall (valid_addition pixel n s 0) adds /\
  run_adds pixel interp_weights (new_map n s false 0) adds = Ok k /\ tot_w pixel n s adds 0 = 3%R /\ px (h_map (k_wgt k)) 0 = 4%R.
Proof.
  intros G. pose proof (good_pos n G) as GP. set (a1 := Add (Px Dir [0]) [1%R] [1%R] []). set (a2 := Add (Px Dir [0; 0]) [1; 1]%R [1; 1]%R []).
  assert (V1 : valid_addition pixel n s 0 a1) by (unfold valid_addition; cbn [pixels_of ad_crd ad_wgts ad_fluxes ad_inds a1]; split; [apply Forall_forall; intros x [<- | []]; nia|]; repeat split; constructor).
  assert (V2 : valid_addition pixel n s 0 a2) by (unfold valid_addition; cbn [pixels_of ad_crd ad_wgts ad_fluxes ad_inds a2]; split; [apply Forall_forall; intros x [<- | [<- | []]]; nia|]; repeat split; constructor).
  assert (N1 : no_repeats pixel n s a1) by (unfold no_repeats; cbn; repeat constructor; auto).
  destruct (new_sky n s 0 G) as [S L].
  destruct (runs_ok pixel interp_weights n s [a1] _ S) as (k1 & E1 & S1 & L1 & H1); [rewrite L; auto | auto|].
  destruct (map_add_ok pixel interp_weights n s k1 a2 S1) as (k2 & E2 & S2 & L2 & (AW & _)); [rewrite L1, L; auto|].
  exists [a1; a2], k2. split; [auto|]. split.
  - cbn [run_adds] in *. destruct (map_add Dir pixel interp_weights _ _ _ _ _) as [x|] eqn:EX in E1; [|discriminate]. cbn [bind] in E1. injection E1 as ->.
    rewrite EX. cbn [bind]. rewrite E2. reflexivity.
  - assert (P : 0 <= 0 < 12 * (n * n)) by nia. destruct (H1 0 P) as (W1 & _). destruct AW as (_ & _ & _ & _ & AW). destruct (AW 0 P) as [W2 _].
    assert (HT : hits (12 * (n * n)) 0 0 = true) by reflexivity.
    split.
    + unfold tot_w, sum_at. cbn [rsum a1 a2 ad_crd ad_wgts pixels_of combine]. rewrite HT. lra.
    + rewrite W2 by (exists 0; split; [left; reflexivity | reflexivity]). rewrite W1. replace (px (h_map (k_wgt (new_map n s false 0))) 0) with 0%R by (symmetry; apply px_repeat).
      unfold tot_w, sum_at, count_at. cbn [rsum a1 a2 ad_crd ad_wgts pixels_of combine]. rewrite HT. lra.
Qed.
(* a pixel whose weight is not positive reads as the sum it holds *)
Theorem C41_unweighted n s k p : sky_of n s k -> 0 <= p < 12 * (n * n) -> (px (h_map (k_wgt k)) p <= 0)%R ->
  map_get Dir pixel interp_weights k (Px _ [p]) = Ok ([px (h_map (k_map k)) p], map (fun h => [px (h_map h) p]) (k_ind k)).
Proof.
  intros S P W. rewrite (map_get_px pixel interp_weights n s) by auto.
  assert (E : pos_or_1 (px (h_map (k_wgt k)) p) = 1%R). { unfold pos_or_1. destruct (Rltb _ _) eqn:L; auto. apply Rltb_true in L. lra. }
  assert (D : forall x, (x / 1 = x)%R) by (intros; lra). rewrite E, D. f_equal. f_equal. apply map_ext. intros h. rewrite D. auto.
Qed.
(* reset_wgt(): the means stay, the weights of the pixels seen become 1 *)
Theorem C41_reset_wgt n s k p : sky_of n s k -> 0 <= p < 12 * (n * n) -> (0 < px (h_map (k_wgt k)) p)%R ->
  map_get Dir pixel interp_weights (reset_wgt k 1) (Px _ [p]) = map_get Dir pixel interp_weights k (Px _ [p]) /\ px (h_map (k_wgt (reset_wgt k 1))) p = 1%R.
Proof.
  intros S P W. assert (S' : sky_of n s (reset_wgt k 1)).
  { destruct S as (((GM & LM) & NM & SM & IM) & ((GW & LW) & NW & SW & IW) & PI). unfold reset_wgt. split; [|split]; cbn [k_map k_wgt k_ind].
    - repeat split; auto. cbn [h_map with_map h_nside]. unfold zip_div, lenZ in *. rewrite map_length, combine_length, map_length. rewrite NM in *. rewrite NW in *. lia.
    - repeat split; auto. cbn [h_map with_map h_nside]. unfold lenZ in *. rewrite map_length. auto.
    - apply Forall_forall. intros h H. apply in_map_iff in H as (g & <- & I). rewrite Forall_forall in PI. destruct (PI g I) as ((G & L) & NN & SS & II).
      repeat split; auto. cbn [h_map with_map h_nside]. unfold zip_div, lenZ in *. rewrite map_length, combine_length, map_length. rewrite NN in *. rewrite NW in *. lia. }
  pose proof (map_get_px pixel interp_weights n s k p S P) as E. pose proof (map_get_px pixel interp_weights n s _ p S' P) as E'.
  destruct S as (((GM & LM) & NM & SM & IM) & ((GW & LW) & NW & SW & IW) & PI).
  assert (D : forall h, part_of n s h -> px (zip_div (h_map h) (map pos_or_1 (h_map (k_wgt k)))) p = (px (h_map h) p / px (h_map (k_wgt k)) p)%R).
  { intros h ((G & L) & NN & _). unfold px. rewrite zip_div_nth; [| rewrite map_length; unfold lenZ in *; rewrite NN in *; rewrite NW in *; lia | unfold lenZ in *; rewrite NN in *; lia].
    rewrite (nth_indep (map pos_or_1 (h_map (k_wgt k))) 0%R (pos_or_1 0)) by (rewrite map_length; unfold lenZ in *; rewrite NW in *; lia). rewrite map_nth. unfold pos_or_1 at 1.
    fold (px (h_map (k_wgt k)) p). replace (Rltb 0 (px (h_map (k_wgt k)) p)) with true by (symmetry; apply Rltb_true; auto). reflexivity. }
  assert (W1 : px (h_map (k_wgt (reset_wgt k 1))) p = 1%R).
  { unfold reset_wgt. cbn [k_wgt h_map with_map]. unfold px. rewrite (nth_indep _ 0%R ((fun x => if Rltb 0 x then 1%R else 0%R) 0%R)) by (rewrite map_length; unfold lenZ in *; rewrite NW in *; lia).
    rewrite (map_nth (fun x => if Rltb 0 x then 1%R else 0%R)). fold (px (h_map (k_wgt k)) p). replace (Rltb 0 (px (h_map (k_wgt k)) p)) with true by (symmetry; apply Rltb_true; auto). reflexivity. }
  split; auto. rewrite E, E', W1. unfold pos_or_1. replace (Rltb 0 1) with true by (symmetry; apply Rltb_true; lra).
  replace (Rltb 0 (px (h_map (k_wgt k)) p)) with true by (symmetry; apply Rltb_true; auto).
  unfold reset_wgt. cbn [k_map k_ind h_map with_map]. rewrite D by (repeat split; auto). f_equal. f_equal; [f_equal; lra|].
  rewrite map_map. apply map_ext_in. intros h I. cbn [h_map with_map]. rewrite D by (rewrite Forall_forall in PI; auto). f_equal. lra.
Qed.
(* with another weight, the means change *)
Theorem C41_reset_other_wgt_refuted n s : good_nside n -> exists k, sky_of n s k /\
  map_get Dir pixel interp_weights k (Px _ [0]) = Ok ([1%R], []) /\ map_get Dir pixel interp_weights (reset_wgt k 2) (Px _ [0]) = Ok ([/ 2]%R, []).
Proof.
  intros G. pose proof (good_npix n G) as GN. set (h := Hpm n s (repeat 1%R (Z.to_nat (npix n))) false).
  assert (HP : part_of n s h) by (repeat split; auto; unfold h; cbn [h_map h_nside]; unfold lenZ; rewrite repeat_length; fold (npix n); lia).
  assert (H2 : forall x, part_of n s (Hpm n s (repeat x (Z.to_nat (npix n))) false)) by (intros x; repeat split; auto; cbn [h_map h_nside]; unfold lenZ; rewrite repeat_length; fold (npix n); lia).
  assert (P0 : forall x, px (repeat x (Z.to_nat (npix n))) 0 = x) by (intros x; unfold px; destruct (Z.to_nat (npix n)) eqn:E; [lia|reflexivity]).
  assert (T1 : Rltb 0 1 = true) by (apply Rltb_true; lra). assert (T2 : Rltb 0 2 = true) by (apply Rltb_true; lra).
  exists (Sky h h []). split; [split; [auto | split; [auto | constructor]]|]. split.
  - rewrite (map_get_px pixel interp_weights n s); [|split; [auto | split; [auto | constructor]] | unfold npix in GN; lia]. cbn [k_map k_wgt k_ind map h h_map]. rewrite P0. unfold pos_or_1. rewrite T1. f_equal. f_equal. f_equal. lra.
  - assert (ER : reset_wgt (Sky h h []) 2 = Sky (Hpm n s (repeat 1%R (Z.to_nat (npix n))) false) (Hpm n s (repeat 2%R (Z.to_nat (npix n))) false) []).
    { unfold reset_wgt. cbn [k_map k_wgt k_ind map h h_map]. unfold with_map. cbn [h_nside h_scheme h_interp].
      assert (A : forall m, zip_div (repeat 1%R m) (map pos_or_1 (repeat 1%R m)) = repeat 1%R m).
      { induction m; auto. unfold zip_div in *. cbn [repeat map combine]. rewrite IHm. unfold pos_or_1. rewrite T1. f_equal. lra. }
      assert (B : forall m, map (fun x => if Rltb 0 x then 2%R else 0%R) (repeat 1%R m) = repeat 2%R m) by (induction m; cbn [repeat map]; auto; rewrite T1, IHm; auto).
      rewrite A, B. reflexivity. }
    rewrite ER. rewrite (map_get_px pixel interp_weights n s); [|split; [apply H2 | split; [apply H2 | constructor]] | unfold npix in GN; lia]. cbn [k_map k_wgt k_ind map h_map]. rewrite !P0. unfold pos_or_1. rewrite T2. f_equal. f_equal. f_equal. lra.
Qed.
End C41.
Example C41_case : let adds := [Add (Px Z [3; 5]) [1; 2]%R [10; 20]%R [[7; 8]%R]; Add (At Z [0]) [1]%R [6]%R [[9]%R]; Add (Px Z [3]) [3]%R [2]%R [[1]%R]] in
  good_nside 1 /\ Forall (valid_addition x_pixel 1 RING 1) adds /\ Forall (no_repeats x_pixel 1 RING) adds /\
  tot_w x_pixel 1 RING adds 3 = 4%R /\ tot_v x_pixel ad_fluxes 1 RING adds 3 = 16%R /\ tot_w x_pixel 1 RING adds 11 = 1%R.
Proof.
  cbv zeta. split; [exact good1|]. assert (A : x_pixel 1 RING 0 = 11) by reflexivity.
  split; [|split].
  - repeat apply Forall_cons; try apply Forall_nil; unfold valid_addition; cbn [pixels_of ad_crd map ad_wgts ad_fluxes ad_inds]; rewrite ?A;
      (split; [repeat apply Forall_cons; try apply Forall_nil; lia|]); repeat split; repeat constructor.
  - repeat apply Forall_cons; try apply Forall_nil; unfold no_repeats; cbn [pixels_of ad_crd map]; repeat constructor; cbn; intros X; try lia.
  - unfold tot_w, tot_v, sum_at, wsum. cbn [rsum pixels_of ad_crd map ad_wgts ad_fluxes combine]. rewrite A. change (12 * (1 * 1)) with 12. 
    repeat match goal with |- context [hits ?a ?b ?c] => let v := eval vm_compute in (hits a b c) in change (hits a b c) with v end. cbv iota. repeat split; lra.
Qed.

(* ---------------- C44 ---------------- *)
Section C44.
Context {T : Type} (zero : T).
(* setting one coefficient changes that one and no other *)
Theorem C44_set_get (a : alm T) l m v : 0 <= a_mmax a <= a_lmax a -> lenZ (a_data a) = getsize (a_lmax a) (a_mmax a) -> valid_lm (a_lmax a) (a_mmax a) (l, m) ->
  exists a', alm_set T a l m v = Ok a' /\ a_lmax a' = a_lmax a /\ a_mmax a' = a_mmax a /\ lenZ (a_data a') = lenZ (a_data a) /\
  forall l' m', valid_lm (a_lmax a) (a_mmax a) (l', m') ->
    alm_get T zero a' l' m' = if (l' =? l) && (m' =? m) then Ok v else alm_get T zero a l' m'.
Proof.
  intros ML L V. pose proof (idx_range _ _ _ V (proj2 ML)) as R. cbn [fst snd] in R. unfold alm_set. rewrite np_index_pos by (rewrite L; auto). cbn [bind].
  eexists. split; [reflexivity|]. cbn [a_lmax a_mmax a_data]. repeat (split; [auto; unfold lenZ; rewrite ?np_set_length; auto; fail|]).
  intros l' m' V'. pose proof (idx_range _ _ _ V' (proj2 ML)) as R'. cbn [fst snd] in R'. unfold alm_get. cbn [a_lmax a_data]. unfold np_get.
  assert (LL : lenZ (np_set (a_data a) (Z.to_nat (getidx (a_lmax a) l m)) v) = getsize (a_lmax a) (a_mmax a)) by (unfold lenZ in *; rewrite np_set_length; auto).
  rewrite LL, L. rewrite np_index_pos by auto. cbn [bind]. rewrite np_set_nth by (unfold lenZ in L; lia).
  destruct (Nat.eqb_spec (Z.to_nat (getidx (a_lmax a) l' m')) (Z.to_nat (getidx (a_lmax a) l m))) as [E|E].
  - assert (E' : (l', m') = (l, m)) by (apply (idx_inj _ _ _ _ V' V); cbn [fst snd]; lia). injection E' as -> ->. rewrite !Z.eqb_refl. reflexivity.
  - destruct (Z.eqb_spec l' l) as [-> |]; [destruct (Z.eqb_spec m' m) as [-> |]|]; cbn [andb]; auto. contradiction.
Qed.
(* set_data takes exactly the data of the right length, and reads them back in order *)
Theorem C44_set_data (a : alm T) d : 0 <= a_mmax a <= a_lmax a ->
  ((exists a', set_data T a d = Ok a') <-> lenZ d = getsize (a_lmax a) (a_mmax a)) /\
  forall a', set_data T a d = Ok a' -> a_lmax a' = a_lmax a /\ a_mmax a' = a_mmax a /\ a_data a' = d.
Proof.
  intros ML. unfold set_data. destruct (Z.eqb_spec (lenZ d) (getsize (a_lmax a) (a_mmax a))) as [E|E].
  - split; [split; eauto|]. intros a' [= <-]. auto.
  - split; [split; [intros (a' & H); discriminate | contradiction]|]. discriminate.
Qed.
(* lm_indices lists every (l, m) of the table once, in the order of get_data *)
Theorem C44_lm_indices (a : alm T) : 0 <= a_mmax a <= a_lmax a -> lenZ (a_data a) = getsize (a_lmax a) (a_mmax a) ->
  NoDup (lm_indices T a) /\ (forall lm, In lm (lm_indices T a) <-> valid_lm (a_lmax a) (a_mmax a) lm) /\
  length (lm_indices T a) = length (a_data a) /\
  forall k l m, nth_error (lm_indices T a) k = Some (l, m) -> exists x, nth_error (a_data a) k = Some x /\ alm_get T zero a l m = Ok x.
Proof.
  intros ML L. unfold lm_indices. set (N := getsize (a_lmax a) (a_mmax a)) in *.
  assert (GV : forall k, (k < Z.to_nat N)%nat -> valid_lm (a_lmax a) (a_mmax a) (getlm (a_lmax a) (Z.of_nat k)) /\
    getidx (a_lmax a) (fst (getlm (a_lmax a) (Z.of_nat k))) (snd (getlm (a_lmax a) (Z.of_nat k))) = Z.of_nat k).
  { intros k K. apply getlm_valid; auto. fold N. lia. }
  split; [|split; [|split]].
  - apply nodup_map_in; [|apply seq_NoDup]. intros x y X Y E. apply in_seq in X, Y. destruct (GV x) as [_ GX]; [lia|]. destruct (GV y) as [_ GY]; [lia|]. rewrite E in GX. lia.
  - intros lm. rewrite in_map_iff. split.
    + intros (k & <- & K). apply in_seq in K. apply GV. lia.
    + intros V. pose proof (idx_range _ _ _ V (proj2 ML)) as R. exists (Z.to_nat (getidx (a_lmax a) (fst lm) (snd lm))). fold N in R. split; [|apply in_seq; lia].
      rewrite Z2Nat.id by lia. destruct V as (V1 & V2 & V3 & _). rewrite getlm_getidx by auto. destruct lm; auto.
  - rewrite map_length, seq_length. unfold lenZ in L. lia.
  - intros k l m E. assert (K : (k < Z.to_nat N)%nat) by (assert (X : nth_error (map (fun k => getlm (a_lmax a) (Z.of_nat k)) (seq 0 (Z.to_nat N))) k <> None) by congruence;
      apply nth_error_Some in X; rewrite map_length, seq_length in X; auto).
    destruct (GV k K) as [_ G]. rewrite nth_error_map in E. rewrite (nth_error_nth' _ 0%nat) in E by (rewrite seq_length; auto). rewrite seq_nth in E by auto. cbn [option_map Nat.add] in E.
    assert (E' : getlm (a_lmax a) (Z.of_nat k) = (l, m)) by congruence. rewrite E' in G. cbn [fst snd] in G. exists (nth k (a_data a) zero). split; [apply nth_error_nth'; unfold lenZ in L; lia|].
    unfold alm_get. rewrite G. unfold np_get. rewrite np_index_pos by (rewrite L; lia). cbn [bind]. rewrite Nat2Z.id. reflexivity.
Qed.
(* a new table is all zero; get_data returns what set_data stored *)
Theorem C44_new lmax mmax : 0 <= mmax <= lmax -> exists a, new_alm T zero lmax mmax = Ok a /\ a_lmax a = lmax /\ a_mmax a = mmax /\
  lenZ (a_data a) = getsize lmax mmax /\ forall l m, valid_lm lmax mmax (l, m) -> alm_get T zero a l m = Ok zero.
Proof.
  intros ML. unfold new_alm. replace (mmax <=? lmax) with true by lia. eexists. split; [reflexivity|]. cbn [a_lmax a_mmax a_data].
  assert (S : 0 < getsize lmax mmax). { rewrite getsize_tri. pose proof (tri_mono lmax 0 mmax ltac:(lia) ltac:(lia) ltac:(lia)) as X. change (tri lmax 0) with 0 in X. lia. }
  assert (L : lenZ (repeat zero (Z.to_nat (getsize lmax mmax))) = getsize lmax mmax) by (unfold lenZ; rewrite repeat_length; lia).
  split; auto. split; auto. split; auto. intros l m V. pose proof (idx_range _ _ _ V (proj2 ML)) as R. cbn [fst snd] in R. unfold alm_get. cbn [a_lmax a_data]. unfold np_get.
  rewrite L, np_index_pos by auto. cbn [bind]. f_equal. assert (X : forall j k, nth j (repeat zero k) zero = zero) by (intros j k; revert j; induction k; intros [|j]; cbn; auto). apply X.
Qed.
(* nothing stops an (l, m) with m > l: it reads and overwrites another coefficient *)
Theorem C44_bad_lm_refuted v : exists a a', new_alm T zero 3 3 = Ok a /\ ~ valid_lm 3 3 (1, 2) /\ valid_lm 3 3 (3, 1) /\
  alm_set T a 1 2 v = Ok a' /\ alm_get T zero a' 3 1 = Ok v.
Proof. eexists. eexists. split; [reflexivity|]. split; [unfold valid_lm; cbn; lia|]. split; [unfold valid_lm; cbn; lia|]. split; reflexivity. Qed.
(* from_alm hands the scheme to alm2map as its pixwin flag: the map is not the one to_map gives
   by default, wherever the pixel window makes a difference *)
Theorem C44_from_alm_refuted (alm2map : alm T -> Z -> bool -> list R) h a h' : alm2map a (h_nside h) true <> alm2map a (h_nside h) false ->
  from_alm T alm2map h a = Ok h' -> h_map h' <> to_map T alm2map a (h_nside h) false.
Proof. unfold from_alm. intros D E. apply C43_set_map_side in E as (-> & _). exact D. Qed.
End C44.
Example C44_case : 0 <= 1 <= 2 /\ lenZ [10; 20; 30; 40; 50] = getsize 2 1 /\ valid_lm 2 1 (2, 1) /\
  lm_indices Z (Alm 2 1 [10; 20; 30; 40; 50]) = [(0, 0); (1, 0); (2, 0); (1, 1); (2, 1)] /\ alm_get Z 0 (Alm 2 1 [10; 20; 30; 40; 50]) 2 1 = Ok 50.
Proof. split; [lia|]. split; [reflexivity|]. split; [unfold valid_lm; cbn; lia|]. split; reflexivity. Qed.

Print Assumptions C41_one_add.
Print Assumptions C41_history.
Print Assumptions C41_first_add.
Print Assumptions C41_repeated_pixel_refuted.
Print Assumptions C41_unweighted.
Print Assumptions C41_reset_wgt.
Print Assumptions C41_reset_other_wgt_refuted.
Print Assumptions C42_assign.
Print Assumptions C42_read_back.
Print Assumptions C42_scalar.
Print Assumptions C42_invalid.
Print Assumptions C42_wrong_count.
Print Assumptions C42_scalar_refuted.
Print Assumptions C42_side_16384_refuted.
Print Assumptions C43_change_scheme.
Print Assumptions C43_to_coarser.
Print Assumptions C43_to_finer.
Print Assumptions C43_argument_changed_refuted.
Print Assumptions C43_same_scheme.
Print Assumptions C43_other_scheme_refuted.
Print Assumptions C43_brightness_refuted.
Print Assumptions C43_from_map.
Print Assumptions C43_set_map.
Print Assumptions C43_set_map_side.
Print Assumptions C44_set_get.
Print Assumptions C44_set_data.
Print Assumptions C44_lm_indices.
Print Assumptions C44_new.
Print Assumptions C44_bad_lm_refuted.
Print Assumptions C44_from_alm_refuted.
