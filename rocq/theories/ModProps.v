(* PROPERTY C70: scripts/modmap.py. *)
From Coq Require Import Reals Lra Permutation Ascii String.
From Verif Require Import Base ScriptModel CleanModel CleanSpec CleanProofs HpxModel HpxSpec HpxProofs HpxProofs2 HpxProofs3 HpxProps FitsModel MapfModel MapfSpec MapfProps ModModel ModSpec ModProofs.
Local Open Scope Z_scope.
Local Notation length := List.length.
Ltac Zify.zify_post_hook ::= idtac.

Lemma turn x y t : ((x * cos t - y * sin t) * cos t + (x * sin t + y * cos t) * sin t = x /\ (x * sin t + y * cos t) * cos t - (x * cos t - y * sin t) * sin t = y)%R.
Proof.
  pose proof (sin2_cos2 t) as E. unfold Rsqr in E. split.
  - replace ((x * cos t - y * sin t) * cos t + (x * sin t + y * cos t) * sin t)%R with (x * (sin t * sin t + cos t * cos t))%R by ring. rewrite E. ring.
  - replace ((x * sin t + y * cos t) * cos t - (x * cos t - y * sin t) * sin t)%R with (y * (sin t * sin t + cos t * cos t))%R by ring. rewrite E. ring.
Qed.
Section C70.
Context {Dir : Type} (ring2nest nest2ring : Z -> Z -> Z) (pixel : Z -> scheme -> Dir -> Z) (centre : Z -> scheme -> Z -> Dir) (interp_weights : Z -> scheme -> Dir -> list (Z * R)).
Context (angles : Dir -> R * R) (precess convert toin : Dir -> Dir).
Notation body := (body Dir).
Notation add_source := (add_source Dir pixel centre interp_weights angles precess convert).
Notation within := (within Dir angles precess).
Notation inside n s b := (fun p => in_ellipse (b_a1 Dir b) (b_a2 Dir b) (b_th Dir b) (angles (precess (b_pos Dir b))) (angles (centre n s p))).
(* b is spread over the pixels ps *)
Definition spreads (n : Z) (s : scheme) (sscale : R) (b : body) (src : list Z * R * R) : Prop :=
  let '(ps, strength, index) := src in
  spread n (inside n s b) (pixel n s (convert (precess (b_pos Dir b)))) ps /\ strength = (b_jys Dir b * sscale)%R /\ index = b_index Dir b.

Lemma within_ok b d : within b d = true <-> in_ellipse (b_a1 Dir b) (b_a2 Dir b) (b_th Dir b) (angles (precess (b_pos Dir b))) (angles d).
Proof using Type.
  unfold ModModel.within, in_ellipse. destruct (angles (precess (b_pos Dir b))) as [ra dec], (angles d) as [phi lat]. cbn [fst snd]. set (t := b_th Dir b). set (a1 := b_a1 Dir b). set (a2 := b_a2 Dir b).
  destruct (Req_EM_T a1 0) as [E1|N1]; [split; [discriminate|intros (X & _); contradiction]|]. destruct (Req_EM_T a2 0) as [E2|N2]; [split; [discriminate|intros (_ & X & _); contradiction]|].
  set (dra := (phi - ra)%R). set (ddec := (lat - dec)%R). destruct (turn dra ddec t) as [T1 T2]. split.
  - destruct (Rle_dec _ 1) as [L|]; [|discriminate]. intros _. split; [exact N1|]. split; [exact N2|]. eexists _, _. split; [exact L|].
    split; [rewrite <- T1 at 1|rewrite <- T2 at 1]; field; auto.
  - intros (_ & _ & u & v & L & X & Y). destruct (Rle_dec _ 1) as [|N]; [reflexivity|]. exfalso. apply N. rewrite X, Y. pose proof (sin2_cos2 t) as E. unfold Rsqr in E.
    replace (((a1 * u * cos t + a2 * v * sin t) * cos t - (a2 * v * cos t - a1 * u * sin t) * sin t) / a1)%R with (u * (sin t * sin t + cos t * cos t))%R by (field; exact N1).
    replace (((a1 * u * cos t + a2 * v * sin t) * sin t + (a2 * v * cos t - a1 * u * sin t) * cos t) / a2)%R with (v * (sin t * sin t + cos t * cos t))%R by (field; exact N2).
    rewrite E, !Rmult_1_r. exact L.
Qed.
Lemma footprint_ok h b n s : h_nside h = n -> h_scheme h = s -> (forall d, 0 <= pixel n s d < 12 * (n * n)) ->
  let ps := footprint Dir pixel centre angles precess convert h b in spread n (inside n s b) (pixel n s (convert (precess (b_pos Dir b)))) ps /\ ps <> [] /\ Forall (fun p => 0 <= p < 12 * (n * n)) ps.
Proof.
  intros <- <- PR ps. set (n := h_nside h) in *. set (s := h_scheme h) in *. set (fl := filter (fun p => within b (centre n s p)) (arange (npix n))).
  assert (IN : forall p, In p fl <-> 0 <= p < 12 * (n * n) /\ inside n s b p) by (intros p; unfold fl; rewrite filter_In, arange_in, within_ok; reflexivity).
  assert (NE : NoDup fl) by (apply NoDup_filter, arange_nodup).
  assert (D : fl = [] /\ ps = [pixel n s (convert (precess (b_pos Dir b)))] \/ fl <> [] /\ ps = fl).
  { unfold ps, footprint. fold n s fl. destruct fl; [left; split; reflexivity|right; split; [discriminate|reflexivity]]. }
  destruct D as [[E ->]|[E ->]].
  - split; [|split; [discriminate|constructor; [apply PR|constructor]]]. split; [repeat constructor; intros []|]. right. split; [|reflexivity]. intros p P I. assert (X : In p fl) by (apply IN; auto). rewrite E in X. destruct X.
  - split; [|split; [exact E|apply Forall_forall; intros p I; apply IN, I]]. split; [exact NE|]. left. split; [exact IN|exact E].
Qed.
Lemma shown_raw n k h p : zero_one n k -> 0 <= p < 12 * (n * n) -> shown k h p = px (h_map h) p.
Proof. intros Z P. unfold shown. destruct (Rlt_dec _ _) as [W|W]; [|reflexivity]. destruct (Z p P) as [E|E]; rewrite E in *; [lra|field]. Qed.
Lemma sources_raw n s nind sscale : (forall d, 0 <= pixel n s d < 12 * (n * n)) -> forall cat k, sky_of n s k -> zero_one n k -> (nind = O <-> k_ind k = []) ->
  exists srcs k', foldM (add_source nind sscale) cat k = Ok k' /\ Forall2 (spreads n s sscale) cat srcs /\ raw n s srcs k k'.
Proof.
  intros PR. induction cat as [|b cat IH]; intros k S Z NI.
  - exists [], k. split; [reflexivity|]. split; [constructor|apply raw_nil; assumption].
  - cbn [foldM]. unfold ModModel.add_source at 1. set (ps := footprint _ _ _ _ _ _ _ _). destruct (footprint_ok (k_map k) b n s) as (SP & NE & F); [apply S|apply S|exact PR|]. fold ps in SP, NE, F.
    destruct (spread_each pixel interp_weights n s nind (b_jys Dir b * sscale)%R (b_index Dir b) ps k S Z NE (proj1 SP) F NI) as (k1 & -> & R1). cbn [bind].
    destruct (IH k1) as (srcs & k2 & -> & SS & R2); [apply R1|apply R1| |].
    { rewrite NI. destruct R1 as (_ & _ & L & _). destruct (k_ind k), (k_ind k1); try discriminate; split; intros; congruence. }
    exists ((ps, b_jys Dir b * sscale, b_index Dir b)%R :: srcs), k2. split; [reflexivity|]. split; [constructor; [split; [exact SP|split; reflexivity]|exact SS]|]. apply (raw_app n s [_] srcs k k1 k2); assumption.
Qed.
Lemma raw_added n s srcs k k' : zero_one n k -> raw n s srcs k k' -> added n srcs k k'.
Proof.
  intros Z (S' & Z' & L & A). split; [exact L|]. intros p P. rewrite !(shown_raw n) by assumption. destruct (A p P) as (A1 & A2 & A3). split; [exact A1|]. split; [exact A2|].
  intros j h h' E E'. rewrite (A3 j h h' E E'). destruct j; [|reflexivity]. unfold last_index. destruct (rev (covering p srcs)) as [|[[? ?] ?] ?]; reflexivity.
Qed.

(* adding a catalog of sources to a map of weights zero and one *)
Theorem C70_sources n s nind sscale cat k : (forall d, 0 <= pixel n s d < 12 * (n * n)) -> sky_of n s k ->
  (forall p, 0 <= p < 12 * (n * n) -> px (h_map (k_wgt k)) p = 0%R \/ px (h_map (k_wgt k)) p = 1%R) -> (nind = O <-> k_ind k = []) ->
  exists srcs k', foldM (add_source nind sscale) cat k = Ok k' /\ Forall2 (spreads n s sscale) cat srcs /\ added n srcs k k' /\
    total (h_map (k_map k')) = (total (h_map (k_map k)) + sscale * rsum cat (b_jys Dir))%R.
Proof.
  intros PR S Z NI. destruct (sources_raw n s nind sscale PR cat k S Z NI) as (srcs & k' & E & SS & RW). exists srcs, k'. split; [exact E|]. split; [exact SS|]. split; [apply (raw_added n s); assumption|].
  destruct RW as (S' & _ & _ & A). rewrite !total_arange.
  assert (L : forall k, sky_of n s k -> lenZ (h_map (k_map k)) = 12 * (n * n)) by (intros q (((G & L) & N & _) & _); rewrite L, N; reflexivity). rewrite !L by assumption.
  rewrite (rsum_ext _ (px (h_map (k_map k'))) (fun p => px (h_map (k_map k)) p + received p srcs)%R) by (intros p I; apply A; apply arange_in, I).
  rewrite rsum_plus. f_equal. unfold received. rewrite rsum_swap. clear - SS PR. induction SS as [|b [[ps st] ix] cat srcs SP SS IH]; cbn [rsum]; [ring|]. rewrite IH. destruct SP as (SP & -> & _).
  assert (NE : ps <> [] /\ NoDup ps /\ forall p, In p ps -> 0 <= p < 12 * (n * n)).
  { destruct SP as [ND [[SI NE]|[_ ->]]]; (split; [try assumption; discriminate|split; [assumption|]]); [intros p I; apply SI, I|intros p [<-|[]]; apply PR]. }
  destruct NE as (NE & ND & RG). set (each := (b_jys Dir b * sscale / INR (length ps))%R).
  assert (RS : forall l, NoDup l -> (forall p, In p l -> 0 <= p < 12 * (n * n)) -> rsum (arange (12 * (n * n))) (fun p => if has p l then each else 0%R) = (INR (length l) * each)%R).
  { clear. induction 1 as [|q l NI ND IH]; intros RG.
    - cbn [length INR]. rewrite (rsum_ext _ _ (fun _ => 0%R)) by reflexivity. rewrite rsum_const0 by reflexivity. ring.
    - cbn [length]. rewrite S_INR. rewrite (rsum_ext _ _ (fun p => (if p =? q then each else 0) + (if has p l then each else 0))%R).
      + rewrite rsum_plus, IH by (intros; apply RG; right; assumption). rewrite (rsum_single _ _ q); [rewrite Z.eqb_refl; ring|apply arange_nodup|apply arange_in, RG; left; reflexivity|]. intros p _ N. destruct (Z.eqb_spec p q); [contradiction|reflexivity].
      + intros p _. cbn [has existsb]. destruct (Z.eqb_spec p q) as [->|]; cbn [orb]; [|unfold has; destruct (existsb (Z.eqb p) l); ring]. replace (has q l) with false by (symmetry; apply Bool.not_true_is_false; rewrite has_in; exact NI). ring. }
  rewrite RS by assumption. unfold each. assert (INR (length ps) <> 0%R) by (destruct ps; [congruence|cbn [length]; apply not_0_INR; discriminate]). field. assumption.
Qed.
(* the order of the catalog makes no difference to fluxes and weights *)
Theorem C70_order n s nind sscale cat cat' k k1 k2 : (forall d, 0 <= pixel n s d < 12 * (n * n)) -> sky_of n s k ->
  (forall p, 0 <= p < 12 * (n * n) -> px (h_map (k_wgt k)) p = 0%R \/ px (h_map (k_wgt k)) p = 1%R) -> (nind = O <-> k_ind k = []) -> Permutation cat cat' ->
  foldM (add_source nind sscale) cat k = Ok k1 -> foldM (add_source nind sscale) cat' k = Ok k2 -> h_map (k_map k1) = h_map (k_map k2) /\ h_map (k_wgt k1) = h_map (k_wgt k2).
Proof.
  intros PR S Z NI PM E1 E2. destruct (sources_raw n s nind sscale PR cat k S Z NI) as (s1 & k1' & F1 & SS1 & R1). destruct (sources_raw n s nind sscale PR cat' k S Z NI) as (s2 & k2' & F2 & SS2 & R2).
  rewrite E1 in F1. rewrite E2 in F2. injection F1 as <-. injection F2 as <-.
  assert (PS : forall ps ps' n inside pt, spread n inside pt ps -> spread n inside pt ps' -> (forall q, In q ps <-> In q ps')).
  { clear. intros ps ps' n ins pt [_ [[A NA]|[A ->]]] [_ [[B NB]|[B ->]]] q; [rewrite A, B; reflexivity| | |reflexivity].
    - destruct ps as [|x ps]; [congruence|]. exfalso. destruct (A x) as [A' _]. destruct (A' (or_introl eq_refl)). eapply B; eauto.
    - destruct ps' as [|x ps']; [congruence|]. exfalso. destruct (B x) as [B' _]. destruct (B' (or_introl eq_refl)). eapply A; eauto. }
  assert (LN : forall ps ps' n inside pt, spread n inside pt ps -> spread n inside pt ps' -> length ps = length ps').
  { intros ps ps' m ins pt A B. pose proof (PS _ _ _ _ _ A B) as I. apply Nat.le_antisymm; apply NoDup_incl_length; try apply A; try apply B; intros q; apply I. }
  (* what a pixel receives is a function of the sources *)
  assert (FN : forall cat srcs, Forall2 (spreads n s sscale) cat srcs -> exists f c, (forall p, received p srcs = rsum cat (fun b => f b p)) /\ (forall p, covering p srcs = [] <-> forall b, In b cat -> c b p = false) /\
     (forall b ps p, spread n (inside n s b) (pixel n s (convert (precess (b_pos Dir b)))) ps -> In b cat -> f b p = (if has p ps then b_jys Dir b * sscale / INR (length ps) else 0)%R /\ c b p = has p ps)).
  { intros ct srcs SS. set (fp := fun b => footprint Dir pixel centre angles precess convert (k_map k) b).
    assert (FP : forall b, spread n (inside n s b) (pixel n s (convert (precess (b_pos Dir b)))) (fp b)) by (intros b; destruct (footprint_ok (k_map k) b n s) as (SP & _); [apply S|apply S|exact PR|exact SP]).
    exists (fun b p => if has p (fp b) then b_jys Dir b * sscale / INR (length (fp b)) else 0)%R, (fun b p => has p (fp b)).
    assert (HB : forall b ps p, spread n (inside n s b) (pixel n s (convert (precess (b_pos Dir b)))) ps -> has p (fp b) = has p ps /\ length (fp b) = length ps).
    { intros b ps p SP. split; [|eapply LN; [apply FP|exact SP]]. apply Bool.eq_true_iff_eq. rewrite !has_in. eapply PS; [apply FP|exact SP]. }
    split; [|split].
    - intros p. unfold received. induction SS as [|b [[ps st] ix] ct srcs SP SS IH]; [reflexivity|]. cbn [rsum]. rewrite IH. destruct SP as (SP & -> & _). destruct (HB b ps p SP) as [-> ->]. reflexivity.
    - intros p. unfold covering. induction SS as [|b [[ps st] ix] ct srcs SP SS IH]; [split; [intros _ b []|reflexivity]|]. cbn [filter]. destruct SP as (SP & _). destruct (HB b ps p SP) as [HP _]. destruct (has p ps) eqn:HE.
      + split; [discriminate|]. intros X. specialize (X b (or_introl eq_refl)). congruence.
      + rewrite IH. split; [intros X b' [<-|I]; [exact HP|apply X, I]|intros X b' I; apply X; right; exact I].
    - intros b ps p SP _. destruct (HB b ps p SP) as [-> ->]. auto. }
  destruct (FN cat s1 SS1) as (f1 & c1 & FR1 & FC1 & FS1), (FN cat' s2 SS2) as (f2 & c2 & FR2 & FC2 & FS2).
  assert (EQ : forall p, received p s1 = received p s2 /\ (covering p s1 = [] <-> covering p s2 = [])).
  { intros p. assert (EB : forall b, In b cat -> f1 b p = f2 b p /\ c1 b p = c2 b p).
    { intros b I. destruct (footprint_ok (k_map k) b n s) as (SP & _); [apply S|apply S|exact PR|]. destruct (FS1 b _ p SP I) as [-> ->]. destruct (FS2 b _ p SP (Permutation_in b PM I)) as [-> ->]. auto. }
    split.
    - rewrite FR1, FR2, <- (rsum_perm _ _ _ PM). apply rsum_ext. intros b I. apply EB, I.
    - rewrite FC1, FC2. split; intros X b I; [rewrite <- (proj2 (EB b (Permutation_in b (Permutation_sym PM) I))); apply X, (Permutation_in b (Permutation_sym PM) I)|rewrite (proj2 (EB b I)); apply X, (Permutation_in b PM I)]. }
  destruct R1 as (S1 & _ & _ & A1), R2 as (S2 & _ & _ & A2).
  assert (L : forall h h', part_of n s h -> part_of n s h' -> length (h_map h) = length (h_map h') /\ lenZ (h_map h) = 12 * (n * n)).
  { intros h h' ((G & L) & N & _) ((G' & L') & N' & _). rewrite N in L. rewrite N' in L'. split; [unfold lenZ in *; lia|exact L]. }
  split; (apply px_ext; [apply L; [apply S1|apply S2]|]); intros p P.
  - destruct (L _ _ (proj1 S1) (proj1 S2)) as [_ LL]. rewrite LL in P. destruct (A1 p P) as (-> & _), (A2 p P) as (-> & _). f_equal. apply EQ.
  - destruct (L _ _ (proj1 (proj2 S1)) (proj1 (proj2 S2))) as [_ LL]. rewrite LL in P. destruct (A1 p P) as (_ & -> & _), (A2 p P) as (_ & -> & _). destruct (EQ p) as [_ EC]. destruct (covering p s1), (covering p s2); try reflexivity; [destruct EC as [EC _]; discriminate (EC eq_refl)|destruct EC as [_ EC]; discriminate (EC eq_refl)].
Qed.

(* ---------- the input map ---------- *)
Notation between := (between interp_weights).
Notation import := (import Dir pixel centre interp_weights toin).
Notation resample := (resample Dir pixel interp_weights).
Lemma resample_ok n s h (ds : Z -> Dir) : part_of n s h -> (forall d, Forall (fun qw => 0 <= fst qw < 12 * (n * n)) (interp_weights n s d)) ->
  exists h', resample (arange (npix n)) (map ds (arange (npix n))) h = Ok h' /\ part_of n s h' /\ forall p, 0 <= p < 12 * (n * n) -> px (h_map h') p = between h (ds p).
Proof.
  intros ((G & L) & <- & <- & I) IW. unfold ModModel.resample, getitem. cbn [with_interp h_interp h_nside h_scheme h_map]. fold (npix (h_nside h)) in L, IW.
  rewrite (mapM_map _ (fun d => between h d)).
  2: { intros d _. unfold ModSpec.between. specialize (IW d). induction IW as [|[q w] l Q IW IH]; cbn [fold_right rsum fst snd]; auto. cbn [fst] in Q. rewrite IH. unfold np_get. rewrite np_index_pos by (rewrite L; auto). reflexivity. }
  cbn [bind]. pose proof (good_npix _ G) as GN.
  destruct (set_ok pixel (with_interp h true) (Px _ (arange (npix (h_nside h)))) (map (fun d => between h d) (map ds (arange (npix (h_nside h)))))) as (m & E & A & B).
  - cbn [with_interp h_map]. lia.
  - cbn [with_interp h_map pixels]. apply Forall_forall. intros q Q. apply arange_in in Q. unfold valid_px. lia.
  - cbn [pixels]. now rewrite !map_length.
  - rewrite E. cbn [bind]. cbn [with_interp h_map pixels] in A, B. eexists. split; [reflexivity|]. split.
    + repeat split; auto. cbn [h_map with_interp with_map h_nside]. fold (npix (h_nside h)). unfold lenZ in *. lia.
    + intros p P. cbn [h_map with_interp with_map]. fold (npix (h_nside h)) in P. destruct (B p) as [B1 _]; [lia|]. rewrite B1; [|exists p; split; [apply arange_in, P|unfold hits; rewrite Z.eqb_refl; reflexivity]].
      rewrite <- (map_id (arange (npix (h_nside h)))) at 1. rewrite L, sum_at_arange; auto; [|unfold lenZ; rewrite !map_length; apply arange_length; lia].
      rewrite (rsum_single _ _ p); [|apply arange_nodup|apply arange_in, P|intros q _ NQ; destruct (Z.eqb_spec q p); [contradiction|reflexivity]]. rewrite Z.eqb_refl, map_map. unfold px, arange.
      rewrite map_map, (nth_indep _ 0%R ((fun k => between h (ds (Z.of_nat k))) 0%nat)) by (rewrite map_length, seq_length; lia). rewrite (map_nth (fun k => between h (ds (Z.of_nat k)))), seq_nth by lia. rewrite Nat.add_0_l, Z2Nat.id by lia. reflexivity.
Qed.
(* the map, the weights and the indices after the change of coordinates *)
Theorem C70_import n s mscale k : sky_of n s k -> (forall d, Forall (fun qw => 0 <= fst qw < 12 * (n * n)) (interp_weights n s d)) ->
  exists k', import mscale k = Ok k' /\ sky_of n s k' /\ length (k_ind k') = length (k_ind k) /\
  forall p, 0 <= p < 12 * (n * n) -> let d := toin (centre n s p) in
    shown k' (k_map k') p = (mscale * (if Rlt_dec 0 (between (k_wgt k) d) then between (k_map k) d / between (k_wgt k) d else between (k_map k) d))%R /\
    px (h_map (k_wgt k')) p = between (k_wgt k) d /\
    forall j h h', nth_error (k_ind k) j = Some h -> nth_error (k_ind k') j = Some h' -> px (h_map h') p = between h d.
Proof.
  intros (SM & SW & SI) IW. unfold ModModel.import. cbn [with_map h_nside h_scheme]. destruct SM as ((GM & LM) & NM & CM & IM). rewrite NM, CM.
  set (m0 := with_map (k_map k) _). assert (PM : part_of n s m0) by (repeat split; auto; unfold m0; cbn [with_map h_map h_nside]; unfold lenZ in *; now rewrite map_length).
  destruct (resample_ok n s m0 (fun p => toin (centre n s p)) PM IW) as (m & -> & Pm & Vm). cbn [bind].
  destruct (resample_ok n s (k_wgt k) (fun p => toin (centre n s p)) SW IW) as (w & -> & Pw & Vw). cbn [bind].
  assert (IND : exists ind, mapM (resample (arange (npix n)) (map (fun p => toin (centre n s p)) (arange (npix n)))) (k_ind k) = Ok ind /\ Forall (part_of n s) ind /\
    Forall2 (fun h h' => forall p, 0 <= p < 12 * (n * n) -> px (h_map h') p = between h (toin (centre n s p))) (k_ind k) ind).
  { induction SI as [|h l Ph SI IH]; [exists []; repeat split; constructor|]. destruct IH as (ind & E & F & F2). destruct (resample_ok n s h (fun p => toin (centre n s p)) Ph IW) as (h' & E' & P' & V'). exists (h' :: ind). cbn [mapM]. rewrite E'. cbn [bind]. rewrite E. repeat split; constructor; assumption. }
  destruct IND as (ind & -> & FI & F2). cbn [bind]. exists (Sky m w ind). split; [reflexivity|]. split; [split; [exact Pm|split; [exact Pw|exact FI]]|]. split.
  { cbn [k_ind]. clear - F2. induction F2; cbn; congruence. }
  intros p P. pose (d := toin (centre n s p)). fold d. cbn [k_map k_wgt k_ind]. split; [|split; [apply Vw, P|]].
  - assert (BM : between m0 d = (mscale * between (k_map k) d)%R).
    { unfold ModSpec.between, m0. cbn [with_map h_nside h_scheme h_map]. specialize (IW d). rewrite NM, CM. induction IW as [|[q v] l Q IW IH]; cbn [rsum]; [ring|]. rewrite IH. replace (px (map (fun x => x * mscale)%R (h_map (k_map k))) q) with (px (h_map (k_map k)) q * mscale)%R; [ring|].
      unfold px. symmetry. replace 0%R with (0 * mscale)%R at 1 by ring. apply (map_nth (fun x => x * mscale)%R). }
    unfold shown. cbn [k_wgt]. rewrite Vw, Vm by exact P. fold d. rewrite BM. destruct (Rlt_dec 0 (between (k_wgt k) d)); [field; lra|ring].
  - intros j h h' E E'. clear - F2 E E' P. revert j E E'. induction F2 as [|a b l l' V F2 IH]; intros [|j] E E'; try discriminate; [injection E as <-; injection E' as <-; apply V, P|apply (IH j E E')].
Qed.
(* the same coordinates: the means are scaled, as interpolation at the centre of a pixel gives its value *)
Theorem C70_same_sky n s mscale k : sky_of n s k -> (forall d, Forall (fun qw => 0 <= fst qw < 12 * (n * n)) (interp_weights n s d)) ->
  (forall p (f : Z -> R), 0 <= p < 12 * (n * n) -> rsum (interp_weights n s (toin (centre n s p))) (fun '(q, w) => f q * w)%R = f p) ->
  exists k', import mscale k = Ok k' /\ sky_of n s k' /\ forall p, 0 <= p < 12 * (n * n) -> shown k' (k_map k') p = (mscale * shown k (k_map k) p)%R /\ px (h_map (k_wgt k')) p = px (h_map (k_wgt k)) p.
Proof.
  intros S IW C. destruct (C70_import n s mscale k S IW) as (k' & E & S' & _ & H). exists k'. split; [exact E|]. split; [exact S'|]. intros p P. destruct (H p P) as (H1 & H2 & _). cbv zeta in *.
  assert (B : forall h, part_of n s h -> between h (toin (centre n s p)) = px (h_map h) p).
  { intros h (_ & N & SC & _). unfold ModSpec.between. rewrite N, SC. rewrite <- (C p (px (h_map h)) P). reflexivity. }
  destruct S as (SM & SW & _). rewrite H1, H2, !B by assumption. split; reflexivity.
Qed.

(* ---------- whole runs ---------- *)
Notation start := (start Dir ring2nest nest2ring pixel centre interp_weights toin).
Notation modmap := (modmap Dir ring2nest nest2ring pixel centre interp_weights angles precess convert toin).
Theorem C70_start f o : match o_in o with
  | None => forall n, o_nside o = Some n -> good_nside n -> start f o = Ok (new_map n RING false (o_nind o))
  | Some name => forall imap, make_map f 1 RING false (Some name) None = Ok imap ->
      (o_nside o = None -> o_fmt o = false -> start f o = import (o_mscale o) imap) /\
      (forall n h, good_nside n -> o_nside o = Some n \/ o_nside o = None /\ o_fmt o = true /\ n = h_nside (k_map imap) ->
         from_map Dir ring2nest nest2ring pixel centre interp_weights (new_map n RING false (o_nind o)) imap = Ok h -> start f o = import (o_mscale o) h)
  end.
Proof.
  assert (MK : forall n, good_nside n -> make_map f n RING false None (Some (o_nind o)) = Ok (new_map n RING false (o_nind o))).
  { intros n (k & K & ->). unfold make_map. replace (pow2 (2 ^ k)) with true; [reflexivity|]. unfold pow2. rewrite Z.log2_pow2 by lia. rewrite Z.eqb_refl. assert (0 < 2 ^ k) by (apply Z.pow_pos_nonneg; lia). lia. }
  unfold ModModel.start. destruct (o_in o) as [name|].
  - intros imap ->. cbn [bind]. split; [intros -> ->; reflexivity|]. intros n h G [->|(-> & -> & ->)] FM; rewrite MK by exact G; cbn [bind]; rewrite FM; reflexivity.
  - intros n -> G. apply MK, G.
Qed.
Lemma reset_sky n s k : sky_of n s k -> sky_of n s (reset_wgt k 1) /\ zero_one n (reset_wgt k 1) /\ forall p, 0 <= p < 12 * (n * n) ->
  px (h_map (k_map (reset_wgt k 1))) p = shown k (k_map k) p /\ px (h_map (k_wgt (reset_wgt k 1))) p = (if Rlt_dec 0 (px (h_map (k_wgt k)) p) then 1 else 0)%R.
Proof.
  intros (((GM & LM) & NM & SM & IM) & ((GW & LW) & NW & SW & IW) & PI).
  assert (WP : forall p, 0 <= p < 12 * (n * n) -> px (h_map (k_wgt (reset_wgt k 1))) p = (if Rlt_dec 0 (px (h_map (k_wgt k)) p) then 1 else 0)%R).
  { intros p P. unfold reset_wgt, px. cbn [k_wgt with_map h_map]. rewrite (nth_indep _ 0%R ((fun x => if Rltb 0 x then 1 else 0)%R 0%R)) by (rewrite map_length; unfold lenZ in LW; rewrite NW in LW; lia).
    rewrite (map_nth (fun x => if Rltb 0 x then 1 else 0)%R). destruct (Rltb 0 _) eqn:E; [apply Rltb_true in E; destruct (Rlt_dec _ _); [reflexivity|contradiction]|]. destruct (Rlt_dec _ _) as [L|]; [apply Rltb_true in L; congruence|reflexivity]. }
  split; [|split].
  - unfold reset_wgt. split; [|split]; cbn [k_map k_wgt k_ind].
    + repeat split; auto. cbn [h_map with_map h_nside]. unfold zip_div, lenZ in *. rewrite map_length, combine_length, map_length. rewrite NM in *. rewrite NW in *. lia.
    + repeat split; auto. cbn [h_map with_map h_nside]. unfold lenZ in *. rewrite map_length. auto.
    + apply Forall_forall. intros h H. apply in_map_iff in H as (g & <- & I). rewrite Forall_forall in PI. destruct (PI g I) as ((G & L) & NN & SS & II).
      repeat split; auto. cbn [h_map with_map h_nside]. unfold zip_div, lenZ in *. rewrite map_length, combine_length, map_length. rewrite NN in *. rewrite NW in *. lia.
  - intros p P. rewrite WP by exact P. destruct (Rlt_dec _ _); auto.
  - intros p P. split; [|apply WP, P]. unfold reset_wgt, px, shown. cbn [k_map with_map h_map]. rewrite zip_div_nth; [|rewrite map_length; unfold lenZ in *; rewrite NM in LM; rewrite NW in LW; lia|unfold lenZ in LM; rewrite NM in LM; lia].
    rewrite (nth_indep (map pos_or_1 _) 0%R (pos_or_1 0)) by (rewrite map_length; unfold lenZ in LW; rewrite NW in LW; lia). rewrite map_nth. unfold pos_or_1. fold (px (h_map (k_wgt k)) p).
    destruct (Rltb 0 _) eqn:E; [apply Rltb_true in E; destruct (Rlt_dec _ _); [reflexivity|contradiction]|]. destruct (Rlt_dec _ _) as [L|]; [apply Rltb_true in L; congruence|]. unfold px. field.
Qed.
(* the file that is written: side, order and columns *)
Theorem C70_written cast f o cat k n s : start f o = Ok k -> sky_of n s k -> (forall d, 0 <= pixel n s d < 12 * (n * n)) -> (o_nind o = O <-> k_ind k = []) -> f (o_out o) = None ->
  exists srcs f' t, modmap true cast f o cat = Ok f' /\ (forall other, other <> o_out o -> f' other = f other) /\ f' (o_out o) = Some t /\ t_nside t = n /\ ordered t s /\ length (t_cols t) = (2 + length (k_ind k))%nat /\
    Forall2 (spreads n s (o_sscale o)) cat srcs /\
    nth_error (t_cols t) 0 = Some (Signal, map cast (map (fun p => shown k (k_map k) p + received p srcs)%R (arange (12 * (n * n))))) /\
    nth_error (t_cols t) 1 = Some (Weights, map cast (map (fun p => match covering p srcs with [] => if Rlt_dec 0 (px (h_map (k_wgt k)) p) then 1 else 0 | _ => 1 end)%R (arange (12 * (n * n))))).
Proof.
  intros ST S PR NI NF. destruct (reset_sky n s k S) as (S0 & Z0 & V0). unfold ModModel.modmap. rewrite ST. cbn [bind].
  destruct (sources_raw n s (o_nind o) (o_sscale o) PR cat (reset_wgt k 1) S0 Z0) as (srcs & k' & -> & SS & (S1 & Z1 & L1 & A)).
  { rewrite NI. unfold reset_wgt. cbn [k_ind]. destruct (k_ind k); cbn [map]; split; intros X; (reflexivity || discriminate X). }
  cbn [bind]. destruct (proj2 (C64_accepts true cast f (o_out o) false [] k' (fun c I => match I with end)) (conj eq_refl (or_intror NF))) as (f' & E). exists srcs, f'.
  assert (AL : alike n s k').
  { assert (X : forall h, part_of n s h -> full n h /\ h_scheme h = s) by (intros h (((j & J & E0) & L) & N & SC & _); split; [split; [exists j; split; [lia|congruence]|split; [exact N|rewrite L, N; reflexivity]]|exact SC]).
    destruct S1 as (A1 & A2 & A3). split; [apply X, A1|]. split; [apply X, A1|]. split; [apply X, A2|]. split; [apply X, A2|]. eapply Forall_impl; [|exact A3]. exact X. }
  destruct (C64_table cast f (o_out o) false [] n s k' f' AL E) as (t & T1 & T2 & T3 & _ & T5 & T6 & T7 & _). exists t. split; [exact E|]. split; [intros other N; exact (C64_other_files _ _ _ _ _ _ _ _ other E N)|].
  split; [exact T1|]. split; [exact T3|]. split; [exact T2|]. split; [rewrite T5, L1; unfold reset_wgt; cbn [k_ind]; now rewrite map_length|]. split; [exact SS|].
  assert (CO : forall h (g : Z -> R), part_of n s h -> (forall p, 0 <= p < 12 * (n * n) -> px (h_map h) p = g p) -> h_map h = map g (arange (12 * (n * n)))).
  { intros h g ((G & L) & N & _) H. rewrite N in L. rewrite <- (px_arange (h_map h)). rewrite L. apply map_ext_in. intros p P. apply H. apply arange_in, P. }
  rewrite T6, T7. destruct S1 as (P1 & P2 & _). split.
  - rewrite (CO _ (fun p => shown k (k_map k) p + received p srcs)%R P1); [reflexivity|]. intros p P. destruct (A p P) as (-> & _). destruct (V0 p P) as (-> & _). reflexivity.
  - rewrite (CO _ (fun p => match covering p srcs with [] => if Rlt_dec 0 (px (h_map (k_wgt k)) p) then 1 else 0 | _ => 1 end)%R P2); [reflexivity|]. intros p P. destruct (A p P) as (_ & -> & _). destruct (V0 p P) as (_ & ->). reflexivity.
Qed.
(* the file of a run is not written over *)
Theorem C70_no_clobber old cast f o cat : f (o_out o) <> None -> modmap old cast f o cat = Err.
Proof.
  intros N. unfold ModModel.modmap. destruct (start f o) as [k|]; [|reflexivity]. cbn [bind]. destruct (foldM _ cat _) as [k'|]; [|reflexivity]. cbn [bind].
  destruct (map_to_fits old cast f (o_out o) false [] k') as [f'|] eqn:E; [|reflexivity]. exfalso. destruct (proj1 (C64_accepts old cast f (o_out o) false [] k' (fun c I => match I with end)) (ex_intro _ f' E)) as [_ [X|X]]; [discriminate|contradiction].
Qed.

(* ---------- findings ---------- *)
Lemma ellipse_width a1 a2 th c x : in_ellipse a1 a2 th c x -> (Rabs (fst x - fst c) <= Rabs a1 + Rabs a2)%R.
Proof.
  intros (_ & _ & u & v & L & E & _). rewrite E. assert (AU : (Rabs u <= 1)%R) by (apply Rabs_le; split; nra). assert (AV : (Rabs v <= 1)%R) by (apply Rabs_le; split; nra).
  assert (AC : (Rabs (cos th) <= 1)%R) by (apply Rabs_le, COS_bound). assert (AS : (Rabs (sin th) <= 1)%R) by (apply Rabs_le, SIN_bound).
  eapply Rle_trans; [apply Rabs_triang|]. rewrite !Rabs_mult. pose proof (Rabs_pos a1). pose proof (Rabs_pos a2). pose proof (Rabs_pos u). pose proof (Rabs_pos v). pose proof (Rabs_pos (cos th)). pose proof (Rabs_pos (sin th)).
  assert (Rabs u * Rabs (cos th) <= 1)%R by nra. assert (Rabs v * Rabs (sin th) <= 1)%R by nra. nra.
Qed.
(* finding: azimuths are not compared around the circle: the part of a source on the other side of zero is cut off *)
Theorem C70_wrap_refuted b d ra dec : angles (precess (b_pos Dir b)) = (ra, dec) -> (Rabs (b_a1 Dir b) + Rabs (b_a2 Dir b) < PI)%R ->
  in_ellipse (b_a1 Dir b) (b_a2 Dir b) (b_th Dir b) (ra + 2 * PI, dec)%R (angles d) -> within b d = false.
Proof.
  intros A W I. apply Bool.not_true_is_false. rewrite within_ok, A. intros J. apply ellipse_width in I, J. cbn [fst] in I, J. set (x := fst (angles d)) in *. pose proof PI_RGT_0.
  pose proof (Rle_abs (x - (ra + 2 * PI))). pose proof (Rabs_Ropp (x - (ra + 2 * PI))) as Q1. pose proof (Rle_abs (- (x - (ra + 2 * PI)))). pose proof (Rle_abs (x - ra)). lra.
Qed.
(* finding: differences of azimuth are not scaled by the cosine of the latitude: near a pole, a direction
   closer to a round source than its radius is left out *)
Theorem C70_pole_refuted b d r ra dec phi : angles (precess (b_pos Dir b)) = (ra, dec) -> angles d = (phi, dec) -> b_a1 Dir b = r -> b_a2 Dir b = r -> (0 < r < PI)%R ->
  (Rabs (cos dec) < sin (r / 2))%R -> (r < Rabs (phi - ra))%R -> within b d = false /\ (cos r < sin dec * sin dec + cos dec * cos dec * cos (phi - ra))%R.
Proof.
  intros A D R1 R2 R0 C F. split.
  - apply Bool.not_true_is_false. rewrite within_ok, A, D, R1, R2. intros (_ & _ & u & v & L & X & Y). cbn [fst snd] in X, Y. pose proof (sin2_cos2 (b_th Dir b)) as E. unfold Rsqr in E. set (t := b_th Dir b) in *.
    assert (Q : ((phi - ra) * (phi - ra) + (dec - dec) * (dec - dec) = r * r * (u * u + v * v) * (sin t * sin t + cos t * cos t))%R) by (rewrite X, Y; ring). rewrite E in Q.
    assert (SQ : (Rabs (phi - ra) * Rabs (phi - ra) = (phi - ra) * (phi - ra))%R) by (rewrite <- Rabs_mult; apply Rabs_right; nra). nra.
  - pose proof (sin2_cos2 dec) as E. unfold Rsqr in E. pose proof (COS_bound (phi - ra)) as B. replace r with (2 * (r / 2))%R by field. rewrite cos_2a_sin. assert (cos dec * cos dec < sin (r / 2) * sin (r / 2))%R.
    { replace (cos dec * cos dec)%R with (Rabs (cos dec) * Rabs (cos dec))%R by (rewrite <- Rabs_mult; apply Rabs_right; nra). pose proof (Rabs_pos (cos dec)). nra. }
    nra.
Qed.
End C70.
(* finding: the shape of a source is laid about its equatorial coordinates whatever the coordinates of the map: --osys makes no difference to a source that covers a pixel *)
Theorem C70_osys_refuted {Dir} pixel centre angles precess (convert convert' : Dir -> Dir) h b p : 0 <= p < 12 * (h_nside h * h_nside h) ->
  in_ellipse (b_a1 Dir b) (b_a2 Dir b) (b_th Dir b) (angles (precess (b_pos Dir b))) (angles (centre (h_nside h) (h_scheme h) p)) ->
  footprint Dir pixel centre angles precess convert h b = footprint Dir pixel centre angles precess convert' h b /\ In p (footprint Dir pixel centre angles precess convert h b).
Proof.
  intros P I. unfold footprint. set (l := filter _ _). assert (X : In p l) by (apply filter_In; split; [apply arange_in, P|apply (within_ok angles precess); exact I]). destruct l; [destruct X|]. split; [reflexivity|exact X].
Qed.
(* finding: the position of a point source is taken from J2000 to --oepoch twice *)
Theorem C70_epoch_refuted {Dir} pixel centre angles (precess convert : Dir -> Dir) h b : (forall d, convert d = precess d) ->
  (forall p, 0 <= p < 12 * (h_nside h * h_nside h) -> ~ in_ellipse (b_a1 Dir b) (b_a2 Dir b) (b_th Dir b) (angles (precess (b_pos Dir b))) (angles (centre (h_nside h) (h_scheme h) p))) ->
  footprint Dir pixel centre angles precess convert h b = [pixel (h_nside h) (h_scheme h) (precess (precess (b_pos Dir b)))].
Proof.
  intros C N. unfold footprint. destruct (filter _ _) as [|p l] eqn:E; [now rewrite C|]. exfalso. assert (I : In p (p :: l)) by (left; reflexivity). rewrite <- E in I. apply filter_In in I as [I J]. apply arange_in in I. apply (within_ok angles precess) in J. exact (N p I J).
Qed.
(* finding: --nindices is not heeded when the input map is used as it is: without indices in it, the first source stops the run *)
Theorem C70_nindices_refuted {Dir} ring2nest nest2ring pixel centre interp_weights angles (precess convert toin : Dir -> Dir) old cast f o name imap n s b cat :
  o_in o = Some name -> o_nside o = None -> o_fmt o = false -> o_nind o <> O -> make_map f 1 RING false (Some name) None = Ok imap -> sky_of n s imap -> k_ind imap = [] ->
  (forall d, Forall (fun qw => 0 <= fst qw < 12 * (n * n)) (interp_weights n s d)) -> (forall d, 0 <= pixel n s d < 12 * (n * n)) ->
  modmap Dir ring2nest nest2ring pixel centre interp_weights angles precess convert toin old cast f o (b :: cat) = Err.
Proof.
  intros O1 O2 O3 O4 M S NI IW PR. pose proof (C70_start ring2nest nest2ring pixel centre interp_weights toin f o) as ST. rewrite O1 in ST. destruct (ST imap M) as [ST1 _]. specialize (ST1 O2 O3).
  destruct (C70_import ring2nest nest2ring pixel centre interp_weights angles precess convert toin n s (o_mscale o) imap S IW) as (k & E & SK & LK & _). unfold modmap. rewrite ST1, E. cbn [bind]. rewrite NI in LK. destruct (reset_sky ring2nest nest2ring pixel centre interp_weights angles precess convert toin n s k SK) as (S0 & _ & _).
  assert (KI : k_ind (reset_wgt k 1) = []) by (unfold reset_wgt; cbn [k_ind]; destruct (k_ind k); [reflexivity|discriminate]).
  cbn [foldM]. unfold add_source. destruct (footprint_ok pixel centre angles precess convert (k_map (reset_wgt k 1)) b n s) as (_ & NE & F); [apply S0|apply S0|exact PR|].
  destruct (footprint _ _ _ _ _ _ _ b) as [|p ps]; [congruence|]. apply Forall_cons_iff in F as [P _]. cbn [foldM]. unfold add_px. rewrite (map_get_px pixel interp_weights n s) by assumption. cbn [bind]. rewrite KI. cbn [map]. destruct (o_nind o); [congruence|reflexivity].
Qed.
Print Assumptions C70_sources. Print Assumptions C70_order. Print Assumptions C70_import. Print Assumptions C70_same_sky. Print Assumptions C70_start. Print Assumptions C70_written. Print Assumptions C70_no_clobber.
Print Assumptions C70_wrap_refuted. Print Assumptions C70_pole_refuted. Print Assumptions C70_osys_refuted. Print Assumptions C70_epoch_refuted. Print Assumptions C70_nindices_refuted.

(* a map of twelve pixels on a line: 6 Jy over the pixels 3, 4 and 5, and 2 Jy in pixel 4 *)
Example C70_sources_ex : let angles (d : Z) := (IZR d, 0%R) in let wide := Body Z 4 (3 / 2) (3 / 2) 0 6 0 in let point := Body Z 4 0 0 0 2 0 in
  exists k', foldM (add_source Z (fun _ _ d => d mod 12) (fun _ _ p => p) (fun _ _ d => [(d, 1%R)]) angles (fun d => d) (fun d => d) 0 1) [wide; point] (new_map 1 RING false 0) = Ok k' /\
  map (shown k' (k_map k')) [0; 3; 4; 5; 6] = [0; 2; 4; 2; 0]%R /\ map (px (h_map (k_wgt k'))) [0; 3; 4; 5; 6] = [0; 1; 1; 1; 0]%R /\ total (h_map (k_map k')) = 8%R.
Proof.
  intros angles wide point. assert (G : good_nside 1) by (exists 0; split; [lia|reflexivity]). destruct (new_sky 1 RING 0 G) as [SK _].
  assert (ZP : forall p, px (h_map (k_wgt (new_map 1 RING false 0))) p = 0%R) by (intros p; apply px_repeat). assert (ZM : forall p, px (h_map (k_map (new_map 1 RING false 0))) p = 0%R) by (intros p; apply px_repeat).
  destruct (C70_sources (fun _ _ d => d mod 12) (fun _ _ p => p) (fun _ _ d => [(d, 1%R)]) angles (fun d : Z => d) (fun d => d) 1 RING 0 1 [wide; point] (new_map 1 RING false 0)) as (srcs & k' & E & SS & (_ & A) & T).
  { intros d. apply Z.mod_pos_bound. lia. } { exact SK. } { intros p _. left. apply ZP. } { split; reflexivity. }
  exists k'. split; [exact E|]. inversion SS as [|? [[ps st] ix] ? sr (SP & -> & ->) SS1]; subst. inversion SS1 as [|? [[qs st] ix] ? sr1 (SQ & -> & ->) SS2]; subst. inversion SS2; subst.
  assert (QS : qs = [4]). { destruct SQ as [_ [[X N]|[_ ->]]]; [|reflexivity]. destruct qs as [|q qs]; [congruence|]. destruct (X q) as [X1 _]. destruct (X1 (or_introl eq_refl)) as [_ (N1 & _)]. exfalso. apply N1. reflexivity. }
  assert (W : forall p, in_ellipse (3 / 2) (3 / 2) 0 (angles 4) (angles p) <-> 3 <= p <= 5).
  { intros p. unfold in_ellipse, angles. cbn [fst snd]. rewrite cos_0, sin_0. split.
    - intros (_ & _ & u & v & L & X & _). assert (U : (-1 <= u <= 1)%R) by (split; nra). assert (2 < p) by (apply lt_IZR; lra). assert (p < 6) by (apply lt_IZR; lra). lia.
    - intros P. split; [lra|]. split; [lra|]. exists ((IZR p - 4) / (3 / 2))%R, 0%R. assert (X : p = 3 \/ p = 4 \/ p = 5) by lia. destruct X as [->|[->| ->]]; (split; [|split]; lra). }
  assert (PS : Permutation ps [3; 4; 5]).
  { destruct SP as [ND [[X _]|[X _]]].
    - apply NoDup_Permutation; [exact ND|repeat constructor; cbn; lia|]. intros p. rewrite X. change (b_a1 Z wide) with (3 / 2)%R. change (b_a2 Z wide) with (3 / 2)%R. change (b_th Z wide) with 0%R. change (b_pos Z wide) with 4. rewrite W. cbn. lia.
    - exfalso. apply (X 4); [lia|]. apply W. lia. }
  assert (LP : length ps = 3%nat) by apply (Permutation_length PS).
  assert (HP : forall p, has p ps = has p [3; 4; 5]) by (intros p; apply Bool.eq_true_iff_eq; rewrite !has_in; split; apply Permutation_in; [exact PS|symmetry; exact PS]).
  assert (SH : forall p, 0 <= p < 12 -> shown k' (k_map k') p = ((if has p [3; 4; 5]%Z then 2 else 0) + (if has p [4]%Z then 2 else 0))%R /\ px (h_map (k_wgt k')) p = if has p [3; 4; 5] then 1%R else if has p [4] then 1%R else 0%R).
  { intros p P. destruct (A p P) as (-> & -> & _). split.
    - unfold shown. rewrite ZP, ZM. destruct (Rlt_dec 0 0) as [X|_]; [lra|]. unfold received. cbn [rsum]. rewrite HP, LP, QS. cbn [length INR b_jys wide point]. destruct (has p [3; 4; 5]), (has p [4]); lra.
    - unfold covering. cbn [filter]. rewrite HP, QS. destruct (has p [3; 4; 5]), (has p [4]); try reflexivity. apply ZP. }
  split; [|split].
  - cbn [map]. repeat match goal with |- context [shown k' (k_map k') ?p] => rewrite (proj1 (SH p ltac:(lia))) end. cbn. repeat (f_equal; try lra).
  - cbn [map]. repeat match goal with |- context [px (h_map (k_wgt k')) ?p] => rewrite (proj2 (SH p ltac:(lia))) end. reflexivity.
  - rewrite T. unfold total. cbn [new_map set_nindices k_map new_hpm h_map]. replace (rsum (repeat 0%R (Z.to_nat (npix 1))) (fun x => x)) with 0%R; [cbn; lra|]. symmetry. apply rsum_const0. intros x I. apply repeat_spec in I. exact I.
Qed.
