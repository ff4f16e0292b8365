From Coq Require Import Reals Lra Permutation.
From Verif Require Import Base CleanModel CleanSpec CleanProofs GridModel GridSpec GridProofs HpxModel HpxSpec HpxProofs.
Ltac Zify.zify_post_hook ::= idtac.
Open Scope Z_scope.

(* ---------------- Alm ---------------- *)
Definition tri (L m : Z) : Z := m * (2 * L + 1 - m) / 2.
Lemma tri_eq L m : 2 * tri L m = m * (2 * L + 1 - m).
Proof.
  unfold tri. assert (E : exists k, m * (2 * L + 1 - m) = 2 * k).
  { destruct (Z.Even_or_Odd m) as [[k ->] | [k ->]]; [exists (k * (2 * L + 1 - 2 * k)) | exists ((2 * k + 1) * (L - k))]; ring. }
  destruct E as [k ->]. rewrite (Z.mul_comm 2 k), Z.div_mul by lia. ring.
Qed.
Lemma getidx_tri L l m : getidx L l m = tri L m + l. Proof. reflexivity. Qed.
Lemma getsize_tri L M : getsize L M = tri L M + L + 1. Proof. reflexivity. Qed.
Lemma tri_mono L a b : 0 <= a -> a <= b -> b <= L -> tri L a <= tri L b.
Proof. intros A B C. pose proof (tri_eq L a). pose proof (tri_eq L b). nia. Qed.
Lemma getlm_getidx L l m : 0 <= m -> m <= l -> l <= L -> getlm L (getidx L l m) = (l, m).
Proof.
  intros A B C. unfold getlm. cbv zeta. rewrite getidx_tri. set (a := 2 * L + 1). pose proof (tri_eq L m) as T. fold a in T.
  assert (S : a - 2 * m <= Z.sqrt (a * a - 8 * (tri L m + l - L)) < a - 2 * m + 2).
  { pose proof (Z.sqrt_spec (a * a - 8 * (tri L m + l - L))) as Q. assert (P : 0 <= a * a - 8 * (tri L m + l - L)) by (unfold a in *; nia).
    specialize (Q P). pose proof (Z.sqrt_nonneg (a * a - 8 * (tri L m + l - L))). set (s := Z.sqrt _) in *. cbv zeta in Q.
    destruct Q as [Q1 Q2]. split; apply Z.nlt_ge || apply Z.nle_gt; intros H1; unfold a in *; nia. }
  set (s := Z.sqrt _) in *. assert (E : - ((s - a) / 2) = m).
  { assert (E : (s - a) / 2 = - m); [|lia]. destruct (Z.eq_dec s (a - 2 * m)) as [-> | N].
    - replace (a - 2 * m - a) with ((- m) * 2) by ring. apply Z.div_mul. lia.
    - replace (s - a) with (1 + (- m) * 2) by lia. rewrite Z.div_add by lia. reflexivity. }
  rewrite E. fold a in T. unfold tri in *. fold a. f_equal. fold a. lia.
Qed.
Lemma idx_exists L i : forall M, M <= L -> 0 <= i < tri L (Z.of_nat (Z.to_nat M)) + L + 1 -> 0 <= M -> exists lm, valid_lm L M lm /\ getidx L (fst lm) (snd lm) = i.
Proof.
  intros M ML I M0. rewrite Z2Nat.id in I by auto. revert ML I. pattern M. revert M M0. apply natlike_ind.
  - intros ML I. exists (i, 0). unfold valid_lm, tri in *. cbn in *. split; [lia|reflexivity].
  - intros M M0 IH ML I. pose proof (tri_eq L (Z.succ M)) as T1. pose proof (tri_eq L M) as T0. destruct (Z_le_dec (tri L (Z.succ M) + Z.succ M) i).
    + exists (i - tri L (Z.succ M), Z.succ M). cbn [fst snd]. unfold valid_lm. cbn [fst snd]. split; [lia|]. rewrite getidx_tri. lia.
    + destruct IH as (lm & V & E); [lia|split; [lia|nia]|]. exists lm. split; auto. unfold valid_lm in *. lia.
Qed.
Lemma idx_range L M lm : valid_lm L M lm -> M <= L -> 0 <= getidx L (fst lm) (snd lm) < getsize L M.
Proof.
  intros (A & B & C & D) ML. rewrite getidx_tri, getsize_tri. pose proof (tri_mono L (snd lm) M A D ML). pose proof (tri_mono L 0 (snd lm) ltac:(lia) A ltac:(lia)).
  assert (tri L 0 = 0) by reflexivity. lia.
Qed.
Lemma idx_inj L M a b : valid_lm L M a -> valid_lm L M b -> getidx L (fst a) (snd a) = getidx L (fst b) (snd b) -> a = b.
Proof.
  intros (A1 & A2 & A3 & _) (B1 & B2 & B3 & _) E. pose proof (getlm_getidx L (fst a) (snd a) A1 A2 A3) as G. rewrite E, getlm_getidx in G by auto.
  destruct a, b. auto.
Qed.
Lemma getlm_valid L M i : 0 <= M <= L -> 0 <= i < getsize L M -> valid_lm L M (getlm L i) /\ getidx L (fst (getlm L i)) (snd (getlm L i)) = i.
Proof.
  intros ML I. destruct (idx_exists L i M) as (lm & V & E); [lia | rewrite Z2Nat.id by lia; rewrite getsize_tri in I; lia | lia|].
  rewrite <- E at 1. destruct V as (A & B & C & D) eqn:EV. rewrite getlm_getidx by auto. destruct lm as [l m]. cbn [fst snd] in *. split; [exact V|].
  rewrite <- E at 1 2. rewrite getlm_getidx by auto. auto.
Qed.

(* ---------------- sums ---------------- *)
Lemma rsum_single {A} (l : list A) g p : NoDup l -> In p l -> (forall k, In k l -> k <> p -> g k = 0%R) -> rsum l g = g p.
Proof.
  induction 1 as [|x l N ND IH]; intros I Z; [destruct I|]. cbn [rsum]. destruct I as [-> | I].
  - rewrite (rsum_const0 l); [lra|]. intros k K. apply Z; [right; auto|]. intros ->. auto.
  - rewrite IH; auto. + rewrite (Z x); [lra | left; auto | intros ->; auto]. + intros k K. apply Z. right. auto.
Qed.
Lemma rsum_plus {A} (l : list A) f g : rsum l (fun x => f x + g x)%R = (rsum l f + rsum l g)%R.
Proof. induction l as [|x l IH]; cbn; [lra|]. rewrite IH. lra. Qed.
Lemma rsum_swap {A B} (l : list A) (m : list B) f : rsum l (fun a => rsum m (fun b => f a b)) = rsum m (fun b => rsum l (fun a => f a b)).
Proof.
  induction l as [|x l IH]; cbn [rsum]; [symmetry; apply rsum_const0; auto|]. rewrite IH, <- rsum_plus. reflexivity.
Qed.
Lemma total_arange (m : list R) : total m = rsum (arange (lenZ m)) (px m).
Proof. unfold total. rewrite <- (px_arange m) at 1. rewrite rsum_map. reflexivity. Qed.
Lemma sum_at_arange n N f vals k : lenZ vals = N -> 0 <= k < n -> (forall q, 0 <= q < N -> 0 <= f q < n) ->
  sum_at n (map f (arange N)) vals k = rsum (arange N) (fun q => if f q =? k then px vals q else 0%R).
Proof.
  intros L K F. unfold sum_at. rewrite <- (px_arange vals) at 1. rewrite L. rewrite combine_map_l.
  rewrite (combine_map_r (px vals) (arange N)).
  assert (E : forall l : list Z, combine l l = map (fun q => (q, q)) l) by (induction l; cbn; congruence). rewrite E, !map_map, rsum_map. cbn [fst snd].
  apply rsum_ext. intros q Q. apply arange_in in Q. cbn [fst snd]. rewrite hits_pos by auto. reflexivity.
Qed.

(* ---------------- schemes and resolutions ---------------- *)
Lemma good_pos n : good_nside n -> 0 < n <= 8192.
Proof.
  intros (k & K & ->). split; [apply Z.pow_pos_nonneg; lia|]. change 8192 with (2 ^ 13). apply Z.pow_le_mono_r; lia.
Qed.
Lemma good_npix n : good_nside n -> 0 < npix n <= 2147483648.
Proof. intros G. apply good_pos in G. unfold npix. nia. Qed.
Section Conv.
Context {Dir : Type} (ring2nest nest2ring : Z -> Z -> Z) (pixel : Z -> scheme -> Dir -> Z) (centre : Z -> scheme -> Z -> Dir).
Hypothesis HX : healpix Dir ring2nest nest2ring pixel centre.
Definition conv (s : scheme) (n p : Z) : Z := match s with RING => nest2ring n p | NEST => ring2nest n p end.
Lemma scheme_eqb_eq a b : scheme_eqb a b = true <-> a = b.
Proof. destruct a, b; cbn; split; congruence. Qed.
Lemma conv_range s n p : good_nside n -> 0 <= p < npix n -> 0 <= conv s n p < npix n.
Proof. intros G P. destruct s; cbn; apply HX; auto. Qed.
Lemma conv_inj s n p q : good_nside n -> 0 <= p < npix n -> 0 <= q < npix n -> conv s n p = conv s n q -> p = q.
Proof.
  intros G P Q E. destruct s; cbn in E.
  - destruct (hx_n2r _ _ _ _ _ HX n p G P) as [_ <-]. destruct (hx_n2r _ _ _ _ _ HX n q G Q) as [_ <-]. congruence.
  - destruct (hx_r2n _ _ _ _ _ HX n p G P) as [_ <-]. destruct (hx_r2n _ _ _ _ _ HX n q G Q) as [_ <-]. congruence.
Qed.
Lemma conv_pixel s s' n d : good_nside n -> s <> s' -> pixel n s' d = conv s' n (pixel n s d).
Proof.
  intros G N. destruct s, s'; try congruence; cbn.
  - apply HX; auto.
  - rewrite (hx_same _ _ _ _ _ HX) by auto. symmetry. apply HX; auto. apply HX; auto.
Qed.
Lemma change_ok h s : good h -> exists m, change_scheme Dir ring2nest nest2ring pixel h s = Ok (Hpm (h_nside h) s m (h_interp h)) /\
  length m = length (h_map h) /\ forall d, px m (pixel (h_nside h) s d) = sky pixel h d.
Proof.
  intros [G L]. unfold change_scheme. destruct (scheme_eqb s (h_scheme h)) eqn:ES.
  - apply scheme_eqb_eq in ES. subst. exists (h_map h). destruct h; cbn. auto.
  - unfold nest_ring_conv. rewrite ES. set (n := h_nside h) in *. fold (npix n) in L.
    set (h1 := with_scheme h s). set (i := map _ (arange (npix n))).
    assert (EI : i = map (conv s n) (arange (npix n))) by (destruct s; reflexivity).
    assert (NS : h_scheme h <> s) by (intros E; rewrite <- E in ES; destruct (h_scheme h); discriminate).
    destruct (set_ok pixel h1 (Px _ i) (h_map h)) as (m & E & A & B).
    + cbn. rewrite L. apply good_npix. auto.
    + cbn. rewrite EI, L. apply Forall_forall. intros q Q. apply in_map_iff in Q as (x & <- & X). apply arange_in in X.
      pose proof (conv_range s n x G X). unfold valid_px. lia.
    + cbn. rewrite EI, map_length. apply Nat2Z.inj. fold (lenZ (h_map h)). rewrite L. fold (lenZ (arange (npix n))). rewrite arange_length; auto.
      pose proof (good_npix n G). lia.
    + change (h_map h1) with (h_map h). rewrite E. cbn [bind]. exists m. split; [reflexivity|]. split; auto.
      intros d. rewrite (conv_pixel (h_scheme h) s) by auto. pose proof (hx_range _ _ _ _ _ HX n (h_scheme h) d G) as P.
      fold (npix n) in P. cbn [h_map h1 with_scheme pixels] in B. rewrite L in B. rewrite EI in B.
      destruct (B (conv s n (pixel n (h_scheme h) d))) as [B1 _]; [apply conv_range; auto|].
      rewrite B1.
      * rewrite sum_at_arange; auto; [|apply conv_range; auto | intros q Q; apply conv_range; auto].
        rewrite (rsum_single _ _ (pixel n (h_scheme h) d)); [rewrite Z.eqb_refl; reflexivity | apply arange_nodup | apply arange_in; auto|].
        intros k K NK. apply arange_in in K. destruct (Z.eqb_spec (conv s n k) (conv s n (pixel n (h_scheme h) d))) as [E'|]; auto.
        apply conv_inj in E'; auto. contradiction.
      * exists (conv s n (pixel n (h_scheme h) d)). split; [apply in_map; apply arange_in; auto|]. unfold hits. rewrite Z.eqb_refl. auto.
Qed.
Lemma change_back h s : good h -> exists h', change_scheme Dir ring2nest nest2ring pixel h s = Ok h' /\
  change_scheme Dir ring2nest nest2ring pixel h' (h_scheme h) = Ok h.
Proof.
  intros G. destruct (change_ok h s G) as (m & E & L & S). eexists. split; [exact E|].
  set (h' := Hpm (h_nside h) s m (h_interp h)) in *. assert (G' : good h').
  { destruct G as [G1 G2]. split; auto. cbn. unfold lenZ in *. rewrite L. auto. }
  destruct (change_ok h' (h_scheme h) G') as (m2 & E2 & L2 & S2). rewrite E2. cbn. f_equal.
  assert (EM : m2 = h_map h); [|rewrite EM; destruct h; reflexivity].
  apply px_ext; [cbn in L2; lia|]. intros k K. destruct G as [G1 G2]. cbn [h' h_nside h_map] in *.
  assert (LM : lenZ m2 = 12 * (h_nside h * h_nside h)) by (unfold lenZ in *; lia).
  rewrite LM in K. rewrite <- (hx_centre _ _ _ _ _ HX (h_nside h) (h_scheme h) k G1 K) at 1. rewrite S2. unfold sky. cbn [h_map h_nside h_scheme].
  rewrite S. unfold sky. rewrite (hx_centre _ _ _ _ _ HX) by auto. reflexivity.
Qed.
Context (interp_weights : Z -> scheme -> Dir -> list (Z * R)).
Lemma get_all h : getitem Dir pixel interp_weights h (Px _ (arange (lenZ (h_map h)))) = Ok (h_map h).
Proof.
  unfold getitem, pixels. rewrite (mapM_map _ (px (h_map h))); [rewrite px_arange; auto|]. intros x X. apply arange_in in X.
  unfold np_get. rewrite np_index_pos by auto. reflexivity.
Qed.
Lemma degrade_ok self hp : good self -> good hp -> h_nside self < h_nside hp -> exists m,
  from_hpm Dir ring2nest nest2ring pixel centre interp_weights self hp = Ok (with_map self m, hp) /\ length m = length (h_map self) /\
  (forall p, 0 <= p < lenZ m -> px m p = rsum (arange (lenZ (h_map hp))) (fun q =>
     if pixel (h_nside self) (h_scheme self) (centre (h_nside hp) (h_scheme hp) q) =? p then px (h_map hp) q else 0%R)) /\
  total m = total (h_map hp).
Proof.
  intros [G L] [G' L'] N. unfold from_hpm. replace (h_nside hp <? h_nside self) with false by lia. replace (h_nside self <? h_nside hp) with true by lia.
  fold (npix (h_nside hp)) in L'. fold (npix (h_nside self)) in L. pose proof (good_npix _ G). pose proof (good_npix _ G').
  rewrite <- L'. rewrite get_all. cbn [bind]. set (f := fun q => pixel (h_nside self) (h_scheme self) (centre (h_nside hp) (h_scheme hp) q)).
  assert (EP : pixels Dir pixel self (At _ (map (centre (h_nside hp) (h_scheme hp)) (arange (lenZ (h_map hp))))) = map f (arange (lenZ (h_map hp)))).
  { unfold pixels. rewrite map_map. reflexivity. }
  assert (FR : forall q, 0 <= f q < lenZ (h_map self)) by (intros q; rewrite L; apply HX; auto).
  destruct (set_ok pixel self (At _ (map (centre (h_nside hp) (h_scheme hp)) (arange (lenZ (h_map hp))))) (h_map hp)) as (m & E & A & B).
  - rewrite L. lia.
  - rewrite EP. apply Forall_forall. intros q Q. apply in_map_iff in Q as (x & <- & X). specialize (FR x). unfold valid_px. lia.
  - rewrite EP, map_length. apply Nat2Z.inj. fold (lenZ (h_map hp)). fold (lenZ (arange (lenZ (h_map hp)))). rewrite arange_length; lia.
  - rewrite E. cbn [bind]. exists m. split; [reflexivity|]. split; [auto|]. assert (LM : lenZ m = lenZ (h_map self)) by (unfold lenZ; lia). rewrite EP in B.
    assert (P : forall p, 0 <= p < lenZ m -> px m p = rsum (arange (lenZ (h_map hp))) (fun q => if f q =? p then px (h_map hp) q else 0%R)).
    { intros p P. rewrite LM in P. destruct (B p P) as [B1 _]. rewrite B1; [apply sum_at_arange; auto|].
      set (d := centre (h_nside self) (h_scheme self) p). exists p. split; [|unfold hits; rewrite Z.eqb_refl; auto].
      apply in_map_iff. exists (pixel (h_nside hp) (h_scheme hp) d). split.
      - unfold f. rewrite (hx_inside _ _ _ _ _ HX) by (auto; lia). apply HX; auto. rewrite L in P. exact P.
      - apply arange_in. rewrite L'. apply HX; auto. }
    split; [exact P|]. rewrite !total_arange. rewrite (rsum_ext _ _ _ (fun p I => P p (proj1 (arange_in _ p) I))). rewrite rsum_swap.
    apply rsum_ext. intros q Q. rewrite (rsum_single _ _ (f q)); [rewrite Z.eqb_refl; auto | apply arange_nodup | apply arange_in; rewrite LM; auto|].
    intros k K NK. destruct (Z.eqb_spec (f q) k); congruence.
Qed.
Lemma upgrade_ok self hp : good self -> good hp -> h_nside hp < h_nside self ->
  (forall d, Forall (fun qw => 0 <= fst qw < lenZ (h_map hp)) (interp_weights (h_nside hp) (h_scheme hp) d)) -> exists m,
  from_hpm Dir ring2nest nest2ring pixel centre interp_weights self hp = Ok (with_map self m, Hpm (h_nside hp) (h_scheme hp) (h_map hp) true) /\
  length m = length (h_map self) /\
  forall p, 0 <= p < lenZ m -> px m p = rsum (interp_weights (h_nside hp) (h_scheme hp) (centre (h_nside self) (h_scheme self) p))
     (fun qw => px (h_map hp) (fst qw) * snd qw)%R.
Proof.
  intros [G L] [G' L'] N IW. unfold from_hpm. replace (h_nside hp <? h_nside self) with true by lia. fold (npix (h_nside self)) in L. pose proof (good_npix _ G).
  set (g := fun d => rsum (interp_weights (h_nside hp) (h_scheme hp) d) (fun qw => px (h_map hp) (fst qw) * snd qw)%R).
  unfold getitem. cbn [h_interp h_nside h_scheme h_map]. rewrite <- L in *.
  set (ds := map _ _). rewrite (mapM_map _ g).
  2: { intros d _. unfold g. specialize (IW d). induction IW as [|[q w] l Q IW IH]; cbn [fold_right rsum fst snd]; auto.
       cbn [fst] in Q. rewrite IH. unfold np_get. rewrite np_index_pos by auto. reflexivity. }
  cbn [bind]. set (a := arange (lenZ (h_map self))) in *.
  destruct (set_ok pixel self (Px _ a) (map g ds)) as (m & E & A & B).
  - lia.
  - cbn. apply Forall_forall. intros q Q. apply arange_in in Q. unfold valid_px. lia.
  - unfold ds. rewrite !map_length. reflexivity.
  - rewrite E. cbn [bind]. exists m. split; [reflexivity|]. split; [auto|]. intros p P. assert (LM : lenZ m = lenZ (h_map self)) by (unfold lenZ; lia). rewrite LM in P.
    destruct (B p P) as [B1 _]. rewrite B1; [|exists p; split; [apply arange_in; auto | unfold hits; rewrite Z.eqb_refl; auto]].
    change (pixels Dir pixel self (Px _ a)) with a. rewrite <- (map_id a). unfold a.
    rewrite sum_at_arange; auto.
    + rewrite (rsum_single _ _ p); [|apply arange_nodup | apply arange_in; auto | intros k K NK; destruct (Z.eqb_spec k p); congruence].
      rewrite Z.eqb_refl. unfold ds. rewrite map_map. unfold px. fold a.
      rewrite (nth_indep _ 0%R (g (centre (h_nside self) (h_scheme self) 0))) by (rewrite map_length; apply Nat2Z.inj_lt; fold (lenZ a); unfold a; rewrite arange_length; lia).
      rewrite (map_nth (fun q => g (centre (h_nside self) (h_scheme self) q))). unfold a, arange. change 0 with (Z.of_nat 0). rewrite map_nth, seq_nth by lia.
      rewrite Nat.add_0_l, Z2Nat.id by lia. reflexivity.
    + unfold ds, lenZ. rewrite !map_length. unfold a, arange. rewrite map_length, seq_length. unfold lenZ. lia.
Qed.
End Conv.
