From Coq Require Import Reals Lra Permutation.
From Verif Require Import Base CleanModel CleanSpec CleanProofs CleanProofs2 GridModel GridSpec GridProofs GridProofs2 GridProps ImgModel ImgSpec ImgProofs ImgProofs2 ImgProofs3 ImgProofs4 ImgProps GeoModel GeoProofs SkyModel SkySpec SkyProofs SkyProofs2.
Ltac Zify.zify_post_hook ::= idtac.
Open Scope R_scope.
Local Notation length := List.length.

(* the value of row i, column j of an image *)
Definition pixel (im : img) (c0 c1 : Z) (i j : nat) (v : R) : Prop := exists t, image im c0 c1 = Ok t /\ at2 t i j = Some v.
Definition pixel_of (n : Z) (i j : nat) : Prop := (Z.of_nat i < n)%Z /\ (Z.of_nat j < n)%Z.
Lemma pixel_value im c0 c1 i j : (0 < i_n im)%Z -> pixel_of (i_n im) i j ->
  pixel im c0 c1 i j (fst (ifft2 (i_n im) (i_uv im) ((Z.of_nat i + c0) mod i_n im) ((Z.of_nat j + c1) mod i_n im))).
Proof. intros N [I J]. destruct (image_at im c0 c1 N) as [t [E [_ H]]]. exists t. split; auto. apply H; lia. Qed.
Lemma pixel_det im c0 c1 i j v v' : pixel im c0 c1 i j v -> pixel im c0 c1 i j v' -> v = v'.
Proof. intros [t [E A]] [t' [E' A']]. rewrite E in E'. injection E' as <-. rewrite A in A'. injection A'. auto. Qed.

Lemma put_pixel W im uvw data w im' c0 c1 i j l m : windows 3 W -> (0 < i_n im)%Z -> i_res im <> 0 -> put im uvw data w = Ok im' ->
  pixel_of (i_n im) i j -> shows (i_n im) (i_res im) c0 c1 (Z.of_nat i) (Z.of_nat j) l m -> exists v v', pixel im c0 c1 i j v /\ pixel im' c0 c1 i j v' /\
  v' = v + scale2 / IZR (i_n im * i_n im) * rsum (seq 0 (length uvw)) (fun k => fst (cmul (nth k data (0, 0)) (seen W (i_res im) (nth k uvw (0, 0, 0)) l m))).
Proof.
  intros HW N RZ P PX SH. destruct (put_uv W im uvw data w im' HW N P) as [L [EN [ER [g [G H]]]]].
  do 2 eexists. split; [apply pixel_value; auto|]. split; [apply pixel_value; rewrite EN; auto|]. rewrite EN.
  rewrite (ifft2_cells _ (i_uv im') (fun k => cadd (i_uv im k) (g k)) _ _ H). rewrite ifft2_linear.
  rewrite (pixel_image W _ (i_res im) uvw data _ g c0 c1 (Z.of_nat i) (Z.of_nat j) l m N RZ G SH). unfold cadd, cscale. cbn [fst]. rewrite csum_fst. auto.
Qed.
Lemma rsum_eq {A} (l : list A) f g : (forall k, In k l -> f k = g k) -> rsum l f = rsum l g.
Proof. intros H. induction l as [|a l IH]; [reflexivity|]. cbn [rsum map fold_right]. unfold rsum in *. cbn [map fold_right]. rewrite H by (left; auto). f_equal. apply IH. intros k K. apply H. right. auto. Qed.
Lemma rsum_mul {A} (l : list A) c f : rsum l (fun k => c * f k) = c * rsum l f.
Proof. unfold rsum. induction l as [|a l IH]; cbn [map fold_right]; [ring|]. rewrite IH. ring. Qed.
Lemma nth_grid res uvw k : Forall (on_grid res) uvw -> (k < length uvw)%nat -> on_grid res (nth k uvw (0, 0, 0)).
Proof. intros F K. rewrite Forall_forall in F. apply F. apply nth_In. auto. Qed.
Lemma put_pixel_grid W im uvw data w im' c0 c1 i j l m : windows 3 W -> (0 < i_n im)%Z -> i_res im <> 0 -> put im uvw data w = Ok im' ->
  Forall (on_grid (i_res im)) uvw ->
  pixel_of (i_n im) i j -> shows (i_n im) (i_res im) c0 c1 (Z.of_nat i) (Z.of_nat j) l m -> exists v v', pixel im c0 c1 i j v /\ pixel im' c0 c1 i j v' /\
  v' = v + scale2 / IZR (i_n im * i_n im) * (taper (i_res im * m) * taper (i_res im * l)) *
    rsum (seq 0 (length uvw)) (fun k => fst (cmul (nth k data (0, 0)) (cis (- path (nth k uvw (0, 0, 0)) l m)))).
Proof.
  intros HW N RZ P OG PX SH. destruct (put_pixel W im uvw data w im' c0 c1 i j l m HW N RZ P PX SH) as [v [v' [A [B E]]]]. exists v, v'. split; auto. split; auto.
  rewrite E. rewrite Rmult_assoc. f_equal. f_equal. rewrite <- rsum_mul. apply rsum_eq. intros k K. apply in_seq in K. rewrite (seen_grid W) by (auto; apply nth_grid; auto; lia).
  rewrite cscale_mul. unfold cmul. cbn [fst snd]. ring.
Qed.

(* W projection *)
Lemma wproj_pixel n res w g c0 c1 i j l m : (0 < n)%Z -> res <> 0 -> shows n res c0 c1 i j l m ->
  ifft2 n (wproj n res w g) ((i + c0) mod n) ((j + c1) mod n) =
  cmul (ifft2 n g ((i + c0) mod n) ((j + c1) mod n)) (cscale (/ IZR (n * n)) (if Rle_dec 1 (l * l + m * m) then (0, 0) else cis (- (w * (sqrt (1 - l * l - m * m) - 1))))).
Proof.
  intros N RZ SH. destruct (pixel_shows n res c0 c1 i j l m N RZ SH) as [PX _]. set (x := ((i + c0) mod n)%Z) in *. set (y := ((j + c1) mod n)%Z) in *.
  assert (X : (0 <= x < n)%Z) by (apply Z.mod_pos_bound; auto). assert (Y : (0 <= y < n)%Z) by (apply Z.mod_pos_bound; auto). clearbody x y.
  unfold wproj. rewrite filtered_image by auto. f_equal. unfold conv_invker. f_equal.
  assert (FL : forall x, (0 <= x < n)%Z -> flip n ((- x) mod n) = x).
  { intros z Z0. unfold flip. destruct (Z.eq_dec z 0) as [->|NZ]; [rewrite Zmod_0_l; reflexivity|].
    rewrite Z.mod_opp_l_nz; rewrite ?Z.mod_small by lia; try lia. destruct (Z.eqb_spec (n - z) 0); lia. }
  rewrite !FL by auto. unfold w_kernel. rewrite PX. destruct (Rle_dec 1 (l * l + m * m)); auto.
Qed.
Lemma csum_combine {A B} (P : A -> B -> Prop) (cs : list A) (gs : list B) f g : Forall2 P cs gs -> (forall c h, P c h -> f (c, h) = g c) -> csum (combine cs gs) f = csum cs g.
Proof. intros F H. induction F; [reflexivity|]. cbn [combine]. rewrite !csum_cons. rewrite (H _ _ H0). f_equal. exact IHF. Qed.
Lemma csum_concat {A} (cs : list (list A)) f : csum (concat cs) f = csum cs (fun c => csum c f).
Proof. induction cs as [|c cs IH]; [reflexivity|]. cbn [concat]. rewrite csum_app, csum_cons, IH. auto. Qed.
Definition beyond (l m : R) (z : C) : C := if Rle_dec 1 (l * l + m * m) then (0, 0) else z.
Lemma w_pixel W im im' uvw data cs gs c0 c1 i j l m : (0 < i_n im)%Z -> i_res im <> 0 -> i_n im' = i_n im ->
  Forall2 (gridded W (i_n im) (i_res im) uvw data) cs gs ->
  (forall k, i_uv im' k = cadd (i_uv im k) (csum (combine cs gs) (fun '(c, g) => wproj (i_n im) (i_res im) (wmean uvw c) g k))) ->
  pixel_of (i_n im) i j -> shows (i_n im) (i_res im) c0 c1 (Z.of_nat i) (Z.of_nat j) l m -> exists v v', pixel im c0 c1 i j v /\ pixel im' c0 c1 i j v' /\
  v' = v + fst (csum cs (fun c => csum c (fun k => cscale (scale2 / IZR (i_n im * i_n im) / IZR (i_n im * i_n im))
    (cmul (cmul (nth k data (0, 0)) (seen W (i_res im) (nth k uvw (0, 0, 0)) l m)) (beyond l m (cis (- (wmean uvw c * (sqrt (1 - l * l - m * m) - 1))))))))).
Proof.
  intros N RZ EN F H PX SH. do 2 eexists. split; [apply pixel_value; auto|]. split; [apply pixel_value; rewrite EN; auto|]. rewrite EN.
  rewrite (ifft2_cells _ (i_uv im') (fun k => cadd (i_uv im k) (csum (combine cs gs) (fun cg => wproj (i_n im) (i_res im) (wmean uvw (fst cg)) (snd cg) k))) _ _).
  2: { intros a b A B. rewrite H. f_equal. apply csum_ext. intros [c g] _. auto. }
  rewrite ifft2_linear. unfold cadd at 1. cbn [fst]. f_equal. f_equal. rewrite ifft2_csum. apply (csum_combine _ _ _ _ _ F). intros c g G. cbn [fst snd].
  rewrite (wproj_pixel _ _ _ _ c0 c1 _ _ l m N RZ SH). rewrite (pixel_image W _ (i_res im) uvw data c g c0 c1 _ _ l m N RZ G SH). fold (beyond l m (cis (- (wmean uvw c * (sqrt (1 - l * l - m * m) - 1))))).
  set (z := beyond _ _ _). clearbody z. rewrite cscale_mul, (cscale_mul (/ _)). transitivity (cmul (cmul (scale2 / IZR (i_n im * i_n im), 0) (cmul (/ IZR (i_n im * i_n im), 0) z)) (csum c (fun k => cmul (nth k data (0, 0)) (seen W (i_res im) (nth k uvw (0, 0, 0)) l m)))).
  { set (s := csum _ _). clearbody s. cr. }
  rewrite <- csum_mul_l. apply csum_ext. intros k _. rewrite cscale_mul. set (d := cmul (nth k data (0, 0)) _). clearbody d.
  unfold cmul, Rdiv. cbn [fst snd]. f_equal; ring.
Qed.
Lemma mean_same l w : l <> [] -> Forall (fun x => x = w) l -> mean l = w.
Proof.
  intros NE F. unfold mean. assert (E : fold_right Rplus 0 l = INR (length l) * w).
  { clear NE. induction F as [|x l -> F IH]; [cbn; ring|]. cbn [fold_right length]. rewrite IH, S_INR. ring. }
  rewrite E. field. apply not_0_INR. destruct l; [contradiction|]. discriminate.
Qed.
Lemma planes_one_w wres uvw cs c k : separated wres uvw -> w_planes wres (map snd uvw) cs -> In c cs -> In k c -> wmean uvw c = snd (nth k uvw (0, 0, 0)).
Proof.
  intros SP [P [NE [_ W]]] IC IK. unfold wmean. apply mean_same.
  - destruct c; [destruct IK|discriminate].
  - apply Forall_forall. intros x I. apply in_map_iff in I. destruct I as [q [<- Q]].
    assert (LT : forall a, In a c -> (a < length uvw)%nat).
    { intros a A. assert (X : In a (seq 0 (length (map snd uvw)))) by (eapply Permutation_in; [exact P|]; apply in_concat; exists c; auto). apply in_seq in X. rewrite map_length in X. lia. }
    assert (MN : forall a, nth a (map snd uvw) 0 = snd (nth a uvw (0, 0, 0))) by (intros a; rewrite <- (map_nth snd); auto).
    rewrite Forall_forall in W. specialize (W c IC).
    apply (SP _ _ (ssqrt (snd (nth q uvw (0, 0, 0)))) (ssqrt (snd (nth k uvw (0, 0, 0))))); try (apply nth_In; auto); try apply ssqrt_spec.
    + apply (W q k); auto; rewrite MN; apply ssqrt_spec.
    + apply (W k q); auto; rewrite MN; apply ssqrt_spec.
Qed.
Lemma w_pixel_separated W wres im im' uvw data cs gs c0 c1 i j l m : (0 < i_n im)%Z -> i_res im <> 0 -> i_n im' = i_n im ->
  separated wres uvw -> w_planes wres (map snd uvw) cs ->
  Forall2 (gridded W (i_n im) (i_res im) uvw data) cs gs ->
  (forall k, i_uv im' k = cadd (i_uv im k) (csum (combine cs gs) (fun '(c, g) => wproj (i_n im) (i_res im) (wmean uvw c) g k))) ->
  pixel_of (i_n im) i j -> shows (i_n im) (i_res im) c0 c1 (Z.of_nat i) (Z.of_nat j) l m -> exists v v', pixel im c0 c1 i j v /\ pixel im' c0 c1 i j v' /\
  v' = v + fst (csum (seq 0 (length uvw)) (fun k => cscale (scale2 / IZR (i_n im * i_n im) / IZR (i_n im * i_n im))
    (cmul (cmul (nth k data (0, 0)) (seen W (i_res im) (nth k uvw (0, 0, 0)) l m)) (beyond l m (cis (- (snd (nth k uvw (0, 0, 0)) * (sqrt (1 - l * l - m * m) - 1)))))))).
Proof.
  intros N RZ EN SP WP F H PX SH. destruct (w_pixel W im im' uvw data cs gs c0 c1 i j l m N RZ EN F H PX SH) as [v [v' [A [B E]]]]. exists v, v'. split; auto. split; auto.
  rewrite E. f_equal. f_equal. assert (PM : Permutation (concat cs) (seq 0 (length uvw))) by (destruct WP as [P _]; rewrite map_length in P; auto).
  rewrite <- (csum_perm _ _ _ PM), csum_concat. apply csum_ext. intros c IC. apply csum_ext. intros k IK. rewrite (planes_one_w wres uvw cs c k SP WP IC IK). auto.
Qed.
(* all of w = 0 *)
Lemma separated_zero wres uvw : Forall (fun p => snd p = 0) uvw -> separated wres uvw.
Proof. intros F p q s t P Q _ _ _ _. rewrite Forall_forall in F. rewrite (F p P), (F q Q). auto. Qed.

(* get_LM, get_eq *)
Lemma get_LM_at n res c0 c1 : (0 < n)%Z -> res <> 0 -> exists t, get_LM n res c0 c1 = Ok t /\ rect (Z.to_nat n) (Z.to_nat n) t /\
  forall i j l m, pixel_of n i j -> shows n res c0 c1 (Z.of_nat i) (Z.of_nat j) l m -> at2 t i j = Some (l, m, if Rle_dec 1 (l * l + m * m) then true else false).
Proof.
  intros N RZ. unfold get_LM. destruct (recentred (Z.to_nat n) (Z.to_nat n) (pixel_lm n res) c0 c1 ltac:(lia) ltac:(lia)) as [t [E [R H]]].
  exists t. split; auto. split; auto. intros i j l m [I J] SH. rewrite H by lia. rewrite Z2Nat.id by lia. destruct (pixel_shows n res c0 c1 _ _ l m N RZ SH) as [-> _]. auto.
Qed.
Lemma top2eq_frame ra dec l m k : mv (transpose (eq2top_m (- ra) dec)) (l, m, k) = pole_frame ra dec l m k.
Proof. unfold mv, transpose, eq2top_m, pole_frame, dot. cbv zeta. rewrite sin_neg, cos_neg. f_equal; [f_equal|]; ring. Qed.
Lemma frame_unit ra dec l m k : l * l + m * m + k * k = 1 -> let '(x, y, z) := pole_frame ra dec l m k in x * x + y * y + z * z = 1.
Proof.
  intros E. unfold pole_frame. pose proof (sin2_cos2 ra) as A. pose proof (sin2_cos2 dec) as B. unfold Rsqr in A, B. set (sr := sin ra) in *. set (cr := cos ra) in *. set (sd := sin dec) in *. set (cd := cos dec) in *.
  clearbody sr cr sd cd.
  replace ((l * - sr + m * (- sd * cr) + k * (cd * cr)) * (l * - sr + m * (- sd * cr) + k * (cd * cr)) + (l * cr + m * (- sd * sr) + k * (cd * sr)) * (l * cr + m * (- sd * sr) + k * (cd * sr)) + (m * cd + k * sd) * (m * cd + k * sd))
    with (l * l * (sr * sr + cr * cr) + (m * m * (sd * sd) + k * k * (cd * cd) - 2 * m * k * sd * cd) * (sr * sr + cr * cr) + m * m * (cd * cd) + k * k * (sd * sd) + 2 * m * k * sd * cd) by ring.
  rewrite A. replace (l * l * 1 + (m * m * (sd * sd) + k * k * (cd * cd) - 2 * m * k * sd * cd) * 1 + m * m * (cd * cd) + k * k * (sd * sd) + 2 * m * k * sd * cd) with (l * l + m * m * (sd * sd + cd * cd) + k * k * (sd * sd + cd * cd)) by ring.
  rewrite B. lra.
Qed.
Lemma get_eq_at n res ra dec c0 c1 : (0 < n)%Z -> res <> 0 -> exists t, get_eq n res ra dec c0 c1 = Ok t /\
  forall i j l m, pixel_of n i j -> shows n res c0 c1 (Z.of_nat i) (Z.of_nat j) l m ->
  at2 t i j = Some (pole_frame ra dec l m (sqrt (1 - l * l - m * m)), if Rle_dec 1 (l * l + m * m) then true else false).
Proof.
  intros N RZ. unfold get_eq. destruct (get_LM_at n res c0 c1 N RZ) as [t [-> [_ H]]]. rewrite top2eq_ok. cbn [bind]. eexists. split; [reflexivity|].
  intros i j l m PX SH. specialize (H i j l m PX SH). unfold at2 in *. rewrite nth_error_map. destruct (nth_error t i) as [r|]; [|discriminate]. cbn [option_map].
  rewrite nth_error_map, H. cbn [option_map top_of]. rewrite top2eq_frame. auto.
Qed.
(* gaussian_beam *)
Lemma gaussian_at s0 s1 sigma amp c0 c1 (s := match sigma with inl k => IZR k | inr x => x end) : (0 < s0)%nat -> (0 < s1)%nat -> exists t, gaussian_beam sigma (inr (s0, s1)) amp c0 c1 = Ok t /\ rect s0 s1 t /\
  forall i j a b, (i < s0)%nat -> (j < s1)%nat -> signed (Z.of_nat s0) (Z.of_nat i + c0) a -> signed (Z.of_nat s1) (Z.of_nat j + c1) b ->
  at2 t i j = Some (amp * exp (- (IZR a * IZR a + IZR b * IZR b) / (s * s))).
Proof.
  intros P0 P1. unfold gaussian_beam. cbn [bind].
  match goal with |- context [table s0 s1 ?f] => destruct (recentred s0 s1 f c0 c1 P0 P1) as [t [E [R H]]] end.
  exists t. split; [exact E|]. split; auto. intros i j a b I J A B. rewrite H by auto. cbv beta zeta. f_equal.
  assert (X : rep (Z.of_nat s0) ((Z.of_nat i + c0) mod Z.of_nat s0) = a) by (eapply signed_unique; [|apply rep_signed|exact A]; lia).
  assert (Y : rep (Z.of_nat s1) ((Z.of_nat j + c1) mod Z.of_nat s1) = b) by (eapply signed_unique; [|apply rep_signed|exact B]; lia).
  unfold rep in X, Y. rewrite X, Y. unfold s. ring.
Qed.
