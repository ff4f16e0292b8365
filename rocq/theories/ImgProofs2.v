From Coq Require Import Reals Lra Permutation Sorted.
From Verif Require Import Base CleanModel CleanSpec CleanProofs CleanProofs2 GridModel GridSpec GridProofs GridProofs2 ImgModel ImgSpec ImgProofs.
Ltac Zify.zify_post_hook ::= idtac.
Open Scope R_scope.

(* ---------------- hermitian ---------------- *)
Lemma csum_app {A} (l m : list A) f : csum (l ++ m) f = cadd (csum l f) (csum m f).
Proof. unfold csum, cadd. cbn [fst snd]. f_equal; apply rsum_app. Qed.
Lemma csum_map {A B} (h : A -> B) l f : csum (map h l) f = csum l (fun x => f (h x)).
Proof. unfold csum. f_equal; [apply (rsum_map h l (fun b => fst (f b))) | apply (rsum_map h l (fun b => snd (f b)))]. Qed.
Lemma csum_conj {A} (l : list A) f : csum l (fun x => cconj (f x)) = cconj (csum l f).
Proof. induction l as [|x l IH]; [unfold csum, cconj; cbn; f_equal; ring|]. rewrite !csum_cons, IH. generalize (csum l f), (f x). intros y z. cring. Qed.
Definition neg2 (p : R * R) : R * R := (- fst p, - snd p).
Lemma taps_neg f fp : Permutation (taps (- f) fp) (map Z.opp (taps f fp)).
Proof. eapply window_perm; [apply taps_window | apply window_neg, taps_window]. Qed.
Lemma neg_mod_inv a n : (0 < n)%Z -> (0 <= a < n)%Z -> ((- ((- a) mod n)) mod n = a)%Z.
Proof.
  intros N A. rewrite <- (Z.sub_0_l ((- a) mod n)), Zminus_mod_idemp_r. replace (0 - - a)%Z with a by lia. apply Z.mod_small. auto.
Qed.
Lemma neg_mod_range a n : (0 < n)%Z -> (0 <= (- a) mod n < n)%Z.
Proof. intros. apply Z.mod_pos_bound. auto. Qed.
Lemma foot_taps_neg n fp f1 f2 a b : (0 < n)%Z -> (0 <= a < n)%Z -> (0 <= b < n)%Z ->
  foot2 n (taps (- f1) fp) (taps (- f2) fp) (- f1) (- f2) ((- a) mod n)%Z ((- b) mod n)%Z = foot2 n (taps f1 fp) (taps f2 fp) f1 f2 a b.
Proof. intros N A B. rewrite (foot2_perm n _ _ _ _ _ _ _ _ (taps_neg f1 fp) (taps_neg f2 fp)). apply foot2_neg; auto. Qed.
Lemma foot_taps_neg' n fp f1 f2 a b : (0 < n)%Z -> (0 <= a < n)%Z -> (0 <= b < n)%Z ->
  foot2 n (taps f1 fp) (taps f2 fp) f1 f2 ((- a) mod n)%Z ((- b) mod n)%Z = foot2 n (taps (- f1) fp) (taps (- f2) fp) (- f1) (- f2) a b.
Proof.
  intros N A B. rewrite <- (foot_taps_neg n fp (- f1) (- f2) a b) by auto. rewrite !Ropp_involutive. auto.
Qed.
Lemma combine_app {A B} (l1 l2 : list A) (m1 m2 : list B) : length l1 = length m1 -> combine (l1 ++ l2) (m1 ++ m2) = combine l1 m1 ++ combine l2 m2.
Proof. revert m1. induction l1 as [|x l1 IH]; intros [|y m1] L; try discriminate; cbn; auto. f_equal. apply IH. auto. Qed.
Lemma combine_map2 {A B D E} (f : A -> D) (g : B -> E) l m : combine (map f l) (map g m) = map (fun p => (f (fst p), g (snd p))) (combine l m).
Proof. revert m. induction l as [|x l IH]; intros [|y m]; cbn; auto. f_equal. auto. Qed.
Lemma grid_ok n inds data buf : (0 < n)%Z -> length inds = length data -> exists buf', grid n inds data buf = Ok buf' /\
  forall a b, (0 <= a < n)%Z -> (0 <= b < n)%Z -> buf' (a * n + b)%Z = cadd (buf (a * n + b)%Z)
    (csum (combine inds data) (fun s => cscale (foot2 n (taps (fst (fst s)) 6) (taps (snd (fst s)) 6) (fst (fst s)) (snd (fst s)) a b) (snd s))).
Proof. intros N L. unfold grid. rewrite L, Nat.eqb_refl. apply grid2D_sum. auto. Qed.
Lemma grid_herm n inds data buf : (0 < n)%Z -> length inds = length data -> hermitian n buf ->
  exists buf', grid n (inds ++ map neg2 inds) (data ++ map cconjugate data) buf = Ok buf' /\ hermitian n buf'.
Proof.
  intros N L HB. destruct (grid_ok n (inds ++ map neg2 inds) (data ++ map cconjugate data) buf N) as (b' & E & H). { rewrite !app_length, !map_length. lia. }
  exists b'. split; auto. intros a b A B. rewrite H by (apply neg_mod_range; auto). rewrite (H a b) by auto. rewrite HB by auto.
  rewrite combine_app by auto. rewrite combine_map2. rewrite !csum_app, !csum_map. cbn [fst snd neg2].
  assert (E1 : csum (combine inds data) (fun s => cscale (foot2 n (taps (fst (fst s)) 6) (taps (snd (fst s)) 6) (fst (fst s)) (snd (fst s)) ((- a) mod n)%Z ((- b) mod n)%Z) (snd s)) =
    cconj (csum (combine inds data) (fun x => cscale (foot2 n (taps (- fst (fst x)) 6) (taps (- snd (fst x)) 6) (- fst (fst x)) (- snd (fst x)) a b) (cconjugate (snd x))))).
  { rewrite <- csum_conj. apply csum_ext. intros [[f1 f2] d] _. cbn [fst snd]. rewrite foot_taps_neg' by auto. generalize (foot2 n (taps (- f1) 6) (taps (- f2) 6) (- f1) (- f2) a b). intros r. unfold cconjugate. cring. }
  assert (E2 : csum (combine inds data) (fun x => cscale (foot2 n (taps (- fst (fst x)) 6) (taps (- snd (fst x)) 6) (- fst (fst x)) (- snd (fst x)) ((- a) mod n)%Z ((- b) mod n)%Z) (cconjugate (snd x))) =
    cconj (csum (combine inds data) (fun s => cscale (foot2 n (taps (fst (fst s)) 6) (taps (snd (fst s)) 6) (fst (fst s)) (snd (fst s)) a b) (snd s)))).
  { rewrite <- csum_conj. apply csum_ext. intros [[f1 f2] d] _. cbn [fst snd]. rewrite foot_taps_neg by auto. generalize (foot2 n (taps f1 6) (taps f2 6) f1 f2 a b). intros r. unfold cconjugate. cring. }
  rewrite E1, E2. generalize (buf (a * n + b)%Z). intros z.
  match goal with |- context [cconj (csum (combine inds data) ?f)] => generalize (csum (combine inds data) f) end.
  match goal with |- context [cconj (csum (combine inds data) ?f)] => generalize (csum (combine inds data) f) end. intros x y. cring.
Qed.
(* ---------------- inverse transform of a hermitian matrix ---------------- *)
Lemma fold_csum {A} (l : list A) (g : A -> C) : fold_right (fun p s => cadd (g p) s) (0, 0) l = csum l g.
Proof. induction l as [|x l IH]; cbn [fold_right]; [reflexivity|]. rewrite IH, csum_cons. auto. Qed.
Lemma neg_perm n : (0 < n)%Z -> Permutation (map (fun a => (- a) mod n)%Z (zrange 0 (n - 1))) (zrange 0 (n - 1)).
Proof.
  intros N. apply NoDup_Permutation; [|apply zrange_nodup|].
  - apply nodup_map_in; [|apply zrange_nodup]. intros a b A B E. apply zrange_in in A, B. rewrite <- (neg_mod_inv a n), <- (neg_mod_inv b n) by lia. rewrite E. auto.
  - intros x. rewrite in_map_iff, zrange_in. split.
    + intros (a & <- & A). pose proof (neg_mod_range a n N). lia.
    + intros X. exists ((- x) mod n)%Z. split; [apply neg_mod_inv; lia|]. apply zrange_in. pose proof (neg_mod_range x n N). lia.
Qed.
Lemma period_z (k : Z) x : sin (x + 2 * IZR k * PI) = sin x /\ cos (x + 2 * IZR k * PI) = cos x.
Proof.
  destruct (Z_le_gt_dec 0 k).
  - rewrite <- (Z2Nat.id k) by auto. rewrite <- INR_IZR_INZ. split; [apply sin_period | apply cos_period].
  - set (m := Z.to_nat (- k)). replace (IZR k) with (- INR m). 2: { unfold m. rewrite INR_IZR_INZ, Z2Nat.id by lia. rewrite opp_IZR. ring. }
    rewrite <- (sin_period (x + 2 * - INR m * PI) m), <- (cos_period (x + 2 * - INR m * PI) m).
    replace (x + 2 * - INR m * PI + 2 * INR m * PI) with x by ring. auto.
Qed.
Lemma angle_neg n a b x y : (0 < n)%Z -> exists k : Z,
  2 * PI * IZR ((- a) mod n * x + (- b) mod n * y) / IZR n = - (2 * PI * IZR (a * x + b * y) / IZR n) + 2 * IZR k * PI.
Proof.
  intros N. exists (- ((- a) / n) * x + - ((- b) / n) * y)%Z. assert (NZ : IZR n <> 0) by (apply not_0_IZR; lia).
  rewrite (Z.mod_eq (- a)), (Z.mod_eq (- b)) by lia. rewrite !plus_IZR, !mult_IZR, !minus_IZR, !opp_IZR, !mult_IZR. field. auto.
Qed.
Lemma fold_right_ext {A B} (f g : A -> B -> B) b l : (forall x s, f x s = g x s) -> fold_right f b l = fold_right g b l.
Proof. intros H. induction l; cbn; auto. rewrite H, IHl. auto. Qed.
Lemma ifft2_real n m x y : (0 < n)%Z -> hermitian n m -> snd (ifft2 n m x y) = 0.
Proof.
  intros N H. unfold ifft2. set (cells := list_prod _ _).
  set (g := fun p : Z * Z => let th := 2 * PI * IZR (fst p * x + snd p * y) / IZR n in cmul (m (fst p * n + snd p)%Z) (cos th, sin th)).
  replace (fold_right _ (0, 0) cells) with (csum cells g).
  2: { rewrite <- fold_csum. apply fold_right_ext. intros [a b] s. reflexivity. }
  unfold cscale, csum. cbn [fst snd].
  assert (E : rsum cells (fun p => snd (g p)) = - rsum cells (fun p => snd (g p))).
  { unfold cells. rewrite !rsum_prod.
    transitivity (rsum (zrange 0 (n - 1)) (fun a => rsum (zrange 0 (n - 1)) (fun b => snd (g ((- a) mod n, (- b) mod n)%Z)))).
    { rewrite <- (rsum_perm _ _ (fun a => rsum (zrange 0 (n - 1)) (fun b => snd (g (a, b)))) (neg_perm n N)). rewrite rsum_map. apply rsum_ext. intros a _.
      rewrite <- (rsum_perm _ _ (fun b => snd (g (((- a) mod n)%Z, b))) (neg_perm n N)). rewrite rsum_map. auto. }
    rewrite <- (Rmult_1_l (rsum _ _)) at 1. rewrite <- (Ropp_involutive (1 * _)), Ropp_mult_distr_l. f_equal. rewrite <- rsum_scal. apply rsum_ext. intros a A. rewrite <- rsum_scal.
    apply rsum_ext. intros b B. rewrite zrange_in in A, B. unfold g. cbn [fst snd].
    rewrite H by lia. destruct (angle_neg n a b x y N) as [k K]. rewrite K. destruct (period_z k (- (2 * PI * IZR (a * x + b * y) / IZR n))) as [P1 P2].
    rewrite P1, P2, sin_neg, cos_neg. generalize (m (a * n + b)%Z). intros [p q]. unfold cmul, cconj. cbn [fst snd]. ring. }
  assert (rsum cells (fun p => snd (g p)) = 0) by lra. rewrite H0. ring.
Qed.
