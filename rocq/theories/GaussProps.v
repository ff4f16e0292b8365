(* C66: Gaussians fitted to images and drawn (aipy/twodgauss.py). *)
From Coq Require Import Reals Lra Permutation Sorted.
From Verif Require Import Base CleanSpec CleanProofs GaussModel GaussSpec.
Open Scope R_scope.

Lemma rsum_scale {A} (l : list A) c f : rsum l (fun x => c * f x) = c * rsum l f.
Proof. induction l as [|x l IH]; cbn; [ring|]. rewrite IH. ring. Qed.
Lemma rsum_pos {A} (l : list A) f x : (forall x, In x l -> 0 <= f x) -> In x l -> 0 < f x -> 0 < rsum l f.
Proof.
  induction l as [|y l IH]; intros H I P; [destruct I|]. cbn. assert (0 <= rsum l f) by (apply rsum_nonneg; intros; apply H; right; assumption).
  destruct I as [->|I]; [lra|]. assert (0 < rsum l f) by (apply IH; auto; intros; apply H; right; assumption). specialize (H y (or_introl eq_refl)). lra.
Qed.
Lemma argmax_first f n : (0 < n)%nat -> first_largest f n (argmax f n).
Proof.
  intros N. unfold argmax. set (step := fun best i => _).
  assert (H : forall k b i, first_largest f i b -> first_largest f (i + k) (fold_left step (seq i k) b)).
  { induction k as [|k IH]; intros b i (B & L & F); [rewrite Nat.add_0_r; repeat split; assumption|]. cbn [seq fold_left]. rewrite <- Nat.add_succ_comm. apply IH. unfold step.
    destruct (Rlt_dec (f b) (f i)) as [D|D].
    - split; [lia|]. split; intros j J; [destruct (Nat.eq_dec j i) as [->|]; [lra|]; specialize (L j ltac:(lia)); lra|specialize (L j ltac:(lia)); lra].
    - split; [lia|]. split; [|exact F]. intros j J. destruct (Nat.eq_dec j i) as [->|]; [lra|]. apply L. lia. }
  replace n with (1 + (n - 1))%nat at 1 by lia. apply H. split; [lia|]. split; intros j J; [replace j with 0%nat by lia; lra|lia].
Qed.
Lemma first_unique f n i j : first_largest f n i -> first_largest f n j -> i = j.
Proof.
  intros (A & B & C) (A' & B' & C'). destruct (Nat.lt_trichotomy i j) as [L|[L|L]]; [|exact L|].
  - specialize (C' i L). specialize (B j A'). lra.
  - specialize (C j L). specialize (B' i A). lra.
Qed.
Lemma first_scale f k n i : 0 < k -> first_largest f n i -> first_largest (fun j => k * f j) n i.
Proof. intros K (A & B & C). split; [exact A|]. split; intros j J; [specialize (B j J)|specialize (C j J)]; nra. Qed.
Lemma insert_perm x l : Permutation (x :: l) (insert x l).
Proof. induction l as [|y l IH]; cbn; [reflexivity|]. destruct (Rle_dec x y); [reflexivity|]. etransitivity; [apply perm_swap|]. constructor. exact IH. Qed.
Lemma insert_sorted x l : StronglySorted Rle l -> StronglySorted Rle (insert x l).
Proof.
  induction l as [|y l IH]; intros S; cbn; [repeat constructor|]. inversion S as [|? ? S' F]; subst. destruct (Rle_dec x y).
  - constructor; [exact S|]. constructor; [assumption|]. eapply Forall_impl; [|exact F]. cbn. intros; lra.
  - constructor; [apply IH, S'|]. eapply Permutation_Forall; [apply insert_perm|]. constructor; [lra|exact F].
Qed.
Lemma sort_perm l : Permutation l (sort l).
Proof. induction l as [|x l IH]; cbn; [reflexivity|]. etransitivity; [constructor; exact IH|apply insert_perm]. Qed.
Lemma sort_sorted l : StronglySorted Rle (sort l).
Proof. induction l as [|x l IH]; cbn; [constructor|]. apply insert_sorted, IH. Qed.
Lemma median_is l : is_median l (median l).
Proof. exists (sort l). repeat split; [apply sort_perm|apply sort_sorted]. Qed.
Lemma maximum_is l : l <> [] -> is_maximum l (maximum l).
Proof.
  destruct l as [|x l]; [congruence|]. intros _. unfold maximum.
  assert (H : forall l x, x <= fold_left Rmax l x /\ (fold_left Rmax l x = x \/ In (fold_left Rmax l x) l) /\ forall y, In y l -> y <= fold_left Rmax l x).
  { induction l0 as [|z l0 IH]; intros u; cbn; [repeat split; [lra|auto|intros ? []]|]. destruct (IH (Rmax u z)) as (A & B & C).
    pose proof (Rmax_l u z). pose proof (Rmax_r u z). split; [lra|]. split.
    - destruct B as [B|B]; [|auto]. rewrite B. unfold Rmax. destruct (Rle_dec u z); auto.
    - intros y [<-|Y]; [lra|apply C, Y]. }
  destruct (H l x) as (A & B & C). split; [destruct B as [B|B]; [rewrite B; left; reflexivity|right; exact B]|]. intros y [<-|Y]; [exact A|apply C, Y].
Qed.
Lemma ravel_pixels n m d : ravel n m d = pixels n m d.
Proof.
  unfold ravel, pixels. generalize (seq 0 n). induction l as [|r l IH]; [reflexivity|]. cbn [flat_map list_prod]. rewrite map_app, <- IH, map_map. reflexivity.
Qed.
Lemma pixel_in n m d r c : (r < n)%nat -> (c < m)%nat -> In (d r c) (pixels n m d).
Proof. intros R C. unfold pixels. apply in_map_iff. exists (r, c). split; [reflexivity|]. apply in_prod; apply in_seq; lia. Qed.
Lemma in_pixels n m d v : In v (pixels n m d) -> exists r c, (r < n)%nat /\ (c < m)%nat /\ v = d r c.
Proof. unfold pixels. rewrite in_map_iff. intros [[r c] [<- I]]. apply in_prod_iff in I. destruct I as [R C]. apply in_seq in R, C. exists r, c. repeat split; lia. Qed.

Definition all_of (n m : nat) (d : nat -> nat -> R) : R := rsum (seq 0 n) (fun r => rsum (seq 0 m) (fun c => Rabs (d r c))).
Lemma line_nonneg n (f : nat -> R) : 0 <= rsum (seq 0 n) (fun i => Rabs (f i)).
Proof. apply rsum_nonneg. intros. apply Rabs_pos. Qed.
Lemma line_pos n (f : nat -> R) i : (i < n)%nat -> f i <> 0 -> 0 < rsum (seq 0 n) (fun i => Rabs (f i)).
Proof. intros I F. apply (rsum_pos _ _ i); [intros; apply Rabs_pos|apply in_seq; lia|apply Rabs_pos_lt, F]. Qed.
Lemma line_zero n (f : nat -> R) : rsum (seq 0 n) (fun i => Rabs (f i)) = 0 <-> forall i, (i < n)%nat -> f i = 0.
Proof.
  split; intros H.
  - intros i I. destruct (Req_dec (f i) 0) as [E|E]; [exact E|]. pose proof (line_pos n f i I E). lra.
  - apply rsum_const0. intros i I. apply in_seq in I. rewrite H by lia. apply Rabs_R0.
Qed.
Lemma all_pos n m d r c : (r < n)%nat -> (c < m)%nat -> d r c <> 0 -> 0 < all_of n m d.
Proof. intros R C D. apply (rsum_pos _ _ r); [intros; apply line_nonneg|apply in_seq; lia|apply (line_pos m (d r) c C D)]. Qed.

(* what is returned: the median, the peak above it, the column and the row chosen and the widths *)
Theorem C66_moments n m d ps : moments n m d = Ok ps <-> exists x y h p, (0 < n)%nat /\ (0 < m)%nat /\
  first_largest (fun r => rsum (seq 0 m) (fun c => INR c * Rabs (d r c))) n y /\ first_largest (fun c => rsum (seq 0 n) (fun r => INR r * Rabs (d r c))) m x /\
  (exists c, (c < m)%nat /\ d y c <> 0) /\ (exists r, (r < n)%nat /\ d r x <> 0) /\
  is_median (pixels n m d) h /\ is_maximum (pixels n m d) p /\
  ps = [h; p - h; INR x; INR y; sqrt (mean_distance (d y) m (INR y)); sqrt (mean_distance (fun r => d r x) n (INR x))].
Proof.
  assert (MU : forall l a b, is_maximum l a -> is_maximum l b -> a = b) by (intros l a b [A A'] [B B']; apply Rle_antisym; auto).
  assert (SU : forall s s', Permutation s s' -> StronglySorted Rle s -> StronglySorted Rle s' -> s = s').
  { induction s as [|a s IH]; intros s' P S S'; [apply Permutation_nil in P; congruence|]. destruct s' as [|b s']; [apply Permutation_sym, Permutation_nil in P; discriminate|].
    inversion S as [|? ? T F]; subst. inversion S' as [|? ? T' F']; subst. rewrite Forall_forall in F, F'.
    assert (a = b) as ->.
    { assert (A : In a (b :: s')) by (apply (Permutation_in a P); left; reflexivity). assert (B : In b (a :: s)) by (apply (Permutation_in b (Permutation_sym P)); left; reflexivity).
      destruct A as [A|A]; [congruence|]. destruct B as [B|B]; [congruence|]. apply Rle_antisym; auto. }
    f_equal. apply IH; [apply (Permutation_cons_inv P)|assumption|assumption]. }
  assert (DU : forall l a b, is_median l a -> is_median l b -> a = b).
  { intros l a b [s [P [S ->]]] [s' [P' [S' ->]]]. rewrite (SU s s'); [reflexivity| |assumption|assumption]. rewrite <- P. exact P'. }
  unfold moments. destruct (Nat.eqb_spec n 0) as [Z|Z]; [split; [discriminate|intros (x & y & h & p & N & _); lia]|].
  destruct (Nat.eqb_spec m 0) as [Z'|Z']; [split; [discriminate|intros (x & y & h & p & _ & M & _); lia]|]. cbn [orb]. fold (all_of n m d).
  set (y0 := argmax _ n). set (x0 := argmax _ m). rewrite ravel_pixels.
  pose proof (argmax_first (fun r => rsum (seq 0 m) (fun c => INR c * Rabs (d r c)) / all_of n m d) n ltac:(lia)) as Y. fold y0 in Y.
  pose proof (argmax_first (fun c => rsum (seq 0 n) (fun r => INR r * Rabs (d r c)) / all_of n m d) m ltac:(lia)) as X. fold x0 in X.
  assert (NE : pixels n m d <> []).
  { intros E. pose proof (pixel_in n m d 0 0 ltac:(lia) ltac:(lia)) as I. rewrite E in I. exact I. }
  assert (MD : forall f k i0, rsum (seq 0 k) (fun i => Rabs ((INR i - i0) * f i)) / rsum (seq 0 k) (fun i => Rabs (f i)) = mean_distance f k i0).
  { intros f k i0. unfold mean_distance. f_equal. apply rsum_ext. intros i _. apply Rabs_mult. }
  assert (UN : 0 < all_of n m d -> forall f k i, first_largest (fun r => f r / all_of n m d) k i -> first_largest f k i).
  { intros P f k i F. apply (first_scale _ (all_of n m d)) in F; [|exact P]. destruct F as (A & B & C). split; [exact A|].
    assert (Q : forall j, all_of n m d * (f j / all_of n m d) = f j) by (intros; field; lra). split; intros j J; [specialize (B j J)|specialize (C j J)]; rewrite !Q in *; assumption. }
  assert (LT : forall (f : nat -> R) k, rsum (seq 0 k) (fun i => Rabs (f i)) <> 0 -> exists i, (i < k)%nat /\ f i <> 0).
  { intros f k H. destruct (existsb (fun i => if Req_EM_T (f i) 0 then false else true) (seq 0 k)) eqn:E.
    - apply existsb_exists in E. destruct E as [i [I E]]. apply in_seq in I. exists i. split; [lia|]. destruct (Req_EM_T (f i) 0); [discriminate|assumption].
    - exfalso. apply H, line_zero. intros i I. destruct (Req_EM_T (f i) 0) as [K|K]; [exact K|]. exfalso. apply Bool.not_true_iff_false in E. apply E, existsb_exists.
      exists i. split; [apply in_seq; lia|]. destruct (Req_EM_T (f i) 0); [contradiction|reflexivity]. }
  split.
  - destruct (Req_EM_T _ 0) as [E|E]; [discriminate|]. destruct (Req_EM_T _ 0) as [E'|E']; [discriminate|]. intros [= <-].
    destruct (LT (d y0) m E) as [c [C DC]]. destruct (LT (fun r => d r x0) n E') as [r [RR DR]].
    assert (P : 0 < all_of n m d) by (apply (all_pos n m d y0 c (proj1 Y) C DC)).
    exists x0, y0, (median (pixels n m d)), (maximum (pixels n m d)). rewrite !MD. repeat (split; [first [lia|apply (UN P), Y|apply (UN P), X|apply median_is|apply maximum_is, NE|solve [eauto]]|]). reflexivity.
  - intros (x & y & h & p & _ & _ & Y' & X' & [c [C DC]] & [r [RR DR]] & H & MX & ->).
    assert (P : 0 < all_of n m d) by (apply (all_pos n m d y c (proj1 Y') C DC)).
    assert (y0 = y) as -> by (apply (first_unique _ n _ _ (UN P _ _ _ Y) Y')). assert (x0 = x) as -> by (apply (first_unique _ m _ _ (UN P _ _ _ X) X')).
    destruct (Req_EM_T _ 0) as [E|E]; [exfalso; pose proof (line_pos m (d y) c C DC); lra|].
    destruct (Req_EM_T _ 0) as [E'|E']; [exfalso; pose proof (line_pos n (fun r => d r x) r RR DR); lra|].
    rewrite !MD. rewrite (DU _ _ _ (median_is _) H), (MU _ _ _ (maximum_is _ NE) MX). reflexivity.
Qed.
(* an image that is a product of a profile down the rows and one along the columns: the centre is
   where the profiles are largest *)
Theorem C66_centre n m d (f g : nat -> R) x y : (forall r c, (r < n)%nat -> (c < m)%nat -> d r c = f r * g c) -> (forall r, (r < n)%nat -> 0 <= f r) -> (forall c, (c < m)%nat -> 0 <= g c) ->
  first_largest f n y -> first_largest g m x -> (exists r, (0 < r < n)%nat /\ 0 < f r) -> (exists c, (0 < c < m)%nat /\ 0 < g c) ->
  exists h p wx wy, moments n m d = Ok [h; p; INR x; INR y; wx; wy].
Proof.
  intros D F G Y X [r0 [R0 FR]] [c0 [C0 GC]].
  assert (YM : 0 < f y) by (destruct Y as (_ & B & _); specialize (B r0 ltac:(lia)); lra). assert (XM : 0 < g x) by (destruct X as (_ & B & _); specialize (B c0 ltac:(lia)); lra).
  set (A := rsum (seq 0 m) (fun c => INR c * g c)). set (B := rsum (seq 0 n) (fun r => INR r * f r)).
  assert (PA : 0 < A). { apply (rsum_pos _ _ c0); [|apply in_seq; lia|apply Rmult_lt_0_compat; [apply lt_0_INR; lia|exact GC]]. intros c I. apply in_seq in I. apply Rmult_le_pos; [apply pos_INR|apply G; lia]. }
  assert (PB : 0 < B). { apply (rsum_pos _ _ r0); [|apply in_seq; lia|apply Rmult_lt_0_compat; [apply lt_0_INR; lia|exact FR]]. intros c I. apply in_seq in I. apply Rmult_le_pos; [apply pos_INR|apply F; lia]. }
  assert (EX : forall u v k i, (forall j, (j < k)%nat -> u j = v j) -> first_largest u k i -> first_largest v k i).
  { intros u v k i E (K1 & K2 & K3). split; [exact K1|]. split; intros j J; rewrite <- !E by lia; auto. }
  destruct Y as (Y1 & Y2 & Y3). destruct X as (X1 & X2 & X3).
  eexists. eexists. eexists. eexists. apply C66_moments. exists x, y, (median (pixels n m d)), (maximum (pixels n m d)). split; [lia|]. split; [lia|].
  split. { apply (EX (fun r => A * f r)); [|apply first_scale; [exact PA|repeat split; assumption]]. intros r RR. unfold A. rewrite Rmult_comm, <- rsum_scale. apply rsum_ext. intros c I. apply in_seq in I. cbn beta.
    rewrite D by lia. rewrite Rabs_pos_eq by (apply Rmult_le_pos; [apply F|apply G]; lia). ring. }
  split. { apply (EX (fun c => B * g c)); [|apply first_scale; [exact PB|repeat split; assumption]]. intros c CC. unfold B. rewrite Rmult_comm, <- rsum_scale. apply rsum_ext. intros r I. apply in_seq in I. cbn beta.
    rewrite D by lia. rewrite Rabs_pos_eq by (apply Rmult_le_pos; [apply F|apply G]; lia). ring. }
  assert (P : d y x <> 0) by (rewrite D by lia; apply Rgt_not_eq, Rmult_lt_0_compat; assumption).
  split; [eauto|]. split; [eauto|]. split; [apply median_is|]. split; [|reflexivity]. apply maximum_is. intros E. pose proof (pixel_in n m d y x Y1 X1) as I. rewrite E in I. exact I.
Qed.
(* drawing *)
Theorem C66_drawn h a x0 y0 wx wy : wx <> 0 -> wy <> 0 -> exists g, twodgaussian [h; a; x0; y0; wx; wy] = Ok g /\ forall r c, g r c = Some (bell a x0 y0 wx wy r c).
Proof.
  intros X Y. eexists. split; [reflexivity|]. intros r c. unfold rotgauss, squared. destruct (Req_EM_T wx 0); [contradiction|]. destruct (Req_EM_T wy 0); [contradiction|]. unfold bell. do 4 f_equal. field. auto.
Qed.
(* a width of zero: nothing off the centre line, not a number on it *)
Theorem C66_zero_width h a x0 y0 wx wy g r c : twodgaussian [h; a; x0; y0; wx; wy] = Ok g -> wx = 0 \/ wy = 0 ->
  g r c = if Rlt_dec 0 (Rabs wx + Rabs (INR r - y0)) then if Rlt_dec 0 (Rabs wy + Rabs (INR c - x0)) then Some 0 else None else None.
Proof.
  intros [= <-] W. unfold rotgauss, squared.
  assert (P : forall u v w, (w = 0 /\ u = v) \/ 0 < Rabs w + Rabs (v - u)).
  { intros u v w. destruct (Req_dec w 0) as [E|E]; [|right; pose proof (Rabs_pos_lt w E); pose proof (Rabs_pos (v - u)); lra].
    destruct (Req_dec u v) as [F|F]; [auto|right]. pose proof (Rabs_pos_lt (v - u) ltac:(lra)). pose proof (Rabs_pos w). lra. }
  assert (Q : forall u v w, w = 0 -> u = v -> ~ 0 < Rabs w + Rabs (v - u)) by (intros u v w -> ->; rewrite Rminus_diag_eq by reflexivity; rewrite Rabs_R0; lra).
  destruct (Rlt_dec 0 (Rabs wx + Rabs (INR r - y0))) as [A|A].
  - destruct (Rlt_dec 0 (Rabs wy + Rabs (INR c - x0))) as [B|B].
    + destruct (Req_EM_T wx 0) as [X|X]; [destruct (Req_EM_T y0 (INR r)) as [U|U]; [destruct (Q _ _ _ X U A)|]|];
      (destruct (Req_EM_T wy 0) as [Y|Y]; [destruct (Req_EM_T x0 (INR c)) as [T|T]; [destruct (Q _ _ _ Y T B)|]|]); try (f_equal; ring). destruct W; contradiction.
    + destruct (P x0 (INR c) wy) as [[-> ->]|K]; [|contradiction]. destruct (Req_EM_T 0 0); [|contradiction]. destruct (Req_EM_T (INR c) (INR c)); [|contradiction].
      destruct (Req_EM_T wx 0); [destruct (Req_EM_T y0 (INR r))|]; reflexivity.
  - destruct (P y0 (INR r) wx) as [[-> ->]|K]; [|contradiction]. destruct (Req_EM_T 0 0); [|contradiction]. destruct (Req_EM_T (INR r) (INR r)); [|contradiction]. reflexivity.
Qed.
Theorem C66_parameters ps : is_ok (twodgaussian ps) = true <-> length ps = 6%nat.
Proof.
  do 7 (destruct ps as [|? ps]; [cbn; split; (discriminate || reflexivity || lia)|]). cbn. split; discriminate || lia.
Qed.
Theorem C66_peak a x0 y0 wx wy r c : 0 <= a -> 0 <= bell a x0 y0 wx wy r c <= a /\ (INR r = y0 -> INR c = x0 -> bell a x0 y0 wx wy r c = a).
Proof.
  intros A. assert (E : 0 < exp (- (((INR r - y0) / wx) ^ 2 + ((INR c - x0) / wy) ^ 2) / 2) <= 1).
  { split; [apply exp_pos|]. rewrite <- exp_0. set (u := (INR r - y0) / wx). set (v := (INR c - x0) / wy). assert (K : - (u ^ 2 + v ^ 2) / 2 <= 0) by nra. destruct K as [K|K]; [left; apply exp_increasing, K|rewrite K; right; reflexivity]. }
  unfold bell. split; [nra|]. intros -> ->. unfold Rdiv. rewrite !Rminus_diag_eq by reflexivity. rewrite !Rmult_0_l. replace (- (0 ^ 2 + 0 ^ 2) * / 2) with 0 by ring. rewrite exp_0. ring.
Qed.
(* a Gaussian about a pixel, fitted: the pixel and the peak above the median are found *)
Theorem C66_fit_of_drawn n m a x0 y0 wx wy : 0 < a -> wx <> 0 -> wy <> 0 -> (x0 < m)%nat -> (y0 < n)%nat -> (1 < n)%nat -> (1 < m)%nat ->
  exists h sx sy, is_median (pixels n m (bell a (INR x0) (INR y0) wx wy)) h /\ moments n m (bell a (INR x0) (INR y0) wx wy) = Ok [h; a - h; INR x0; INR y0; sx; sy].
Proof.
  intros A WX WY X Y N M. set (d := bell a (INR x0) (INR y0) wx wy).
  set (e := fun w (k i : nat) => exp (- ((INR i - INR k) / w) ^ 2 / 2)).
  assert (D : forall r c, d r c = (a * e wx y0 r) * e wy x0 c). { intros r c. unfold d, bell, e. rewrite Rmult_assoc, <- exp_plus. do 2 f_equal. field. auto. }
  assert (FL : forall b w k N, 0 < b -> w <> 0 -> (k < N)%nat -> first_largest (fun i => b * e w k i) N k).
  { intros b w k N0 B W K. assert (T : e w k k = 1). { unfold e. replace (INR k - INR k) with 0 by ring. unfold Rdiv. rewrite Rmult_0_l. replace (- 0 ^ 2 * / 2) with 0 by ring. apply exp_0. }
    assert (Q : forall j, j <> k -> e w k j < 1).
    { intros j J. unfold e. rewrite <- exp_0. apply exp_increasing. assert (Z : (INR j - INR k) / w <> 0).
      { intros E. apply J, INR_eq. assert (INR j - INR k = 0); [|lra]. replace (INR j - INR k) with ((INR j - INR k) / w * w) by (field; exact W). rewrite E. ring. }
      assert (0 < ((INR j - INR k) / w) ^ 2) by (rewrite <- Rsqr_pow2; apply Rsqr_pos_lt, Z). lra. }
    split; [exact K|]. split; intros j J; rewrite T.
    - destruct (Nat.eq_dec j k) as [->|NE]; [rewrite T; lra|]. specialize (Q j NE). nra.
    - specialize (Q j ltac:(lia)). nra. }
  assert (EP : forall w k i, 0 < e w k i) by (intros; apply exp_pos).
  destruct (C66_centre n m d (fun r => a * e wx y0 r) (fun c => 1 * e wy x0 c) x0 y0) as (h & p & sx & sy & E).
  - intros r c _ _. rewrite D. ring.
  - intros r _. specialize (EP wx y0 r). nra.
  - intros c _. specialize (EP wy x0 c). lra.
  - apply FL; assumption.
  - apply FL; (assumption || lra).
  - exists 1%nat. split; [lia|]. specialize (EP wx y0 1%nat). nra.
  - exists 1%nat. split; [lia|]. specialize (EP wy x0 1%nat). lra.
  - pose proof (proj1 (C66_moments _ _ _ _) E) as (x & y & h' & p' & _ & _ & _ & _ & _ & _ & H & [PI PL] & EQ). injection EQ as -> -> _ _ _ _.
    exists h', sx, sy. split; [exact H|]. rewrite E. replace p' with a; [reflexivity|]. apply Rle_antisym.
    + replace a with (d y0 x0); [apply PL, pixel_in; assumption|]. unfold d. apply C66_peak; (lra || reflexivity).
    + apply in_pixels in PI. destruct PI as (r & c & _ & _ & ->). apply C66_peak. lra.
Qed.

(* ---- findings ---- *)
(* the height is never added *)
Theorem C66_height_refuted h h' a x0 y0 wx wy : twodgaussian [h; a; x0; y0; wx; wy] = twodgaussian [h'; a; x0; y0; wx; wy].
Proof. reflexivity. Qed.
(* a single bright pixel off the diagonal has widths: the column number is taken from the row's *)
Theorem C66_width_refuted n m r0 c0 v : (0 < r0 < n)%nat -> (0 < c0 < m)%nat -> 0 < v ->
  exists h p, moments n m (fun r c => if ((r =? r0) && (c =? c0))%nat then v else 0) = Ok [h; p; INR c0; INR r0; sqrt (Rabs (INR c0 - INR r0)); sqrt (Rabs (INR r0 - INR c0))].
Proof.
  intros RR C V. set (d := fun r c => _).
  assert (IND : forall k N, (k < N)%nat -> first_largest (fun i => if (i =? k)%nat then v else 0) N k).
  { intros k N K. split; [exact K|]. rewrite Nat.eqb_refl. split; intros j J; destruct (Nat.eqb_spec j k); try lra. lia. }
  destruct (C66_centre n m d (fun r => if (r =? r0)%nat then v else 0) (fun c => if (c =? c0)%nat then 1 else 0) c0 r0) as (h & p & wx & wy & E).
  - intros r c _ _. unfold d. destruct (r =? r0)%nat, (c =? c0)%nat; cbn [andb]; ring.
  - intros r _. destruct (r =? r0)%nat; lra.
  - intros r _. destruct (r =? c0)%nat; lra.
  - apply IND. lia.
  - split; [lia|]. rewrite Nat.eqb_refl. split; intros j J; destruct (Nat.eqb_spec j c0); try lra. lia.
  - exists r0. rewrite Nat.eqb_refl. split; [lia|lra].
  - exists c0. rewrite Nat.eqb_refl. split; [lia|lra].
  - exists h, p. rewrite E. apply C66_moments in E. destruct E as (x & y & h' & p' & _ & _ & _ & _ & _ & _ & _ & _ & EQ). injection EQ as _ _ X Y -> ->. apply INR_eq in X, Y. subst x y.
    assert (ONE : forall (u : nat -> R) N k, (k < N)%nat -> (forall i, i <> k -> u i = 0) -> rsum (seq 0 N) u = u k).
    { intros u N k K Z. replace N with (k + S (N - k - 1))%nat by lia. rewrite seq_app, rsum_app. cbn [seq rsum Nat.add]. rewrite !rsum_const0; [ring| |]; intros i I; apply in_seq in I; apply Z; lia. }
    assert (MD : forall f N k i0, (k < N)%nat -> (forall i, i <> k -> f i = 0) -> f k = v -> mean_distance f N i0 = Rabs (INR k - i0)).
    { intros f N k i0 K Z FV. unfold mean_distance. rewrite (ONE (fun i => Rabs (INR i - i0) * Rabs (f i)) N k K) by (intros i I; rewrite Z, Rabs_R0 by exact I; ring).
      rewrite (ONE (fun i => Rabs (f i)) N k K) by (intros i I; rewrite Z, Rabs_R0 by exact I; ring). rewrite FV, (Rabs_pos_eq v) by lra. field. lra. }
    rewrite (MD (d r0) m c0), (MD (fun r => d r c0) n r0); try lia; unfold d; rewrite ?Nat.eqb_refl; cbn [andb]; try reflexivity.
    + intros i I. destruct (Nat.eqb_spec i r0); [contradiction|reflexivity].
    + intros i I. destruct (Nat.eqb_spec i c0); [contradiction|reflexivity].
Qed.
(* light in the first row alone, away from the corner: the weights of all columns are zero *)
Theorem C66_first_row_refuted n m d : (forall r c, (0 < r)%nat -> d r c = 0) -> d 0%nat 0%nat = 0 -> moments n m d = Err.
Proof.
  intros Z C. destruct (moments n m d) as [ps|] eqn:E; [|reflexivity]. exfalso. apply C66_moments in E.
  destruct E as (x & y & h & p & _ & M & _ & (X1 & _ & X3) & _ & [r [_ DR]] & _).
  assert (W : forall c, rsum (seq 0 n) (fun r => INR r * Rabs (d r c)) = 0).
  { intros c. apply rsum_const0. intros i _. destruct i as [|i]; [cbn; ring|]. rewrite Z, Rabs_R0 by lia. ring. }
  destruct x as [|x]; [|specialize (X3 0%nat ltac:(lia)); rewrite !W in X3; lra]. destruct r as [|r]; [contradiction|]. apply DR, Z. lia.
Qed.
(* widths measured along a row are drawn across it: a source that is longer along the row is drawn longer across *)
Definition plus_source (r c : nat) : R :=
  match r, c with 1%nat, 1%nat => 4 | 1%nat, 0%nat | 1%nat, 2%nat => 2 | 0%nat, 1%nat | 2%nat, 1%nat => 1 | _, _ => 0 end.
Theorem C66_swapped_refuted : exists ps g, moments 3 3 plus_source = Ok ps /\ twodgaussian ps = Ok g /\ plus_source 0 1 < plus_source 1 0 /\
  exists across along, g 0%nat 1%nat = Some across /\ g 1%nat 0%nat = Some along /\ along < across.
Proof.
  assert (MED : is_median (pixels 3 3 plus_source) 1).
  { exists [0; 0; 0; 0; 1; 1; 2; 2; 4]. split; [|split].
    - unfold pixels. cbn. apply perm_skip. apply (Permutation_cons_app [0; 0; 0] [1; 2; 2; 4]). cbn. apply perm_skip. apply (Permutation_cons_app [0; 0; 1] [2; 4]). cbn.
      apply (Permutation_cons_app [0; 0; 1; 2] []). cbn. apply (Permutation_cons_app [0; 0; 1] []). cbn. apply perm_skip. apply perm_swap.
    - repeat (apply SSorted_cons; [|repeat (apply Forall_cons; [lra|]); apply Forall_nil]). apply SSorted_nil.
    - cbn. lra. }
  assert (MAX : is_maximum (pixels 3 3 plus_source) 4).
  { split; [unfold pixels; cbn; tauto|]. intros v I. unfold pixels in I. cbn in I. repeat destruct I as [<-|I]; try lra. }
  assert (AB : forall r c, Rabs (plus_source r c) = plus_source r c) by (intros r c; apply Rabs_pos_eq; destruct r as [|[|[|r]]], c as [|[|[|c]]]; cbn; lra).
  assert (E : moments 3 3 plus_source = Ok [1; 4 - 1; INR 1; INR 1; sqrt (mean_distance (plus_source 1) 3 (INR 1)); sqrt (mean_distance (fun r => plus_source r 1) 3 (INR 1))]).
  { apply C66_moments. exists 1%nat, 1%nat, 1, 4. split; [lia|]. split; [lia|].
    split; [split; [lia|]; split; intros j J; (destruct j as [|[|[|j]]]; [..|lia]); try lia; cbn [seq rsum]; rewrite !AB; cbn; lra|].
    split; [split; [lia|]; split; intros j J; (destruct j as [|[|[|j]]]; [..|lia]); try lia; cbn [seq rsum]; rewrite !AB; cbn; lra|].
    split; [exists 1%nat; split; [lia|cbn; lra]|]. split; [exists 1%nat; split; [lia|cbn; lra]|]. split; [exact MED|]. split; [exact MAX|reflexivity]. }
  assert (WX : mean_distance (plus_source 1) 3 (INR 1) = / 2).
  { unfold mean_distance. cbn [seq rsum]. rewrite !AB. cbn. replace (0 - 1) with (- (1)) by ring. rewrite Rabs_Ropp. replace (1 + 1 - 1) with 1 by ring. rewrite Rabs_R1. rewrite Rminus_diag_eq, Rabs_R0 by reflexivity. lra. }
  assert (WY : mean_distance (fun r => plus_source r 1) 3 (INR 1) = / 3).
  { unfold mean_distance. cbn [seq rsum]. rewrite !AB. cbn. replace (0 - 1) with (- (1)) by ring. rewrite Rabs_Ropp. replace (1 + 1 - 1) with 1 by ring. rewrite Rabs_R1. rewrite Rminus_diag_eq, Rabs_R0 by reflexivity. lra. }
  rewrite WX, WY in E. assert (S2 : sqrt (/ 2) * sqrt (/ 2) = / 2) by (apply sqrt_sqrt; lra). assert (S3 : sqrt (/ 3) * sqrt (/ 3) = / 3) by (apply sqrt_sqrt; lra).
  assert (P2 : 0 < sqrt (/ 2)) by (apply sqrt_lt_R0; lra). assert (P3 : 0 < sqrt (/ 3)) by (apply sqrt_lt_R0; lra).
  destruct (C66_drawn 1 (4 - 1) (INR 1) (INR 1) (sqrt (/ 2)) (sqrt (/ 3))) as [g [G V]]; [lra|lra|].
  eexists. exists g. split; [exact E|]. split; [exact G|]. split; [cbn; lra|]. eexists. eexists. split; [apply V|]. split; [apply V|]. unfold bell. apply Rmult_lt_compat_l; [lra|]. apply exp_increasing. cbn [INR].
  set (s := sqrt (/ 2)) in *. set (t := sqrt (/ 3)) in *. replace ((1 - 1) / s) with 0 by (field; lra). replace ((1 - 1) / t) with 0 by (field; lra).
  replace (((0 - 1) / s) ^ 2) with (/ (s * s)) by (field; lra). replace (((0 - 1) / t) ^ 2) with (/ (t * t)) by (field; lra). rewrite S2, S3. rewrite !Rinv_inv || rewrite !Rinv_involutive by lra. lra.
Qed.
(* one of the cases the theorems are about: a Gaussian about column 5, row 7 of 11 by 11 *)
Example C66_eleven : exists h sx sy, moments 11 11 (bell 2 5 7 1 1) = Ok [h; 2 - h; 5; 7; sx; sy].
Proof.
  destruct (C66_fit_of_drawn 11 11 2 5 7 1 1) as (h & sx & sy & _ & E); try lra; try lia. exists h, sx, sy.
  replace (INR 5) with 5 in E by (cbn; ring). replace (INR 7) with 7 in E by (cbn; ring). exact E.
Qed.

Print Assumptions C66_moments.
Print Assumptions C66_centre.
Print Assumptions C66_drawn.
Print Assumptions C66_zero_width. Print Assumptions C66_parameters.
Print Assumptions C66_peak.
Print Assumptions C66_fit_of_drawn.
Print Assumptions C66_height_refuted.
Print Assumptions C66_width_refuted.
Print Assumptions C66_first_row_refuted.
Print Assumptions C66_swapped_refuted.
