From Coq Require Import Reals Lra Permutation.
From Verif Require Import Base CleanModel CleanSpec CleanProofs CleanProofs2 GridModel GridSpec GridProofs.
Ltac Zify.zify_post_hook ::= idtac.
Open Scope R_scope.

Ltac cring := repeat match goal with x : C |- _ => destruct x | x : (R * R)%type |- _ => destruct x end;
  unfold cadd, csub, cmul, cscale, cconj; cbn [fst snd]; f_equal; ring.
Lemma cadd_0_r (a : C) : cadd a (0, 0) = a. Proof. cring. Qed.
Lemma csum_cons {A} (x : A) l f : csum (x :: l) f = cadd (f x) (csum l f).
Proof. unfold csum, cadd. cbn. reflexivity. Qed.
Lemma csum_ext {A} (l : list A) f g : (forall x, In x l -> f x = g x) -> csum l f = csum l g.
Proof. intros H. unfold csum. f_equal; apply rsum_ext; intros; rewrite H; auto. Qed.
Lemma csum_perm {A} (l m : list A) f : Permutation l m -> csum l f = csum m f.
Proof. intros H. unfold csum. f_equal; apply rsum_perm; auto. Qed.
Lemma rsum_scal {A} (l : list A) c f : rsum l (fun x => c * f x) = c * rsum l f.
Proof. induction l as [|x l IH]; cbn; [ring|]. rewrite IH. ring. Qed.
Lemma rsum_scal_r {A} (l : list A) c f : rsum l (fun x => f x * c) = rsum l f * c.
Proof. induction l as [|x l IH]; cbn; [ring|]. rewrite IH. ring. Qed.
Lemma csum_scale {A} (l : list A) (f : A -> R) (d : C) : csum l (fun x => cscale (f x) d) = cscale (rsum l f) d.
Proof. unfold csum, cscale. cbn [fst snd]. f_equal; apply rsum_scal_r. Qed.
Lemma rsum_swap {A B} (l : list A) (m : list B) f : rsum l (fun a => rsum m (fun b => f a b)) = rsum m (fun b => rsum l (fun a => f a b)).
Proof.
  induction l as [|x l IH]; cbn. { symmetry. apply rsum_const0. auto. }
  rewrite IH. rewrite <- rsum_plus. reflexivity.
Qed.
Lemma csum_swap {A B} (l : list A) (m : list B) f : csum l (fun a => csum m (fun b => f a b)) = csum m (fun b => csum l (fun a => f a b)).
Proof. unfold csum. cbn [fst snd]. f_equal; apply rsum_swap. Qed.

Lemma foldr_err {A S} (f : A -> S -> res S) l : fold_left (fun r a => bind r (f a)) l Err = Err.
Proof. induction l; cbn; auto. Qed.
Lemma foldr_cons {A S} (f : A -> S -> res S) a l s : foldr_ok f (a :: l) s = bind (f a s) (foldr_ok f l).
Proof. unfold foldr_ok. cbn. destruct (f a s); cbn; auto. apply foldr_err. Qed.
Lemma foldr_adds {A} (f : A -> (Z -> C) -> res (Z -> C)) g l :
  (forall a, In a l -> forall b, exists b', f a b = Ok b' /\ forall k, b' k = cadd (b k) (g a k)) ->
  forall b, exists b', foldr_ok f l b = Ok b' /\ forall k, b' k = cadd (b k) (csum l (fun a => g a k)).
Proof.
  induction l as [|a l IH]; intros H b.
  - exists b. split; [reflexivity|]. intros k. unfold csum. cbn. rewrite cadd_0_r. auto.
  - destruct (H a (or_introl eq_refl) b) as (b1 & E1 & H1). destruct (IH (fun x I => H x (or_intror I)) b1) as (b2 & E2 & H2).
    exists b2. rewrite foldr_cons, E1. cbn [bind]. split; auto. intros k. rewrite H2, H1, csum_cons. cring.
Qed.
Lemma put1_ok len i w d b : (0 <= i < len)%Z -> exists b', put1 len i w d b = Ok b' /\ forall k, b' k = cadd (b k) (if (i =? k)%Z then cscale w d else (0, 0)).
Proof.
  intros I. unfold put1, inb. replace ((0 <=? i) && (i <? len))%Z with true by lia. eexists. split; [reflexivity|].
  intros k. unfold upd. destruct (Z.eqb_spec i k) as [->|]; auto. rewrite cadd_0_r. auto.
Qed.
Lemma if_scale (b : bool) w d : (if b then cscale w d else (0, 0)) = cscale (if b then w else 0) d.
Proof. destruct b; auto. destruct d. unfold cscale. cbn. f_equal; ring. Qed.

(* ---- 1d ---- *)
Lemma grid1D_sum n fp samples buf : (0 < n)%Z -> exists buf', grid1D n fp samples buf = Ok buf' /\
  forall a, buf' a = cadd (buf a) (csum samples (fun s => cscale (foot1 n (taps (fst s) fp) (fst s) a) (snd s))).
Proof.
  intros N. unfold grid1D. apply (foldr_adds _ (fun s a => cscale (foot1 n (taps (fst s) fp) (fst s) a) (snd s))).
  intros [f d] _ b. cbn [fst snd].
  destruct (foldr_adds (fun j b => put1 n (jmod j n) (wgt1 (f - IZR j)) d b) (fun j k => if (jmod j n =? k)%Z then cscale (wgt1 (f - IZR j)) d else (0, 0)) (taps f fp)) with (b := b) as (b' & E & H).
  { intros j _ b0. apply put1_ok. rewrite jmod_mod by auto. apply Z.mod_pos_bound. auto. }
  exists b'. split; auto. intros k. rewrite H. f_equal. unfold foot1. rewrite <- csum_scale. apply csum_ext. intros j _.
  rewrite if_scale, jmod_mod by auto. reflexivity.
Qed.
(* ---- 2d, square buffers ---- *)
Lemma pair_index n a b a' b' : (0 <= b < n)%Z -> (0 <= b' < n)%Z -> ((a * n + b =? a' * n + b')%Z = ((a =? a') && (b =? b'))%Z).
Proof.
  intros B B'. apply Bool.eq_true_iff_eq. rewrite andb_true_iff, !Z.eqb_eq. split; [|intros [-> ->]; auto].
  intros H. assert (a = a')%Z by nia. subst. split; lia.
Qed.
Lemma grid2D_sum n fp samples buf : (0 < n)%Z -> exists buf', grid2D n n fp samples buf = Ok buf' /\
  forall a b, (0 <= a < n)%Z -> (0 <= b < n)%Z -> buf' (a * n + b)%Z = cadd (buf (a * n + b)%Z)
    (csum samples (fun s => cscale (foot2 n (taps (fst (fst s)) fp) (taps (snd (fst s)) fp) (fst (fst s)) (snd (fst s)) a b) (snd s))).
Proof.
  intros N. unfold grid2D.
  destruct (foldr_adds (fun (s : R * R * C) b => let '(f1, f2, d) := s in
    foldr_ok (fun j1 b => foldr_ok (fun j2 b =>
      put1 (n * n) (jmod j1 n * n + jmod j2 n) (wgt2 (f1 - IZR j1) (f2 - IZR j2)) d b)
      (taps f2 fp) b) (taps f1 fp) b)
    (fun s k => csum (taps (fst (fst s)) fp) (fun j1 => csum (taps (snd (fst s)) fp) (fun j2 =>
       if (jmod j1 n * n + jmod j2 n =? k)%Z then cscale (wgt2 (fst (fst s) - IZR j1) (snd (fst s) - IZR j2)) (snd s) else (0, 0)))) samples) with (b := buf) as (buf' & E & H).
  { intros [[f1 f2] d] _ b. cbn [fst snd].
    apply (foldr_adds _ (fun j1 k => csum (taps f2 fp) (fun j2 => if (jmod j1 n * n + jmod j2 n =? k)%Z then cscale (wgt2 (f1 - IZR j1) (f2 - IZR j2)) d else (0, 0)))).
    intros j1 _ b1. apply (foldr_adds _ (fun j2 k => if (jmod j1 n * n + jmod j2 n =? k)%Z then cscale (wgt2 (f1 - IZR j1) (f2 - IZR j2)) d else (0, 0))).
    intros j2 _ b2. apply put1_ok. rewrite !jmod_mod by auto. pose proof (Z.mod_pos_bound j1 n N). pose proof (Z.mod_pos_bound j2 n N). nia. }
  exists buf'. split; auto. intros a b A B. rewrite H. f_equal. apply csum_ext. intros [[f1 f2] d] _. cbn [fst snd].
  unfold foot2. rewrite <- csum_scale. apply csum_ext. intros j1 _. rewrite <- csum_scale. apply csum_ext. intros j2 _.
  rewrite if_scale, !jmod_mod by auto. rewrite pair_index; auto. apply Z.mod_pos_bound. auto.
Qed.
(* ---- windows as permutations ---- *)
Lemma foot1_perm n w w' f a : Permutation w w' -> foot1 n w f a = foot1 n w' f a.
Proof. intros P. unfold foot1. apply rsum_perm. auto. Qed.
Lemma foot2_perm n w1 w1' w2 w2' f1 f2 a b : Permutation w1 w1' -> Permutation w2 w2' -> foot2 n w1 w2 f1 f2 a b = foot2 n w1' w2' f1 f2 a b.
Proof. intros P1 P2. unfold foot2. rewrite (rsum_perm _ _ _ P1). apply rsum_ext. intros j _. apply rsum_perm. auto. Qed.
Lemma total2_perm w1 w1' w2 w2' f1 f2 : Permutation w1 w1' -> Permutation w2 w2' -> total2 w1 w2 f1 f2 = total2 w1' w2' f1 f2.
Proof. intros P1 P2. unfold total2. rewrite (rsum_perm _ _ _ P1). apply rsum_ext. intros j _. apply rsum_perm. auto. Qed.
(* ---- sums over the ring ---- *)
Lemma in_ring n a : In a (ring n) <-> (0 <= a < n)%Z.
Proof.
  unfold ring. rewrite in_map_iff. split.
  - intros (k & <- & K). apply in_seq in K. lia.
  - intros H. exists (Z.to_nat a). split; [lia|]. apply in_seq. lia.
Qed.
Lemma ring_nodup n : NoDup (ring n).
Proof. unfold ring. apply FinFun.Injective_map_NoDup; [intros a b H; lia | apply seq_NoDup]. Qed.
Lemma rsum_pick {A} (l : list A) (eqb : A -> A -> bool) (x : A) v : (forall a b, eqb a b = true <-> a = b) -> NoDup l -> In x l ->
  rsum l (fun a => if eqb x a then v a else 0) = v x.
Proof.
  intros Q ND. induction ND as [|y l NI ND IH]; intros I; [destruct I|]. cbn. destruct (eqb x y) eqn:E.
  - apply Q in E. subst. rewrite rsum_const0; [lra|]. intros z Z. destruct (eqb y z) eqn:E; auto. apply Q in E. subst. contradiction.
  - destruct I as [->|I]; [rewrite (proj2 (Q x x) eq_refl) in E; discriminate|]. rewrite IH by auto. lra.
Qed.
Lemma foot2_weighted n w1 w2 f1 f2 (v : Z -> Z -> R) : (0 < n)%Z ->
  rsum (ring n) (fun a => rsum (ring n) (fun b => foot2 n w1 w2 f1 f2 a b * v a b)) =
  rsum w1 (fun j1 => rsum w2 (fun j2 => gauss2 (f1 - IZR j1) (f2 - IZR j2) * v (j1 mod n)%Z (j2 mod n)%Z)).
Proof.
  intros N. unfold foot2.
  transitivity (rsum (ring n) (fun a => rsum (ring n) (fun b => rsum w1 (fun j1 => rsum w2 (fun j2 =>
    if (j1 mod n =? a)%Z then if (j2 mod n =? b)%Z then gauss2 (f1 - IZR j1) (f2 - IZR j2) * v a b else 0 else 0))))).
  { apply rsum_ext. intros a _. apply rsum_ext. intros b _. rewrite <- rsum_scal_r. apply rsum_ext. intros j1 _. rewrite <- rsum_scal_r. apply rsum_ext. intros j2 _.
    destruct (j1 mod n =? a)%Z; destruct (j2 mod n =? b)%Z; cbn [andb]; ring. }
  transitivity (rsum (ring n) (fun a => rsum w1 (fun j1 => rsum (ring n) (fun b => rsum w2 (fun j2 =>
    if (j1 mod n =? a)%Z then if (j2 mod n =? b)%Z then gauss2 (f1 - IZR j1) (f2 - IZR j2) * v a b else 0 else 0))))).
  { apply rsum_ext. intros a _. rewrite rsum_swap. reflexivity. }
  rewrite rsum_swap. apply rsum_ext. intros j1 _.
  transitivity (rsum (ring n) (fun a => if (j1 mod n =? a)%Z then rsum w2 (fun j2 => gauss2 (f1 - IZR j1) (f2 - IZR j2) * v a (j2 mod n)%Z) else 0)).
  { apply rsum_ext. intros a _. rewrite rsum_swap. destruct (j1 mod n =? a)%Z.
    - apply rsum_ext. intros j2 _. rewrite (rsum_pick (ring n) Z.eqb); auto using Z.eqb_eq, ring_nodup. apply in_ring. apply Z.mod_pos_bound. auto.
    - apply rsum_const0. intros. apply rsum_const0. auto. }
  rewrite (rsum_pick (ring n) Z.eqb); auto using Z.eqb_eq, ring_nodup. apply in_ring. apply Z.mod_pos_bound. auto.
Qed.
Lemma foot2_total n w1 w2 f1 f2 : (0 < n)%Z -> rsum (ring n) (fun a => rsum (ring n) (fun b => foot2 n w1 w2 f1 f2 a b)) = total2 w1 w2 f1 f2.
Proof.
  intros N. pose proof (foot2_weighted n w1 w2 f1 f2 (fun _ _ => 1) N) as H. cbv beta in H. unfold total2.
  transitivity (rsum (ring n) (fun a => rsum (ring n) (fun b => foot2 n w1 w2 f1 f2 a b * 1))).
  { apply rsum_ext. intros. apply rsum_ext. intros. ring. }
  rewrite H. apply rsum_ext. intros. apply rsum_ext. intros. ring.
Qed.
Lemma foot1_total n w f : (0 < n)%Z -> rsum (ring n) (fun a => foot1 n w f a) = rsum w (fun j => gauss1 (f - IZR j)).
Proof.
  intros N. unfold foot1. rewrite rsum_swap. apply rsum_ext. intros j _.
  rewrite (rsum_pick (ring n) Z.eqb (j mod n)%Z (fun _ => gauss1 (f - IZR j))); auto using Z.eqb_eq, ring_nodup. apply in_ring. apply Z.mod_pos_bound. auto.
Qed.
(* ---- degridding ---- *)
Lemma foldr_acc {A} (f : A -> C * R -> res (C * R)) g h l :
  (forall a, In a l -> forall p, f a p = Ok (cadd (fst p) (g a), snd p + h a)) ->
  forall p, foldr_ok f l p = Ok (cadd (fst p) (csum l g), snd p + rsum l h).
Proof.
  induction l as [|a l IH]; intros H p.
  - unfold foldr_ok, csum. cbn. rewrite cadd_0_r. destruct p. cbn. do 2 f_equal. ring.
  - rewrite foldr_cons, H by (left; auto). cbn [bind]. rewrite IH by (intros; apply H; right; auto). cbn [fst snd]. rewrite csum_cons. cbn [rsum].
    do 2 f_equal; [cring | ring].
Qed.
Lemma degrid1_ok n fp buf f1 f2 d : (0 < n)%Z -> degrid1 n n fp buf f1 f2 d =
  Ok (cscale (/ total2 (taps f1 fp) (taps f2 fp) f1 f2) (cadd d (csum (taps f1 fp) (fun j1 => csum (taps f2 fp) (fun j2 =>
        cscale (gauss2 (f1 - IZR j1) (f2 - IZR j2)) (buf (j1 mod n * n + j2 mod n)%Z)))))).
Proof.
  intros N. unfold degrid1.
  rewrite (foldr_acc _ (fun j1 => csum (taps f2 fp) (fun j2 => cscale (gauss2 (f1 - IZR j1) (f2 - IZR j2)) (buf (j1 mod n * n + j2 mod n)%Z)))
                       (fun j1 => rsum (taps f2 fp) (fun j2 => gauss2 (f1 - IZR j1) (f2 - IZR j2)))).
  - cbn [bind fst snd]. do 2 f_equal. f_equal. unfold total2. ring.
  - intros j1 _ p. apply (foldr_acc _ (fun j2 => cscale (gauss2 (f1 - IZR j1) (f2 - IZR j2)) (buf (j1 mod n * n + j2 mod n)%Z)) (fun j2 => gauss2 (f1 - IZR j1) (f2 - IZR j2))).
    intros j2 _ q. unfold degrid_tap. rewrite !jmod_mod by auto. pose proof (Z.mod_pos_bound j1 n N). pose proof (Z.mod_pos_bound j2 n N).
    unfold inb. replace ((0 <=? j1 mod n * n + j2 mod n) && (j1 mod n * n + j2 mod n <? n * n))%Z with true by nia. reflexivity.
Qed.
Lemma degrid_sum n fp buf f1 f2 : (0 < n)%Z -> csum (taps f1 fp) (fun j1 => csum (taps f2 fp) (fun j2 =>
        cscale (gauss2 (f1 - IZR j1) (f2 - IZR j2)) (buf (j1 mod n * n + j2 mod n)%Z))) =
  csum (ring n) (fun a => csum (ring n) (fun b => cscale (foot2 n (taps f1 fp) (taps f2 fp) f1 f2 a b) (buf (a * n + b)%Z))).
Proof.
  intros N. unfold csum, cscale. cbn [fst snd]. f_equal; symmetry.
  - apply (foot2_weighted n (taps f1 fp) (taps f2 fp) f1 f2 (fun a b => fst (buf (a * n + b)%Z)) N).
  - apply (foot2_weighted n (taps f1 fp) (taps f2 fp) f1 f2 (fun a b => snd (buf (a * n + b)%Z)) N).
Qed.
Lemma gauss2_pos x y : 0 < gauss2 x y.
Proof. unfold gauss2. apply Rmult_lt_0_compat; [lra | apply exp_pos]. Qed.
Lemma gauss2_neg x y : gauss2 (- x) (- y) = gauss2 x y.
Proof. unfold gauss2. do 2 f_equal. ring. Qed.
Lemma rsum_pos {A} (l : list A) f : l <> [] -> (forall x, In x l -> 0 < f x) -> 0 < rsum l f.
Proof.
  destruct l as [|x l]; [congruence|]. intros _ H. cbn. assert (0 <= rsum l f). { apply rsum_nonneg. intros y Y. apply Rlt_le, H. right. auto. }
  pose proof (H x (or_introl eq_refl)). lra.
Qed.
Lemma taps_nonempty f fp : (0 <= fp)%Z -> taps f fp <> [].
Proof.
  intros P E. destruct (taps_window f fp) as [_ W]. rewrite E in W. apply (W (floorR f)). unfold in_window.
  pose proof (floorR_spec f). assert (0 <= IZR (fp ÷ 2)). { apply (IZR_le 0). apply Z.quot_pos; lia. } lra.
Qed.
Lemma total2_pos f1 f2 fp : (0 <= fp)%Z -> 0 < total2 (taps f1 fp) (taps f2 fp) f1 f2.
Proof. intros P. unfold total2. apply rsum_pos; [apply taps_nonempty; auto|]. intros. apply rsum_pos; [apply taps_nonempty; auto|]. intros. apply gauss2_pos. Qed.
(* ---- symmetry ---- *)
Lemma opp_mod_eqb j n a : (0 < n)%Z -> (0 <= a < n)%Z -> ((- j) mod n =? (- a) mod n)%Z = (j mod n =? a)%Z.
Proof.
  intros N A. apply Bool.eq_true_iff_eq. rewrite !Z.eqb_eq. split.
  - intros H. replace j with (- - j)%Z by lia. rewrite <- (Z.mod_small a n) by lia. replace a with (- - a)%Z by lia.
    rewrite <- (Z.sub_0_l (- j)), <- (Z.sub_0_l (- a)). rewrite Zminus_mod, H, <- Zminus_mod. auto.
  - intros <-. rewrite <- (Z.sub_0_l j), <- (Z.sub_0_l (j mod n)). rewrite Zminus_mod_idemp_r. auto.
Qed.
Lemma foot2_neg n w1 w2 f1 f2 a b : (0 < n)%Z -> (0 <= a < n)%Z -> (0 <= b < n)%Z ->
  foot2 n (map Z.opp w1) (map Z.opp w2) (- f1) (- f2) ((- a) mod n)%Z ((- b) mod n)%Z = foot2 n w1 w2 f1 f2 a b.
Proof.
  intros N A B. unfold foot2. rewrite rsum_map. apply rsum_ext. intros j1 _. rewrite rsum_map. apply rsum_ext. intros j2 _.
  rewrite !opp_mod_eqb by auto. rewrite !opp_IZR. replace (- f1 - - IZR j1) with (- (f1 - IZR j1)) by ring. replace (- f2 - - IZR j2) with (- (f2 - IZR j2)) by ring.
  rewrite gauss2_neg. auto.
Qed.
