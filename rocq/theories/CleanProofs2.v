(* The four instances of the CLEAN loop. *)
From Coq Require Import Reals Lra Permutation Ring.
From Verif Require Import Base CleanModel CleanSpec CleanProofs.
Ltac Zify.zify_post_hook ::= idtac.
Open Scope R_scope.

(* ---- index sets ---- *)
Definition diff1 (dim : nat) (c a : nat) : nat := ((c + dim - a) mod dim)%nat.
Lemma wrap_diff1 dim c a : (c < dim)%nat -> (a < dim)%nat -> wrap1 dim (diff1 dim c a) a = c.
Proof.
  intros C A. unfold wrap1, diff1. rewrite Nat.add_mod_idemp_l by lia. replace (c + dim - a + a)%nat with (c + 1 * dim)%nat by lia.
  rewrite Nat.mod_add by lia. apply Nat.mod_small; auto.
Qed.
Lemma diff_wrap1 dim n a : (n < dim)%nat -> (a < dim)%nat -> diff1 dim (wrap1 dim n a) a = n.
Proof.
  intros N A. unfold wrap1, diff1. destruct (Nat.lt_ge_cases (n + a) dim).
  - rewrite (Nat.mod_small (n + a)) by auto. replace (n + a + dim - a)%nat with (n + 1 * dim)%nat by lia. rewrite Nat.mod_add by lia. apply Nat.mod_small; auto.
  - replace (n + a)%nat with (n + a - dim + 1 * dim)%nat by lia. rewrite Nat.mod_add by lia. rewrite (Nat.mod_small (n + a - dim)) by lia.
    replace (n + a - dim + dim - a)%nat with n by lia. apply Nat.mod_small; auto.
Qed.
Lemma in_cells1 dim c : In c (cells1 dim) <-> (c < dim)%nat.
Proof. unfold cells1. rewrite in_seq. lia. Qed.
Lemma in_cells2 d1 d2 c : In c (cells2 d1 d2) <-> (fst c < d1 /\ snd c < d2)%nat.
Proof. destruct c as [a b]. unfold cells2. rewrite in_prod_iff, !in_seq. cbn. lia. Qed.
Lemma nodup_app_disj {A} (l m : list A) : NoDup l -> NoDup m -> (forall x, In x l -> ~ In x m) -> NoDup (l ++ m).
Proof.
  induction l as [|x l IH]; intros L M D; auto. inversion L; subst. cbn [app]. constructor.
  - rewrite in_app_iff. intros [K|K]; auto. apply (D x); auto. left; auto.
  - apply IH; auto. intros y Y. apply D. right; auto.
Qed.
Lemma nodup_prod {A B} (l : list A) (m : list B) : NoDup l -> NoDup m -> NoDup (list_prod l m).
Proof.
  intros L M. induction L as [|x l X L IH]; cbn [list_prod]; [constructor|]. apply nodup_app_disj; auto.
  - apply nodup_map_in; auto. intros ? ? _ _ E; congruence.
  - intros [a b] H K. apply in_map_iff in H as (y & E & _). injection E as <- <-. apply in_prod_iff in K. tauto.
Qed.
Definition diff2 (d1 d2 : nat) (c a : nat * nat) : nat * nat := (diff1 d1 (fst c) (fst a), diff1 d2 (snd c) (snd a)).
Lemma eqb2_spec a b : reflect (a = b) (eqb2 a b).
Proof.
  destruct a as [a1 a2], b as [b1 b2]. unfold eqb2. cbn. destruct (Nat.eqb_spec a1 b1), (Nat.eqb_spec a2 b2); constructor; congruence.
Qed.

(* ---- complex numbers ---- *)
Definition copp (a : C) : C := (- fst a, - snd a).
Lemma cring : ring_theory (0, 0) (1, 0) cadd cmul csub copp (@eq C).
Proof. constructor; intros; unfold cadd, cmul, csub, copp; repeat match goal with x : C |- _ => destruct x | x : (R * R)%type |- _ => destruct x end; cbn [fst snd]; f_equal; ring. Qed.
Lemma cnorm2_zero v : cnorm2 v = 0 <-> v = (0, 0).
Proof.
  destruct v as [a b]. unfold cnorm2. cbn. split.
  - intros H. assert (0 <= a * a) by apply Rle_0_sqr. assert (0 <= b * b) by apply Rle_0_sqr.
    f_equal; [apply Rsqr_0_uniq | apply Rsqr_0_uniq]; unfold Rsqr; lra.
  - intros E. injection E as -> ->. ring.
Qed.

(* ---- results in the terms of the specification ---- *)
Definition ok_1d_r dim area maxiter (stop : bool) (ker mdl res : nat -> R) (o : outcome (I:=nat) (V:=R)) : Prop :=
  let '(rv, m, r) := o in
  (forall c, inside1 dim c -> r c + conv1 dim ker m c = res c + conv1 dim ker mdl c) /\
  (forall c, in_area area c = false -> m c = mdl c) /\
  (stop = true \/ rv = maxiter -> rms1 dim r <= rms1 dim res) /\
  (rv = maxiter \/ (1 <= Z.abs rv < maxiter)%Z) /\ (rv < 0 -> stop = true \/ maxiter < 0)%Z.
Definition ok_2d_r d1 d2 area maxiter (stop : bool) (ker mdl res : nat * nat -> R) (o : outcome (I:=nat*nat) (V:=R)) : Prop :=
  let '(rv, m, r) := o in
  (forall c, inside2 d1 d2 c -> r c + conv2 d1 d2 ker m c = res c + conv2 d1 d2 ker mdl c) /\
  (forall c, in_area area c = false -> m c = mdl c) /\
  (stop = true \/ rv = maxiter -> rms2 d1 d2 r <= rms2 d1 d2 res) /\
  (rv = maxiter \/ (1 <= Z.abs rv < maxiter)%Z) /\ (rv < 0 -> stop = true \/ maxiter < 0)%Z.
Definition ok_1d_c dim area maxiter (stop : bool) (ker mdl res : nat -> C) (o : outcome (I:=nat) (V:=C)) : Prop :=
  let '(rv, m, r) := o in
  (forall c, inside1 dim c -> cadd (r c) (cconv1 dim ker m c) = cadd (res c) (cconv1 dim ker mdl c)) /\
  (forall c, in_area area c = false -> m c = mdl c) /\
  (stop = true \/ rv = maxiter -> crms1 dim r <= crms1 dim res) /\
  (rv = maxiter \/ (1 <= Z.abs rv < maxiter)%Z) /\ (rv < 0 -> stop = true \/ maxiter < 0)%Z.
Definition ok_2d_c d1 d2 area maxiter (stop : bool) (ker mdl res : nat * nat -> C) (o : outcome (I:=nat*nat) (V:=C)) : Prop :=
  let '(rv, m, r) := o in
  (forall c, inside2 d1 d2 c -> cadd (r c) (cconv2 d1 d2 ker m c) = cadd (res c) (cconv2 d1 d2 ker mdl c)) /\
  (forall c, in_area area c = false -> m c = mdl c) /\
  (stop = true \/ rv = maxiter -> crms2 d1 d2 r <= crms2 d1 d2 res) /\
  (rv = maxiter \/ (1 <= Z.abs rv < maxiter)%Z) /\ (rv < 0 -> stop = true \/ maxiter < 0)%Z.

(* generic convolution and score against the specification *)
Lemma vsum_r {A} (l : list A) f : vsum 0 Rplus l f = rsum l f.
Proof. induction l as [|x l IH]; [reflexivity|]. cbn [vsum rsum]. rewrite IH. reflexivity. Qed.
Lemma vsum_c {A} (l : list A) f : vsum (0, 0) cadd l f = (rsum l (fun x => fst (f x)), rsum l (fun x => snd (f x))).
Proof. induction l as [|x l IH]; auto. cbn [vsum rsum]. rewrite IH. auto. Qed.
Lemma rsum_minus {A} (l : list A) f g : rsum l (fun x => f x - g x) = rsum l f - rsum l g.
Proof. induction l as [|x l IH]; cbn [rsum]; [ring | rewrite IH; ring]. Qed.
Lemma rsum_plus {A} (l : list A) f g : rsum l (fun x => f x + g x) = rsum l f + rsum l g.
Proof. induction l as [|x l IH]; cbn [rsum]; [ring | rewrite IH; ring]. Qed.
Lemma gconv_1r dim ker m c : gconv (cells1 dim) (diff1 dim) 0 Rplus Rmult ker m c = conv1 dim ker m c.
Proof. unfold gconv. rewrite vsum_r. reflexivity. Qed.
Lemma gconv_2r d1 d2 ker m c : gconv (cells2 d1 d2) (diff2 d1 d2) 0 Rplus Rmult ker m c = conv2 d1 d2 ker m c.
Proof. unfold gconv. rewrite vsum_r. unfold cells2. rewrite rsum_prod. reflexivity. Qed.
Lemma gconv_1c dim ker m c : gconv (cells1 dim) (diff1 dim) (0, 0) cadd cmul ker m c = cconv1 dim ker m c.
Proof. unfold gconv. rewrite vsum_c. unfold cmul, cconv1, conv1. cbn [fst snd]. rewrite rsum_minus, rsum_plus. reflexivity. Qed.
Lemma gconv_2c d1 d2 ker m c : gconv (cells2 d1 d2) (diff2 d1 d2) (0, 0) cadd cmul ker m c = cconv2 d1 d2 ker m c.
Proof.
  unfold gconv. rewrite vsum_c. unfold cmul, cconv2, conv2. cbn [fst snd]. rewrite rsum_minus, rsum_plus.
  unfold cells2. rewrite !rsum_prod. reflexivity.
Qed.
Lemma len1 dim : length (cells1 dim) = dim. Proof. apply seq_length. Qed.
Lemma len2 d1 d2 : length (cells2 d1 d2) = (d1 * d2)%nat. Proof. unfold cells2. rewrite prod_length, !seq_length. auto. Qed.
Lemma grms_1r dim r : grms (cells1 dim) (fun v => v * v) r = rms1 dim r.
Proof. unfold grms. rewrite len1. reflexivity. Qed.
Lemma grms_2r d1 d2 r : grms (cells2 d1 d2) (fun v => v * v) r = rms2 d1 d2 r.
Proof. unfold grms, gsum2. rewrite len2. unfold cells2. rewrite rsum_prod. reflexivity. Qed.
Lemma grms_1c dim r : grms (cells1 dim) cnorm2 r = crms1 dim r.
Proof. unfold grms. rewrite len1. reflexivity. Qed.
Lemma grms_2c d1 d2 r : grms (cells2 d1 d2) cnorm2 r = crms2 d1 d2 r.
Proof. unfold grms, gsum2. rewrite len2. unfold cells2. rewrite rsum_prod. reflexivity. Qed.

Lemma wrap_diff2 d1 d2 c a : In c (cells2 d1 d2) -> In a (cells2 d1 d2) -> wrap2 d1 d2 (diff2 d1 d2 c a) a = c.
Proof.
  rewrite !in_cells2. destruct c as [c1 c2], a as [a1 a2]. cbn [fst snd]. intros C A.
  change ((wrap1 d1 (diff1 d1 c1 a1) a1, wrap1 d2 (diff1 d2 c2 a2) a2) = (c1, c2)). rewrite !wrap_diff1 by lia. auto.
Qed.
Lemma diff_wrap2 d1 d2 c a : In c (cells2 d1 d2) -> In a (cells2 d1 d2) -> diff2 d1 d2 (wrap2 d1 d2 c a) a = c.
Proof.
  rewrite !in_cells2. destruct c as [c1 c2], a as [a1 a2]. cbn [fst snd]. intros C A.
  change ((diff1 d1 (wrap1 d1 c1 a1) a1, diff1 d2 (wrap1 d2 c2 a2) a2) = (c1, c2)). rewrite !diff_wrap1 by lia. auto.
Qed.
Lemma wrap_in2 d1 d2 c a : In c (cells2 d1 d2) -> In a (cells2 d1 d2) -> In (wrap2 d1 d2 c a) (cells2 d1 d2).
Proof. rewrite !in_cells2. unfold wrap2. cbn [fst snd]. intros. split; apply Nat.mod_upper_bound; lia. Qed.
Lemma diff_in2 d1 d2 c a : In c (cells2 d1 d2) -> In a (cells2 d1 d2) -> In (diff2 d1 d2 c a) (cells2 d1 d2).
Proof. rewrite !in_cells2. unfold diff2, diff1. cbn [fst snd]. intros. split; apply Nat.mod_upper_bound; lia. Qed.
Ltac side1 := try apply Nat.eqb_spec; try apply seq_NoDup; try (intros ? ?; rewrite !in_cells1; intros; first [apply wrap_diff1 | apply diff_wrap1 | unfold wrap1, diff1; apply Nat.mod_upper_bound]; lia); try (rewrite in_cells1; lia).
Ltac side2 := try apply eqb2_spec; try (apply nodup_prod; apply seq_NoDup);
  try (first [apply wrap_diff2 | apply diff_wrap2 | apply wrap_in2 | apply diff_in2]); try (rewrite in_cells2; cbn; lia).
Ltac sider := try apply RTheory; try (intros; ring); try (intros; nra); try (intros v; split; [intros; nra | intros ->; ring]).
Ltac sidec := try apply cring; try apply cnorm2_zero; try (intros; unfold cscale, cnorm2, copp; cbn [fst snd]; first [ring | f_equal; ring | nra]).
Lemma res_1d_r dim ker area gain tol maxiter stop pos fuel mdl res o : (0 < dim)%nat ->
  clean_1d_r dim ker area gain tol maxiter stop pos fuel mdl res = Some o ->
  result_ok (cells1 dim) (diff1 dim) 0 Rplus Rmult (fun v => v * v) ker area maxiter stop mdl res o.
Proof.
  intros D H. unfold clean_1d_r in H.
  eapply (clean_ok Nat.eqb (cells1 dim) (wrap1 dim) (diff1 dim) 0%nat 0 1 Rplus Rminus Rmult Ropp Rmult (fun v => v * v));
  [.. | exact H]; side1; sider.
Qed.
Lemma res_2d_r d1 d2 ker area gain tol maxiter stop pos fuel mdl res o : (0 < d1)%nat -> (0 < d2)%nat ->
  clean_2d_r d1 d2 ker area gain tol maxiter stop pos fuel mdl res = Some o ->
  result_ok (cells2 d1 d2) (diff2 d1 d2) 0 Rplus Rmult (fun v => v * v) ker area maxiter stop mdl res o.
Proof.
  intros D1 D2 H. unfold clean_2d_r in H.
  eapply (clean_ok eqb2 (cells2 d1 d2) (wrap2 d1 d2) (diff2 d1 d2) (0, 0)%nat 0 1 Rplus Rminus Rmult Ropp Rmult (fun v => v * v));
  [.. | exact H]; side2; sider.
Qed.
Lemma res_1d_c dim ker area gain tol maxiter stop pos fuel mdl res o : (0 < dim)%nat ->
  clean_1d_c dim ker area gain tol maxiter stop pos fuel mdl res = Some o ->
  result_ok (cells1 dim) (diff1 dim) (0, 0) cadd cmul cnorm2 ker area maxiter stop mdl res o.
Proof.
  intros D H. unfold clean_1d_c in H.
  eapply (clean_ok Nat.eqb (cells1 dim) (wrap1 dim) (diff1 dim) 0%nat (0, 0) (1, 0) cadd csub cmul copp cscale cnorm2);
  [.. | exact H]; side1; sidec.
Qed.
Lemma res_2d_c d1 d2 ker area gain tol maxiter stop pos fuel mdl res o : (0 < d1)%nat -> (0 < d2)%nat ->
  clean_2d_c d1 d2 ker area gain tol maxiter stop pos fuel mdl res = Some o ->
  result_ok (cells2 d1 d2) (diff2 d1 d2) (0, 0) cadd cmul cnorm2 ker area maxiter stop mdl res o.
Proof.
  intros D1 D2 H. unfold clean_2d_c in H.
  eapply (clean_ok eqb2 (cells2 d1 d2) (wrap2 d1 d2) (diff2 d1 d2) (0, 0)%nat (0, 0) (1, 0) cadd csub cmul copp cscale cnorm2);
  [.. | exact H]; side2; sidec.
Qed.

Theorem inst_1d_r dim ker area gain tol maxiter stop pos fuel mdl res o : (0 < dim)%nat ->
  clean_1d_r dim ker area gain tol maxiter stop pos fuel mdl res = Some o -> ok_1d_r dim area maxiter stop ker mdl res o.
Proof.
  intros D H. apply res_1d_r in H; auto. destruct o as [[rv m] r]. destruct H as (A & B & C0 & D0). split; [|split; [exact B|split; auto]].
  - intros c HC. specialize (A c (proj2 (in_cells1 _ _) HC)). rewrite !gconv_1r in A. auto.
  - rewrite <- !grms_1r. exact C0.
Qed.
Theorem inst_2d_r d1 d2 ker area gain tol maxiter stop pos fuel mdl res o : (0 < d1)%nat -> (0 < d2)%nat ->
  clean_2d_r d1 d2 ker area gain tol maxiter stop pos fuel mdl res = Some o -> ok_2d_r d1 d2 area maxiter stop ker mdl res o.
Proof.
  intros D1 D2 H. apply res_2d_r in H; auto. destruct o as [[rv m] r]. destruct H as (A & B & C0 & D0). split; [|split; [exact B|split; auto]].
  - intros c HC. specialize (A c (proj2 (in_cells2 _ _ _) HC)). rewrite !gconv_2r in A. auto.
  - rewrite <- !grms_2r. exact C0.
Qed.
Theorem inst_1d_c dim ker area gain tol maxiter stop pos fuel mdl res o : (0 < dim)%nat ->
  clean_1d_c dim ker area gain tol maxiter stop pos fuel mdl res = Some o -> ok_1d_c dim area maxiter stop ker mdl res o.
Proof.
  intros D H. apply res_1d_c in H; auto. destruct o as [[rv m] r]. destruct H as (A & B & C0 & D0). split; [|split; [exact B|split; auto]].
  - intros c HC. specialize (A c (proj2 (in_cells1 _ _) HC)). rewrite !gconv_1c in A. auto.
  - rewrite <- !grms_1c. exact C0.
Qed.
Theorem inst_2d_c d1 d2 ker area gain tol maxiter stop pos fuel mdl res o : (0 < d1)%nat -> (0 < d2)%nat ->
  clean_2d_c d1 d2 ker area gain tol maxiter stop pos fuel mdl res = Some o -> ok_2d_c d1 d2 area maxiter stop ker mdl res o.
Proof.
  intros D1 D2 H. apply res_2d_c in H; auto. destruct o as [[rv m] r]. destruct H as (A & B & C0 & D0). split; [|split; [exact B|split; auto]].
  - intros c HC. specialize (A c (proj2 (in_cells2 _ _ _) HC)). rewrite !gconv_2c in A. auto.
  - rewrite <- !grms_2c. exact C0.
Qed.
Theorem ends_1d_r dim ker area gain tol maxiter pos fuel mdl res : (0 < dim)%nat -> (Z.to_nat maxiter < fuel)%nat ->
  exists o, clean_1d_r dim ker area gain tol maxiter true pos fuel mdl res = Some o.
Proof. intros D L. unfold clean_1d_r. eapply (clean_ends Nat.eqb (cells1 dim) (wrap1 dim) (diff1 dim) 0%nat 0 1 Rplus Rminus Rmult Ropp Rmult (fun v => v * v)); auto; side1; sider. Qed.
Theorem ends_2d_r d1 d2 ker area gain tol maxiter pos fuel mdl res : (0 < d1)%nat -> (0 < d2)%nat -> (Z.to_nat maxiter < fuel)%nat ->
  exists o, clean_2d_r d1 d2 ker area gain tol maxiter true pos fuel mdl res = Some o.
Proof. intros D1 D2 L. unfold clean_2d_r. eapply (clean_ends eqb2 (cells2 d1 d2) (wrap2 d1 d2) (diff2 d1 d2) (0, 0)%nat 0 1 Rplus Rminus Rmult Ropp Rmult (fun v => v * v)); auto; side2; sider. Qed.
Theorem ends_1d_c dim ker area gain tol maxiter pos fuel mdl res : (0 < dim)%nat -> (Z.to_nat maxiter < fuel)%nat ->
  exists o, clean_1d_c dim ker area gain tol maxiter true pos fuel mdl res = Some o.
Proof. intros D L. unfold clean_1d_c. eapply (clean_ends Nat.eqb (cells1 dim) (wrap1 dim) (diff1 dim) 0%nat (0, 0) (1, 0) cadd csub cmul copp cscale cnorm2); auto; side1; sidec. Qed.
Theorem ends_2d_c d1 d2 ker area gain tol maxiter pos fuel mdl res : (0 < d1)%nat -> (0 < d2)%nat -> (Z.to_nat maxiter < fuel)%nat ->
  exists o, clean_2d_c d1 d2 ker area gain tol maxiter true pos fuel mdl res = Some o.
Proof. intros D1 D2 L. unfold clean_2d_c. eapply (clean_ends eqb2 (cells2 d1 d2) (wrap2 d1 d2) (diff2 d1 d2) (0, 0)%nat (0, 0) (1, 0) cadd csub cmul copp cscale cnorm2); auto; side2; sidec. Qed.

(* ---- one more iteration, growth ---- *)
Lemma step_1d_r dim ker area gain tol pos fuel mdl res k m' r' : (0 < dim)%nat -> (1 <= k)%Z ->
  clean_1d_r dim ker area gain tol (k + 1) true pos fuel mdl res = Some ((k + 1)%Z, m', r') -> exists m r,
  clean_1d_r dim ker area gain tol k true pos fuel mdl res = Some (k, m, r) /\
  ((exists a, In a (cells1 dim) /\ qualifies (fun v => Rltb 0 v) area pos r a /\ (forall c, In c (cells1 dim) -> qualifies (fun v => Rltb 0 v) area pos r c -> r c * r c <= r a * r a) /\
     m' a = m a + gain * (r a * kernel_gain (cells1 dim) 0 (fun v => v * v) rinverse ker area) /\ forall c, c <> a -> m' c = m c) \/
   (forall c, In c (cells1 dim) -> ~ qualifies (fun v => Rltb 0 v) area pos r c)).
Proof.
  intros D K H. unfold clean_1d_r in *.
  eapply (one_component Nat.eqb (cells1 dim) (wrap1 dim) (diff1 dim) 0%nat 0 1 Rplus Rminus Rmult Ropp Rmult (fun v => v * v)); [.. | exact H]; auto; side1; sider.
Qed.
Lemma step_2d_r d1 d2 ker area gain tol pos fuel mdl res k m' r' : (0 < d1)%nat -> (0 < d2)%nat -> (1 <= k)%Z ->
  clean_2d_r d1 d2 ker area gain tol (k + 1) true pos fuel mdl res = Some ((k + 1)%Z, m', r') -> exists m r,
  clean_2d_r d1 d2 ker area gain tol k true pos fuel mdl res = Some (k, m, r) /\
  ((exists a, In a (cells2 d1 d2) /\ qualifies (fun v => Rltb 0 v) area pos r a /\ (forall c, In c (cells2 d1 d2) -> qualifies (fun v => Rltb 0 v) area pos r c -> r c * r c <= r a * r a) /\
     m' a = m a + gain * (r a * kernel_gain (cells2 d1 d2) 0 (fun v => v * v) rinverse ker area) /\ forall c, c <> a -> m' c = m c) \/
   (forall c, In c (cells2 d1 d2) -> ~ qualifies (fun v => Rltb 0 v) area pos r c)).
Proof.
  intros D1 D2 K H. unfold clean_2d_r in *.
  eapply (one_component eqb2 (cells2 d1 d2) (wrap2 d1 d2) (diff2 d1 d2) (0, 0)%nat 0 1 Rplus Rminus Rmult Ropp Rmult (fun v => v * v)); [.. | exact H]; auto; side2; sider.
Qed.
Lemma step_1d_c dim ker area gain tol pos fuel mdl res k m' r' : (0 < dim)%nat -> (1 <= k)%Z ->
  clean_1d_c dim ker area gain tol (k + 1) true pos fuel mdl res = Some ((k + 1)%Z, m', r') -> exists m r,
  clean_1d_c dim ker area gain tol k true pos fuel mdl res = Some (k, m, r) /\
  ((exists a, In a (cells1 dim) /\ qualifies (fun _ => true) area false r a /\ (forall c, In c (cells1 dim) -> qualifies (fun _ => true) area false r c -> cnorm2 (r c) <= cnorm2 (r a)) /\
     m' a = cadd (m a) (cscale gain (cmul (r a) (kernel_gain (cells1 dim) (0, 0) cnorm2 cinverse ker area))) /\ forall c, c <> a -> m' c = m c) \/
   (forall c, In c (cells1 dim) -> ~ qualifies (fun _ => true) area false r c)).
Proof.
  intros D K H. unfold clean_1d_c in *.
  eapply (one_component Nat.eqb (cells1 dim) (wrap1 dim) (diff1 dim) 0%nat (0, 0) (1, 0) cadd csub cmul copp cscale cnorm2); [.. | exact H]; auto; side1; sidec.
Qed.
Lemma step_2d_c d1 d2 ker area gain tol pos fuel mdl res k m' r' : (0 < d1)%nat -> (0 < d2)%nat -> (1 <= k)%Z ->
  clean_2d_c d1 d2 ker area gain tol (k + 1) true pos fuel mdl res = Some ((k + 1)%Z, m', r') -> exists m r,
  clean_2d_c d1 d2 ker area gain tol k true pos fuel mdl res = Some (k, m, r) /\
  ((exists a, In a (cells2 d1 d2) /\ qualifies (fun _ => true) area false r a /\ (forall c, In c (cells2 d1 d2) -> qualifies (fun _ => true) area false r c -> cnorm2 (r c) <= cnorm2 (r a)) /\
     m' a = cadd (m a) (cscale gain (cmul (r a) (kernel_gain (cells2 d1 d2) (0, 0) cnorm2 cinverse ker area))) /\ forall c, c <> a -> m' c = m c) \/
   (forall c, In c (cells2 d1 d2) -> ~ qualifies (fun _ => true) area false r c)).
Proof.
  intros D1 D2 K H. unfold clean_2d_c in *.
  eapply (one_component eqb2 (cells2 d1 d2) (wrap2 d1 d2) (diff2 d1 d2) (0, 0)%nat (0, 0) (1, 0) cadd csub cmul copp cscale cnorm2); [.. | exact H]; auto; side2; sidec.
Qed.
(* the gain computed from the kernel *)
Lemma sqr_le_abs x y : x * x <= y * y -> Rabs x <= Rabs y.
Proof. intros H. apply Rsqr_le_abs_0. auto. Qed.
Lemma peak_r {I} (cells : list I) ker area : (exists n, In n cells /\ in_area area n = true /\ ker n <> 0) -> exists n0, In n0 cells /\ in_area area n0 = true /\ ker n0 <> 0 /\
  kernel_gain cells 0 (fun v => v * v) rinverse ker area = 1 / ker n0 /\ forall n, In n cells -> in_area area n = true -> Rabs (ker n) <= Rabs (ker n0).
Proof.
  intros (n & N1 & N2 & N3). destruct (kernel_gain_peak cells 0 (fun v => v * v) rinverse ker area) as (n0 & A & B & C0 & D & E).
  - intros; nra.
  - exists n. split; auto. split; auto. nra.
  - exists n0. split; auto. split; auto. split; [intros Z; rewrite Z in C0; lra|]. split; auto. intros. apply sqr_le_abs. auto.
Qed.
Lemma peak_c {I} (cells : list I) ker area : (exists n, In n cells /\ in_area area n = true /\ ker n <> (0, 0)) -> exists n0, In n0 cells /\ in_area area n0 = true /\
  cmul (ker n0) (kernel_gain cells (0, 0) cnorm2 cinverse ker area) = (1, 0) /\ forall n, In n cells -> in_area area n = true -> cnorm2 (ker n) <= cnorm2 (ker n0).
Proof.
  intros (n & N1 & N2 & N3). destruct (kernel_gain_peak cells (0, 0) cnorm2 cinverse ker area) as (n0 & A & B & C0 & D & E).
  - intros; unfold cnorm2; nra.
  - exists n. split; auto. split; auto. destruct (Rle_lt_dec (cnorm2 (ker n)) 0) as [L|L]; auto. exfalso. apply N3. apply cnorm2_zero. unfold cnorm2 in *; nra.
  - exists n0. split; auto. split; auto. split; auto. rewrite D. unfold cmul, cinverse, cnorm2 in *. cbn [fst snd]. f_equal; field; lra.
Qed.
Lemma peak_positive {I} (cells : list I) ker area n1 : In n1 cells -> in_area area n1 = true -> 0 < ker n1 ->
  (forall n, In n cells -> in_area area n = true -> - ker n < ker n1) -> 0 < kernel_gain cells 0 (fun v => v * v) rinverse ker area.
Proof.
  intros N1 N2 N3 N4. destruct (peak_r cells ker area) as (n0 & A & B & C0 & D & E); [exists n1; repeat split; auto; lra|].
  rewrite D. specialize (E n1 N1 N2). specialize (N4 n0 A B). unfold Rdiv. rewrite Rmult_1_l. apply Rinv_0_lt_compat.
  rewrite (Rabs_pos_eq (ker n1)) in E by lra. unfold Rabs in E. destruct (Rcase_abs (ker n0)); lra.
Qed.
Lemma grow_1d_r dim ker area gain tol maxiter stop fuel mdl res rv m r : (0 < dim)%nat -> 0 <= gain ->
  0 < kernel_gain (cells1 dim) 0 (fun v => v * v) rinverse ker area ->
  clean_1d_r dim ker area gain tol maxiter stop true fuel mdl res = Some (rv, m, r) -> forall c, mdl c <= m c.
Proof.
  intros D G Q H. unfold clean_1d_r in H.
  eapply (clean_grows Nat.eqb (cells1 dim) (wrap1 dim) (diff1 dim) 0%nat 0 1 Rplus Rminus Rmult Ropp Rmult (fun v => v * v)) with (vle := Rle); [.. | exact H]; auto; side1; sider.
  intros x v [->|V]; [lra|]. apply Rltb_true in V. assert (0 <= gain * (v * kernel_gain (cells1 dim) 0 (fun v => v * v) rinverse ker area)); [|lra].
  apply Rmult_le_pos; auto. apply Rmult_le_pos; lra.
Qed.
Lemma grow_2d_r d1 d2 ker area gain tol maxiter stop fuel mdl res rv m r : (0 < d1)%nat -> (0 < d2)%nat -> 0 <= gain ->
  0 < kernel_gain (cells2 d1 d2) 0 (fun v => v * v) rinverse ker area ->
  clean_2d_r d1 d2 ker area gain tol maxiter stop true fuel mdl res = Some (rv, m, r) -> forall c, mdl c <= m c.
Proof.
  intros D1 D2 G Q H. unfold clean_2d_r in H.
  eapply (clean_grows eqb2 (cells2 d1 d2) (wrap2 d1 d2) (diff2 d1 d2) (0, 0)%nat 0 1 Rplus Rminus Rmult Ropp Rmult (fun v => v * v)) with (vle := Rle); [.. | exact H]; auto; side2; sider.
  intros x v [->|V]; [lra|]. apply Rltb_true in V. assert (0 <= gain * (v * kernel_gain (cells2 d1 d2) 0 (fun v => v * v) rinverse ker area)); [|lra].
  apply Rmult_le_pos; auto. apply Rmult_le_pos; lra.
Qed.
Lemma hang_1d_r dim ker area gain tol maxiter pos fuel mdl : (0 < dim)%nat -> (2 <= maxiter)%Z ->
  clean_1d_r dim ker area gain tol maxiter false pos fuel mdl (fun _ => 0) = None.
Proof.
  intros D M. unfold clean_1d_r.
  eapply (hang Nat.eqb (cells1 dim) (wrap1 dim) (diff1 dim) 0%nat 0 1 Rplus Rminus Rmult Ropp Rmult (fun v => v * v)); auto; side1; sider.
Qed.
