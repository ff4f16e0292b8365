(* C40: the fits keep to their bounds, report what they have done, and never get worse. *)
From Coq Require Import Reals Lra FunctionalExtensionality.
From Verif Require Import Base CleanModel CleanSpec FitModel FitSpec FitProofs.
Ltac Zify.zify_post_hook ::= idtac.
Open Scope R_scope.

Section Props.
Variables (d1 d2 : nat) (im ker : image).
Notation misfit := (misfit d1 d2 im ker).
Notation misfit2 := (misfit2 d1 d2 im ker).

(* ---- lsq ---- *)
Definition start (mdl : option image) : image := match mdl with Some m => m | None => fun _ => 0 end.
Definition weight (area : option (nat * nat -> Z)) : nat * nat -> Z := match area with Some a => a | None => fun _ => 1%Z end.
(* the score compared with that of step n: 0 at first *)
Definition score_before area gain lower upper x0 (n : nat) : R :=
  match n with O => 0 | S n => misfit_in d1 d2 im ker area (steps d1 d2 im ker area gain lower upper x0 n) end.
(* what lsq returns: the model after n steps, n being maxiter or the first step at which the score
   changed by less than the fraction tol; the residual of that model; the score reported is that
   of the model one step earlier *)
Theorem C40_lsq mdl area gain tol maxiter lower upper x i : ker_size d1 d2 ker <> 0 ->
  lsq d1 d2 im ker mdl area gain tol maxiter lower upper = Ok (x, i) ->
  let xs := steps d1 d2 im ker (weight area) gain lower upper (start mdl) in
  let prev := score_before (weight area) gain lower upper (start mdl) in
  let settled n := misfit_in d1 d2 im ker (weight area) (xs n) <> 0 /\ Rabs (1 - prev n / misfit_in d1 d2 im ker (weight area) (xs n)) < tol in
  exists n, x = xs n /\ i_res i = misfit x /\ i_score i = prev n /\ i_success i = true /\
    (forall j, (j < n)%nat -> ~ settled j) /\
    ((i_term i = EMaxiter /\ n = maxiter /\ i_iter i = n) \/ (i_term i = ETol /\ (n < maxiter)%nat /\ i_iter i = S n /\ settled n)).
Proof.
  intros K E xs prev settled. unfold lsq in E. destruct maxiter as [|k]; [discriminate|]. cbv zeta in E.
  destruct (lsq_loop _ _ _ _ _ _ _ _ _ _ _ _ _) as [[[x' e] s] n'] eqn:L.
  apply (loop_steps d1 d2 im ker _ _ _ _ _ (start mdl) K (S k) 0) in L as (n & _ & X & Y & Z & W). injection E as <- <-. cbn [i_res i_score i_success i_term i_iter].
  exists n. split; [exact X|]. split; [reflexivity|]. split; [rewrite Y; destruct n; reflexivity|]. split; [reflexivity|]. split.
  - intros j J S. apply (Z j); [lia|]. unfold settled, prev in S. destruct j; exact S.
  - destruct W as [(W1 & W2 & W3)|(W1 & W2 & W3 & W4)]; [left; auto|right]. split; [exact W1|]. split; [exact W2|]. split; [exact W3|]. unfold settled, prev. destruct n; exact W4.
Qed.
(* every pixel is between the bounds, provided tol is at most 1 *)
Theorem C40_lsq_bounds mdl area gain tol maxiter lower upper x i : ker_size d1 d2 ker <> 0 -> sensible lower upper -> tol <= 1 ->
  lsq d1 d2 im ker mdl area gain tol maxiter lower upper = Ok (x, i) -> forall p, within lower upper (x p).
Proof.
  intros K B T E. destruct maxiter as [|k]; [discriminate|]. apply C40_lsq in E as (n & X & _ & _ & _ & _ & W); auto. assert (N : (0 < n)%nat).
  { destruct W as [(_ & W & _)|(_ & _ & _ & W1 & W2)]; [lia|]. destruct n; [|lia]. exfalso. cbn [score_before] in W2. unfold Rdiv in W2. rewrite Rmult_0_l, Rminus_0_r, Rabs_R1 in W2. lra. }
  destruct n as [|n]; [lia|]. intros p. rewrite X. cbn [steps]. apply bounded_within. auto.
Qed.
(* pixels outside the area are those of the starting model, moved between the bounds *)
Theorem C40_lsq_outside mdl area gain tol maxiter lower upper x i p : ker_size d1 d2 ker <> 0 -> sensible lower upper -> tol <= 1 ->
  lsq d1 d2 im ker mdl (Some area) gain tol maxiter lower upper = Ok (x, i) -> area p = 0%Z -> x p = bounded lower upper (start mdl p).
Proof.
  intros K B T E A. pose proof E as E0. destruct maxiter as [|k]; [discriminate|]. apply C40_lsq in E as (n & X & _ & _ & _ & _ & W); auto. assert (N : (0 < n)%nat).
  { destruct W as [(_ & W & _)|(_ & _ & _ & W1 & W2)]; [lia|]. destruct n; [|lia]. exfalso. cbn [score_before] in W2. unfold Rdiv in W2. rewrite Rmult_0_l, Rminus_0_r, Rabs_R1 in W2. lra. }
  rewrite X. cbn [weight]. clear - A N B. destruct n as [|n]; [lia|]. clear N. induction n as [|n IH].
  - cbn [steps]. rewrite A. f_equal. unfold Rdiv. lra.
  - change (steps d1 d2 im ker area gain lower upper (start mdl) (S (S n)) p) with
      (bounded lower upper (steps d1 d2 im ker area gain lower upper (start mdl) (S n) p + gain * (IZR (area p) * misfit (steps d1 d2 im ker area gain lower upper (start mdl) (S n)) p / (2 * ker_size d1 d2 ker)))).
    rewrite IH, A. unfold Rdiv. rewrite !Rmult_0_l, Rmult_0_r, Rplus_0_r. generalize (start mdl p). intros v. unfold sensible in B. unfold bounded.
    destruct upper as [u|]; unfold Rmin, Rmax; repeat destruct (Rle_dec _ _); lra.
Qed.
(* maxiter 0 is an error *)
Theorem C40_no_iteration mdl area gain tol lower upper var0 noise cooling :
  lsq d1 d2 im ker mdl area gain tol 0 lower upper = Err /\ maxent d1 d2 im ker var0 mdl gain tol 0 lower upper = Err /\
  anneal d1 d2 im ker lower upper noise cooling mdl 0 = Err.
Proof. auto. Qed.

(* ---- anneal ---- *)
Section Anneal.
Variables (lower : R) (upper : option R) (noise : nat -> image) (cooling : nat -> image -> image).
Notation run := (anneal d1 d2 im ker lower upper noise cooling).
(* the model tried at turn i *)
Definition tried (i : nat) (m : image) : image :=
  fun p => bounded lower upper (m p + noise i p * cooling i (fun p => misfit m p / ker_size d1 d2 ker) p).
Lemma try_tried i m : try_model d1 d2 ker lower upper noise cooling i m (residual d1 d2 im ker m) = tried i m.
Proof. unfold try_model, tried. apply functional_extensionality. intros p. rewrite clip_bounded, q_ker. auto. Qed.
Notation after := (state_after d1 d2 im ker lower upper noise cooling).
Lemma run_after mdl n x i : run mdl n = Ok (x, i) -> n <> O /\ x = after (start mdl) n /\ i = Info true EMaxiter (misfit x) (misfit2 x) n.
Proof.
  unfold anneal. destruct n as [|n]; [discriminate|]. cbv zeta. rewrite mean_square_misfit.
  pose proof (anneal_states d1 d2 im ker lower upper noise cooling (start mdl) (S n) 0) as L. cbn [state_after plus] in L.
  match goal with |- context [anneal_loop ?a ?b ?c ?d ?e ?f ?g ?h ?i ?j ?k ?l ?m] => replace (anneal_loop a b c d e f g h i j k l m) with
    (after (start mdl) (S n), residual d1 d2 im ker (after (start mdl) (S n)), misfit2 (after (start mdl) (S n))) by (symmetry; exact L) end.
  intros E. split; [discriminate|]. set (z := after (start mdl) (S n)) in *. clearbody z. injection E as <- <-. auto.
Qed.
Lemma run_ok mdl n : run mdl (S n) = Ok (after (start mdl) (S n), Info true EMaxiter (misfit (after (start mdl) (S n))) (misfit2 (after (start mdl) (S n))) (S n)).
Proof.
  destruct (run mdl (S n)) as [[x i]|] eqn:E; [apply run_after in E as (_ & -> & ->); auto|]. unfold anneal in E. cbv zeta in E.
  destruct (anneal_loop _ _ _ _ _ _ _ _ _ _ _ _ _) as [[? ?] ?]. discriminate.
Qed.
(* the residual and the score are those of the model returned *)
Theorem C40_anneal_report mdl n x i : run mdl n = Ok (x, i) ->
  i_res i = misfit x /\ i_score i = misfit2 x /\ i_iter i = n /\ i_success i = true /\ i_term i = EMaxiter.
Proof. intros E. apply run_after in E as (_ & -> & ->). auto. Qed.
(* turn by turn: a further turn takes up the model it tries exactly if that fits strictly better *)
Theorem C40_anneal_first mdl x i : run mdl 1 = Ok (x, i) ->
  (misfit2 (tried 0 (start mdl)) < misfit2 (start mdl) -> x = tried 0 (start mdl)) /\
  (misfit2 (start mdl) <= misfit2 (tried 0 (start mdl)) -> x = start mdl).
Proof.
  intros E. apply run_after in E as (_ & -> & _). cbn [state_after]. rewrite try_tried.
  split; intros H; [apply Rltb_true in H|apply Rltb_false in H]; rewrite H; auto.
Qed.
Theorem C40_anneal_turn mdl n x i x' i' : run mdl n = Ok (x, i) -> run mdl (S n) = Ok (x', i') ->
  (misfit2 (tried n x) < misfit2 x -> x' = tried n x) /\ (misfit2 x <= misfit2 (tried n x) -> x' = x).
Proof.
  intros E E'. apply run_after in E as (_ & -> & _), E' as (_ & -> & _). cbn [state_after]. rewrite try_tried.
  split; intros H; [apply Rltb_true in H|apply Rltb_false in H]; rewrite H; auto.
Qed.
(* more turns never make the fit worse; it is never worse than the starting model *)
Lemma after_better m0 n k : misfit2 (after m0 (n + k)) <= misfit2 (after m0 n).
Proof.
  induction k as [|k IH]; [rewrite Nat.add_0_r; lra|]. replace (n + S k)%nat with (S (n + k)) by lia. cbn [state_after].
  destruct (Rltb _ _) eqn:B; auto. apply Rltb_true in B. lra.
Qed.
Theorem C40_anneal_never_worse mdl n k x i x' i' : run mdl n = Ok (x, i) -> run mdl (n + k) = Ok (x', i') ->
  i_score i' <= i_score i /\ misfit2 x' <= misfit2 x /\ misfit2 x' <= misfit2 (start mdl).
Proof.
  intros E E'. apply run_after in E as (_ & -> & ->), E' as (_ & -> & ->). cbn [i_score].
  split; [apply after_better|]. split; [apply after_better|]. apply (after_better _ 0).
Qed.
(* and never worse than any model tried on the way *)
Theorem C40_anneal_best mdl n k x i x' i' : run mdl n = Ok (x, i) -> run mdl (n + S k) = Ok (x', i') -> misfit2 x' <= misfit2 (tried n x).
Proof.
  intros E E'. destruct (run mdl (S n)) as [[y j]|] eqn:F; [|rewrite run_ok in F; discriminate].
  destruct (C40_anneal_turn _ _ _ _ _ _ E F) as [A B]. replace (n + S k)%nat with (S n + k)%nat in E' by lia.
  pose proof (C40_anneal_never_worse _ _ _ _ _ _ _ F E') as (_ & H & _).
  destruct (Rlt_le_dec (misfit2 (tried n x)) (misfit2 x)) as [L|L]; [rewrite (A L) in H|rewrite (B L) in H]; lra.
Qed.
(* every pixel is between the bounds, unless no model tried was better than the starting one *)
Theorem C40_anneal_bounds mdl n x i : sensible lower upper -> run mdl n = Ok (x, i) -> x = start mdl \/ forall p, within lower upper (x p).
Proof.
  intros B E. apply run_after in E as (_ & -> & _). clear i. induction n as [|n IH]; cbn [state_after]; auto. destruct (Rltb _ _); auto. right. intros p.
  rewrite try_tried. apply bounded_within. auto.
Qed.
(* what is returned is worse than nothing tried: a changed model fits strictly better than the start *)
Theorem C40_anneal_changed mdl n x i : run mdl n = Ok (x, i) -> x = start mdl \/ misfit2 x < misfit2 (start mdl).
Proof.
  intros E. apply run_after in E as (_ & -> & _). clear i. induction n as [|n IH]; cbn [state_after]; auto. destruct (Rltb _ _) eqn:L; auto. right.
  apply Rltb_true in L. pose proof (after_better (start mdl) 0 n) as H. cbn [plus state_after] in H. lra.
Qed.
End Anneal.

(* ---- maxent ---- *)
Definition first_model (mdl : option image) : image := match mdl with Some m => m | None => fun _ => mean d1 d2 im / sum2 d1 d2 ker end.
Theorem C40_maxent var0 mdl gain tol maxiter lower upper b i : sensible lower upper ->
  maxent d1 d2 im ker var0 mdl gain tol maxiter lower upper = Ok (b, i) ->
  (1 <= m_iter i <= maxiter)%nat /\ (m_term i = EMaxiter -> m_iter i = maxiter) /\
  (m_success i = true <-> m_term i <> EDivergence) /\
  m_res i = option_map misfit b /\
  (* bounds: from the second iteration on *)
  (forall x, b = Some x -> (x = first_model mdl /\ m_iter i = 1%nat /\ m_term i <> EMaxiter) \/ forall p, within lower upper (x p)) /\
  (* how the end relates to the score reported *)
  (m_term i = ETol -> exists x v, b = Some x /\ m_score i = Some v /\ 0 < v < tol) /\
  (m_term i = EDivergence -> m_score i = None \/ exists v, m_score i = Some v /\ (v <= 0 \/ 10000000000 < v)).
Proof.
  intros B E. unfold maxent in E. destruct maxiter as [|k]; [discriminate|]. cbv zeta in E.
  set (s0 := match mdl with Some m => Some m | None => _ end) in E.
  destruct (maxent_loop _ _ _ _ _ _ _ _ _ _ _ _ _ _) as [[[b' e] sc] n'] eqn:L. set (m0 := match s0 with Some m => m | None => im end) in L.
  assert (L' := L). apply maxent_inv in L as (P1 & P2 & P3 & P4 & P5 & P6); auto. injection E as <- <-. cbn [m_iter m_term m_success m_res m_score].
  assert (N1 : (1 <= n')%nat). { destruct e; [rewrite (P2 eq_refl); lia|specialize (P3 ltac:(discriminate)); lia|specialize (P3 ltac:(discriminate)); lia]. }
  split; [lia|]. split; auto. split; [destruct e; split; congruence|]. split; [auto|]. split; [|auto].
  intros x X. destruct e.
  - right. destruct (P4 x X) as [[Y Z]|Y]; auto. specialize (P2 eq_refl). clear P3 P5 P6.
    (* maxiter 1, ended without a break: one step was taken *)
    assert (k = O) by lia. subst k. cbn [maxent_loop] in L'. destruct s0 as [s1|] eqn:S0; cbn [option_map] in L'; [|congruence].
    destruct (next_step _ _ _ _ _ _ _ _) as [[v|] d]; [|congruence]. destruct (_ && _); [congruence|]. destruct (_ || _); [congruence|].
    destruct d as [[db da]|]; cbn [option_map fst] in L'; [|congruence].
    assert (H := f_equal (fun z => fst (fst (fst z))) L'). cbn [fst] in H. rewrite X in H. injection H as <-. intros p. rewrite clip_bounded. apply bounded_within. auto.
  - destruct (P4 x X) as [[Y Z]|Y]; auto. left. split; [|split; [lia|discriminate]]. unfold s0 in Y. unfold first_model. destruct mdl as [m|]; cbn in Y; [congruence|].
    destruct (Req_EM_T (isum d1 d2 ker) 0); [discriminate|]. cbn in Y. injection Y as <-. rewrite average_mean, isum_sum2. auto.
  - destruct (P4 x X) as [[Y Z]|Y]; auto. left. split; [|split; [lia|discriminate]]. unfold s0 in Y. unfold first_model. destruct mdl as [m|]; cbn in Y; [congruence|].
    destruct (Req_EM_T (isum d1 d2 ker) 0); [discriminate|]. cbn in Y. injection Y as <-. rewrite average_mean, isum_sum2. auto.
Qed.
(* the step of maxent brings the misfit to its target to first order: with gradient
   -2 q (im - ker*b), gradient . step = target - misfit *)
Lemma rsum_lin {A} (l : list A) f g c : rsum l (fun x => f x + c * g x) = rsum l f + c * rsum l g.
Proof. induction l; cbn; lra. Qed.
Lemma sum2_lin f g c : sum2 d1 d2 (fun p => f p + c * g p) = sum2 d1 d2 f + c * sum2 d1 d2 g.
Proof.
  unfold sum2. rewrite <- rsum_lin. f_equal. apply functional_extensionality. intros a. rewrite rsum_lin. auto.
Qed.
Lemma rsum_ext {A} (l : list A) f g : (forall x, In x l -> f x = g x) -> rsum l f = rsum l g.
Proof. induction l; intros H; cbn; auto. rewrite H, IHl; cbn; auto. intros x X. apply H. cbn. auto. Qed.
Lemma sum2_ext f g : (forall p, (fst p < d1)%nat -> (snd p < d2)%nat -> f p = g p) -> sum2 d1 d2 f = sum2 d1 d2 g.
Proof. intros H. apply rsum_ext. intros a A. apply rsum_ext. intros b B. apply in_seq in A, B. apply H; cbn [fst snd]; lia. Qed.
Theorem C40_maxent_step m nvar0 b alpha score db dalpha : next_step d1 d2 im ker m nvar0 b alpha = (Some score, Some (db, dalpha)) ->
  sum2 d1 d2 (fun p => - 2 * ker_size d1 d2 ker * misfit b p * db p) = nvar0 - sum2 d1 d2 (fun p => misfit b p * misfit b p).
Proof.
  unfold next_step. set (t := metric_of d1 d2 im ker m nvar0 b alpha). intros E. destruct (Req_EM_T _ 0) as [|G]; [discriminate|].
  assert (SC : score_of d1 d2 m t b = Some score) by congruence.
  assert (NZ : forall p, (fst p < d1)%nat -> (snd p < d2)%nat -> gg_j t p <> 0).
  { unfold score_of in SC. destruct (existsb (bad_pixel m t b) (pixels d1 d2)) eqn:X; [discriminate|]. intros p P1 P2 Z.
    assert (T : existsb (bad_pixel m t b) (pixels d1 d2) = true); [|congruence]. apply existsb_exists. exists p. split.
    - unfold pixels, cells2. destruct p. apply in_prod; apply in_seq; cbn in *; lia.
    - unfold bad_pixel. destruct (Req_EM_T (gg_j t p) 0); [apply orb_true_r|contradiction]. }
  set (da := (chi2 t + dot d1 d2 t (g_chi2 t) (g_j t)) / dot d1 d2 t (g_chi2 t) (g_chi2 t)) in E.
  assert (DB : db = (fun p => - 1 / gg_j t p * (g_j t p - da * g_chi2 t p))).
  { assert (H := f_equal (fun z => match snd z with Some (y, _) => y | None => db end) E). cbn [snd] in H. symmetry. exact H. }
  subst db.
  assert (Q : chi2 t = sum2 d1 d2 (fun p => misfit b p * misfit b p) - nvar0) by (unfold t, metric_of; cbn [chi2]; rewrite isum_sum2; auto).
  assert (F : forall p, g_chi2 t p = -2 * ker_size d1 d2 ker * misfit b p) by (intros p; unfold t, metric_of; cbn [g_chi2]; rewrite q_ker; auto).
  transitivity (dot d1 d2 t (g_chi2 t) (g_j t) + - da * dot d1 d2 t (g_chi2 t) (g_chi2 t)).
  - unfold dot. rewrite !isum_sum2, <- sum2_lin. apply sum2_ext. intros p P1 P2. rewrite <- F. specialize (NZ p P1 P2). revert NZ. generalize (g_chi2 t p) (g_j t p) (gg_j t p) da. intros u v w z N. field. auto.
  - replace (nvar0 - _) with (- chi2 t) by lra. unfold da. field. auto.
Qed.

(* what maxent computes: the states entropy_states from the first model with multiplier 0; it returns
   the first that does not go on, with the reason, or the state after maxiter steps. A state from
   which no step can be made leaves no finite model *)
Section MaxentRun.
Variables (m : image) (nvar0 gain tol lower : R) (upper : option R).
Notation inn := (inner d1 d2 im ker).
Lemma sum2_opp f : sum2 d1 d2 (fun p => - f p) = - sum2 d1 d2 f.
Proof. pose proof (sum2_lin (fun _ => 0) f (-1)) as H. assert (Z : sum2 d1 d2 (fun _ => 0) = 0). { unfold sum2. generalize (seq 0 d1). induction l; cbn [rsum]; auto. rewrite IHl. generalize (seq 0 d2). intros l2. induction l2; cbn [rsum]; lra. }
  rewrite Z in H. transitivity (sum2 d1 d2 (fun p => 0 + -1 * f p)); [apply sum2_ext; intros; lra | lra]. Qed.
Lemma metric_spec b alpha : let t := metric_of d1 d2 im ker m nvar0 b alpha in
  (forall p, g_chi2 t p = chi_slope d1 d2 im ker (b, alpha) p) /\ (forall p, g_j t p = slope d1 d2 im ker m (b, alpha) p) /\
  (forall p, gg_j t p = curvature d1 d2 ker (b, alpha) p) /\ chi2 t = chi_excess d1 d2 im ker nvar0 (b, alpha) /\
  (forall x y, dot d1 d2 t x y = inner d1 d2 ker (b, alpha) x y).
Proof.
  cbv zeta. assert (G : forall p, g_chi2 (metric_of d1 d2 im ker m nvar0 b alpha) p = chi_slope d1 d2 im ker (b, alpha) p).
  { intros p. unfold metric_of, chi_slope. cbn [g_chi2 fst snd]. rewrite q_ker. change (residual d1 d2 im ker b p) with (misfit b p). lra. }
  assert (GG : forall p, gg_j (metric_of d1 d2 im ker m nvar0 b alpha) p = curvature d1 d2 ker (b, alpha) p).
  { intros p. unfold metric_of, curvature. cbn [gg_j fst snd]. rewrite q_ker. unfold Rdiv. lra. }
  split; [exact G|]. split; [|split; [exact GG|split]].
  - intros p. unfold slope. cbn [fst snd]. rewrite <- G. reflexivity.
  - unfold metric_of, chi_excess. cbn [chi2 fst]. rewrite isum_sum2. reflexivity.
  - intros x y. unfold dot, inner. rewrite isum_sum2, <- sum2_opp. apply sum2_ext. intros p _ _. rewrite GG.
    unfold Rdiv. rewrite Rinv_opp. lra.
Qed.
Lemma bad_pixel_spec b alpha : existsb (bad_pixel m (metric_of d1 d2 im ker m nvar0 b alpha) b) (pixels d1 d2) = false <->
  forall x y, (x < d1)%nat -> (y < d2)%nat -> m (x, y) <> 0 /\ 0 < b (x, y) / m (x, y) /\ curvature d1 d2 ker (b, alpha) (x, y) <> 0.
Proof.
  destruct (metric_spec b alpha) as (_ & _ & GG & _).
  assert (P : forall p, bad_pixel m (metric_of d1 d2 im ker m nvar0 b alpha) b p = false <-> m p <> 0 /\ 0 < b p / m p /\ curvature d1 d2 ker (b, alpha) p <> 0).
  { intros p. unfold bad_pixel. rewrite GG. destruct (Req_EM_T (m p) 0), (Req_EM_T (curvature d1 d2 ker (b, alpha) p) 0); cbn [orb]; try (split; [discriminate|tauto]).
    - rewrite orb_true_r. split; [discriminate|tauto].
    - rewrite orb_false_r, negb_false_iff, Rltb_true. tauto. }
  split.
  - intros E x y X Y. apply P. destruct (bad_pixel _ _ b (x, y)) eqn:B; auto. rewrite <- E. symmetry. apply existsb_exists. exists (x, y). split; auto.
    unfold pixels, cells2. apply in_prod; apply in_seq; lia.
  - intros H. destruct (existsb _ _) eqn:E; auto. apply existsb_exists in E as ([x y] & I & B). unfold pixels, cells2 in I. apply in_prod_iff in I as [I J].
    apply in_seq in I, J. rewrite (proj2 (P (x, y))) in B; [discriminate|]. apply H; lia.
Qed.
Notation reg := (regular d1 d2 ker m). Notation esc := (entropy_score d1 d2 im ker m).
Notation est := (entropy_step d1 d2 im ker m nvar0 gain lower upper).
Lemma score_spec b alpha sc : score_of d1 d2 m (metric_of d1 d2 im ker m nvar0 b alpha) b = sc ->
  match sc with Some v => reg (b, alpha) /\ v = esc (b, alpha) | None => ~ reg (b, alpha) end.
Proof.
  destruct (metric_spec b alpha) as (_ & GJ & _ & _ & D). unfold score_of. cbv zeta. rewrite !D. intros <-.
  destruct (existsb _ _) eqn:E.
  - intros [R _]. apply bad_pixel_spec in R. cbn [fst] in R. congruence.
  - pose proof (proj1 (bad_pixel_spec b alpha) E) as R. destruct (Req_EM_T _ 0) as [Z|Z].
    + intros [_ N]. auto.
    + split; [split; [exact R | exact Z]|]. unfold entropy_score. f_equal. f_equal; apply functional_extensionality; auto.
Qed.
Lemma next_spec b alpha : let '(sc, d) := next_step d1 d2 im ker m nvar0 b alpha in
  match sc with Some v => reg (b, alpha) /\ v = esc (b, alpha) | None => ~ reg (b, alpha) end /\
  match d with
  | Some (db, da) => can_step d1 d2 im ker (b, alpha) /\ est (b, alpha) = (fun p => clip lower upper (b p + gain * db p), alpha + gain * da)
  | None => ~ can_step d1 d2 im ker (b, alpha)
  end.
Proof.
  destruct (metric_spec b alpha) as (G & GJ & GG & CH & D). unfold next_step. cbv zeta. split; [apply score_spec; reflexivity|].
  set (t := metric_of d1 d2 im ker m nvar0 b alpha) in *. rewrite CH, !D.
  assert (E1 : g_chi2 t = chi_slope d1 d2 im ker (b, alpha)) by (apply functional_extensionality; auto).
  assert (E2 : g_j t = slope d1 d2 im ker m (b, alpha)) by (apply functional_extensionality; auto). rewrite E1, E2.
  destruct (Req_EM_T _ 0) as [Z|Z]; [intros N; auto|]. split; [exact Z|]. unfold entropy_step. cbn [fst snd]. f_equal. apply functional_extensionality. intros p.
  rewrite clip_bounded, GG. unfold alpha_step, Rdiv. f_equal. lra.
Qed.
Notation sts := (entropy_states d1 d2 im ker m nvar0 gain lower upper).
Notation going := (goes_on d1 d2 im ker m tol).
Definition run_result (s0 : image * R) (k : nat) (b : option image) (e : ending) (v : option R) (i : nat) : Prop :=
  exists n, let s := sts s0 n in
  (n <= k)%nat /\ (forall j, (j < n)%nat -> going (sts s0 j)) /\ (forall j, (S j < n)%nat -> can_step d1 d2 im ker (sts s0 j)) /\
  (* a state that is not made of numbers *)
  (((0 < n)%nat /\ ~ can_step d1 d2 im ker (sts s0 (n - 1)) /\ b = None /\
      ((n = k /\ e = EMaxiter /\ v = Some (esc (sts s0 (n - 1))) /\ i = k) \/ ((n < k)%nat /\ e = EDivergence /\ v = None /\ i = S n)))
   \/ (((0 < n)%nat -> can_step d1 d2 im ker (sts s0 (n - 1))) /\ b = Some (fst s) /\
       ((n = k /\ e = EMaxiter /\ ((0 < k)%nat -> v = Some (esc (sts s0 (n - 1)))) /\ i = k) \/
        ((n < k)%nat /\ e = ETol /\ reg s /\ 0 < esc s < tol /\ v = Some (esc s) /\ i = S n) \/
        ((n < k)%nat /\ e = EDivergence /\ ~ reg s /\ v = None /\ i = S n) \/
        ((n < k)%nat /\ e = EDivergence /\ reg s /\ (esc s <= 0 \/ 10000000000 < esc s) /\ ~ 0 < esc s < tol /\ v = Some (esc s) /\ i = S n)))).
Lemma loop_run s0 k : forall n s v0 b e v i, (n <= k)%nat -> s = sts s0 n -> (forall j, (j < n)%nat -> going (sts s0 j)) -> (forall j, (j < n)%nat -> can_step d1 d2 im ker (sts s0 j)) ->
  ((0 < n)%nat -> v0 = Some (esc (sts s0 (n - 1)))) ->
  maxent_loop d1 d2 im ker m nvar0 gain tol lower upper (k - n) n (Some s) v0 = (b, e, v, i) -> run_result s0 k b e v i.
Proof.
  intros n. remember (k - n)%nat as r eqn:R. revert n R. induction r as [|r IH]; intros n R s v0 b e v i L -> GO CS V0 E; cbn [maxent_loop] in E.
  - assert (n = k) by lia. subst n. injection E as <- <- <- <-. exists k. cbv zeta. split; [lia|]. split; [auto|]. split; [intros; apply CS; lia|].
    right. split; [intros; apply CS; lia|]. split; [reflexivity|]. left. auto.
  - destruct (sts s0 n) as [b0 al] eqn:S0. pose proof (next_spec b0 al) as N. destruct (next_step d1 d2 im ker m nvar0 b0 al) as [[sc|] d].
    2:{ destruct N as [N _]. injection E as <- <- <- <-. exists n. cbv zeta. rewrite S0. split; [lia|]. split; [auto|]. split; [intros; apply CS; lia|].
        right. split; [intros; apply CS; lia|]. split; [reflexivity|]. right; right; left. repeat split; auto; lia. }
    destruct N as [[RG ->] ND]. destruct (Rltb _ tol && Rltb 0 _) eqn:T.
    { injection E as <- <- <- <-. apply andb_true_iff in T as [T1 T2]. apply Rltb_true in T1, T2. exists n. cbv zeta. rewrite S0. split; [lia|]. split; [auto|]. split; [intros; apply CS; lia|].
      right. split; [intros; apply CS; lia|]. split; [reflexivity|]. right; left. split; [lia|]. split; [reflexivity|]. split; [exact RG|]. auto. }
    assert (NT : ~ 0 < esc (b0, al) < tol). { intros [A B]. apply andb_false_iff in T as [T|T]; apply Rltb_false in T; [exact (Rlt_not_le _ _ B T) | exact (Rlt_not_le _ _ A T)]. }
    destruct (Rltb 10000000000 _ || negb (Rltb 0 _)) eqn:D.
    { injection E as <- <- <- <-. exists n. cbv zeta. rewrite S0. split; [lia|]. split; [auto|]. split; [intros; apply CS; lia|].
      right. split; [intros; apply CS; lia|]. split; [reflexivity|]. right; right; right. split; [lia|]. split; [auto|]. split; [auto|]. split; [|auto].
      apply orb_true_iff in D as [D|D]; [right; apply Rltb_true; auto|left]. apply negb_true_iff, Rltb_false in D. auto. }
    apply orb_false_iff in D as [D1 D2]. apply negb_false_iff in D2. apply Rltb_false in D1. apply Rltb_true in D2.
    assert (GN : going (b0, al)). { split; [exact RG|]. split; [|exact D2]. split; [|exact D1]. destruct (Rlt_le_dec (esc (b0, al)) tol); [exfalso; apply NT; auto | auto]. }
    assert (GO' : forall j, (j < S n)%nat -> going (sts s0 j)). { intros j J. destruct (Nat.eq_dec j n) as [-> |]; [rewrite S0; auto | apply GO; lia]. }
    destruct d as [[db da]|].
    + destruct ND as [CN ST]. apply (IH (S n)) in E; auto; try lia.
      * cbn [entropy_states]. rewrite S0. symmetry. exact ST.
      * intros j J. destruct (Nat.eq_dec j n) as [-> |]; [rewrite S0; auto | apply CS; lia].
      * intros _. replace (S n - 1)%nat with n by lia. rewrite S0. reflexivity.
    + assert (NC : ~ can_step d1 d2 im ker (sts s0 (S n - 1))) by (replace (S n - 1)%nat with n by lia; rewrite S0; auto).
      assert (VE : Some (esc (b0, al)) = Some (esc (sts s0 (S n - 1)))) by (replace (S n - 1)%nat with n by lia; rewrite S0; auto).
      destruct r as [|r]; cbn [maxent_loop option_map] in E; injection E as <- <- <- <-; exists (S n); cbv zeta;
        (split; [lia|]; split; [auto|]; split; [intros; apply CS; lia|]); left; (split; [lia|]; split; [auto|]; split; [auto|]).
      * left. repeat split; auto; lia.
      * right. repeat split; auto; lia.
Qed.
End MaxentRun.
Theorem C40_maxent_run var0 mdl gain tol maxiter lower upper b i : (mdl = None -> sum2 d1 d2 ker <> 0) ->
  maxent d1 d2 im ker var0 mdl gain tol maxiter lower upper = Ok (b, i) ->
  (0 < maxiter)%nat /\ run_result (first_model mdl) (INR (d1 * d2) * var0) gain tol lower upper (first_model mdl, 0) maxiter b (m_term i) (m_score i) (m_iter i).
Proof.
  intros H E. unfold maxent in E. destruct maxiter as [|k]; [discriminate|]. split; [lia|]. cbv zeta in E.
  set (s0 := match mdl with Some m => Some m | None => _ end) in E.
  assert (S0 : s0 = Some (first_model mdl)).
  { unfold s0, first_model. destruct mdl; [reflexivity|]. clear E s0. specialize (H eq_refl). rewrite <- isum_sum2 in H. rewrite <- isum_sum2, <- average_mean. destruct (Req_EM_T _ 0) as [Z|Z]; [contradiction | reflexivity]. }
  clearbody s0. subst s0. cbn [option_map] in E.
  destruct (maxent_loop _ _ _ _ _ _ _ _ _ _ _ _ _ _) as [[[b' e] sc] n'] eqn:L. injection E as <- <-. cbn [m_term m_score m_iter].
  apply (loop_run _ _ _ _ _ _ (first_model mdl, 0) (S k) 0) in L; auto; lia.
Qed.

(* ---- maxent_findvar ---- *)
Theorem C40_findvar_none fuel mdl gain tol maxiter lower upper ok : maxent_findvar d1 d2 im ker fuel None mdl gain tol maxiter lower upper ok = Some Err.
Proof. auto. Qed.
(* the result is that of a successful maxent, for the variance given or one the search has come to: the
   ranges widen by 1.5 each way, and are gone through in steps of a factor 1.2^(1/2), 1.2^(1/4), ... *)
Lemma pow_pos15 n : 0 < 1.5 ^ n.
Proof. apply pow_lt. lra. Qed.
Lemma search_in_v var gain tol lower upper mdl maxiter ok fuel cnt c i : forall v, var / 1.5 ^ cnt <= v -> (0 < var -> 0 < v) ->
  search_in d1 d2 im ker var gain tol lower upper mdl maxiter ok fuel cnt v = Some (Ok (Some (c, i))) -> 0 < v ->
  exists w, v <= w < var * 1.5 ^ cnt /\ (exists k, w = v * Rpower 1.2 (1 / (2 * INR (cnt + 1))) ^ k) /\ maxent d1 d2 im ker w mdl gain tol maxiter lower upper = Ok (c, i) /\ accepted ok i = true.
Proof.
  induction fuel as [|fuel IH]; intros v V P E VP; cbn [search_in] in E; [discriminate|]. destruct (Rltb v _) eqn:L; [|discriminate]. apply Rltb_true in L.
  destruct (maxent _ _ _ _ v _ _ _ _ _ _) as [[c' i']|] eqn:M; [|discriminate]. destruct (accepted ok i') eqn:A.
  - assert (c' = c /\ i' = i) as [<- <-] by (split; congruence). exists v. split; [lra|]. split; [exists 0%nat; cbn [pow]; lra | auto].
  - assert (G : v <= v * Rpower 1.2 (1 / (2 * INR (cnt + 1)))).
    { rewrite <- (Rmult_1_r v) at 1. apply Rmult_le_compat_l; [lra|]. apply Rle_trans with (Rpower 1.2 0); [rewrite Rpower_O; lra|]. apply Rle_Rpower; [lra|].
      apply Rlt_le, Rdiv_lt_0_compat; [lra|]. apply Rmult_lt_0_compat; [lra|]. apply lt_0_INR. lia. }
    destruct (IH _ (Rle_trans _ _ _ V G) (fun _ => Rlt_le_trans _ _ _ VP G) E (Rlt_le_trans _ _ _ VP G)) as (w & W & (k & K) & X). exists w. split; [lra|]. split; [|auto]. exists (S k). rewrite K. cbn [pow]. lra.
Qed.
Theorem C40_findvar fuel var mdl gain tol maxiter lower upper ok c i :
  maxent_findvar d1 d2 im ker fuel (Some var) mdl gain tol maxiter lower upper ok = Some (Ok (c, i)) ->
  exists v, maxent d1 d2 im ker v mdl gain tol maxiter lower upper = Ok (c, i) /\ m_success i = true /\ (ok = true \/ m_term i = ETol) /\
    (v = var \/ (0 < var /\ exists n k : nat, (n <= fuel)%nat /\ v = var / 1.5 ^ n * Rpower 1.2 (1 / (2 * INR (n + 1))) ^ k /\ var / 1.5 ^ n <= v < var * 1.5 ^ n)).
Proof.
  assert (ACC : forall i, accepted ok i = true -> m_success i = true /\ (ok = true \/ m_term i = ETol)).
  { intros j A. unfold accepted in A. apply andb_true_iff in A as [A1 A2]. split; auto. apply orb_true_iff in A2 as [A2|A2]; auto. right. destruct (m_term j); auto; discriminate. }
  unfold maxent_findvar. destruct (maxent _ _ _ _ var _ _ _ _ _ _) as [[c' i']|] eqn:M; [|discriminate]. destruct (accepted ok i') eqn:A.
  - intros E. assert (c' = c /\ i' = i) as [<- <-] by (split; congruence). exists var. apply ACC in A as [A1 A2]. repeat split; auto.
  - assert (G : forall f cnt, search_out d1 d2 im ker var gain tol lower upper mdl maxiter ok f cnt = Some (Ok (c, i)) ->
      exists v n, maxent d1 d2 im ker v mdl gain tol maxiter lower upper = Ok (c, i) /\ accepted ok i = true /\ 0 < var /\ (n < cnt + f)%nat /\ (exists k, v = var / 1.5 ^ n * Rpower 1.2 (1 / (2 * INR (n + 1))) ^ k) /\ var / 1.5 ^ n <= v < var * 1.5 ^ n).
    { induction f as [|f IH]; intros cnt E; cbn [search_out] in E; [discriminate|].
      destruct (search_in _ _ _ _ _ _ _ _ _ _ _ _ (S f) cnt _) as [[[[c2 i2]|]|]|] eqn:S; try discriminate.
      - assert (c2 = c /\ i2 = i) as [-> ->] by (split; congruence).
        assert (VP : 0 < var).
        { cbn [search_in] in S. destruct (Rltb _ _) eqn:L; [|discriminate]. apply Rltb_true in L. destruct (Rlt_le_dec 0 var) as [|N]; auto. exfalso.
          assert (1 <= 1.5 ^ cnt) by (apply pow_R1_Rle; lra). assert (/ 1.5 ^ cnt <= 1) by (rewrite <- Rinv_1; apply Rinv_le_contravar; lra).
          assert (var <= var / 1.5 ^ cnt). { unfold Rdiv. nra. } nra. }
        assert (V0 : 0 < var / 1.5 ^ cnt) by (apply Rdiv_lt_0_compat; auto; apply pow_pos15).
        destruct (search_in_v _ _ _ _ _ _ _ _ _ _ _ _ _ (Rle_refl _) (fun _ => V0) S V0) as (w & W & WK & X & Y).
        exists w, cnt. split; [auto|]. split; [auto|]. split; [auto|]. split; [lia|]. split; [exact WK|lra].
      - apply IH in E as (v & n & X & Y & Z & W & WK & U). exists v, n. split; [auto|]. split; [auto|]. split; [auto|]. split; [lia|]. split; [exact WK|lra]. }
    intros E. apply G in E as (v & n & X & Y & Z & W & (k & WK) & U). exists v. apply ACC in Y as [Y1 Y2]. split; auto. split; auto. split; auto. right. split; auto. exists n, k. split; [lia|auto].
Qed.
End Props.
