(* C40: cases meeting the hypotheses, and what the fits do not promise. One pixel, kernel 1. *)
From Coq Require Import Reals Lra FunctionalExtensionality.
From Verif Require Import Base CleanModel CleanSpec FitModel FitSpec FitProofs FitProps.
Ltac Zify.zify_post_hook ::= idtac.
Open Scope R_scope.

Definition flat (v : R) : image := fun _ => v.
Lemma sum11 f : sum2 1 1 f = f (0, 0)%nat.
Proof. unfold sum2. cbn. lra. Qed.
Lemma mean11 f : mean 1 1 f = f (0, 0)%nat.
Proof. unfold mean. rewrite sum11. cbn. lra. Qed.
Lemma isum11 f : isum 1 1 f = f (0, 0)%nat.
Proof. rewrite isum_sum2. apply sum11. Qed.
Lemma conv11 x p : conv2 1 1 (flat 1) x p = x (0, 0)%nat.
Proof. unfold conv2, flat. cbn. lra. Qed.
Lemma misfit11 v x p : misfit 1 1 (flat v) (flat 1) x p = v - x (0, 0)%nat.
Proof. unfold misfit. rewrite conv11. auto. Qed.
Lemma ker11 : ker_size 1 1 (flat 1) = 1.
Proof. unfold ker_size. rewrite sum11. unfold flat. replace (1 * 1) with 1 by lra. apply sqrt_1. Qed.
Lemma ker11_nz : ker_size 1 1 (flat 1) <> 0.
Proof. rewrite ker11. lra. Qed.
Lemma misfit_in11 v x : misfit_in 1 1 (flat v) (flat 1) (fun _ => 1%Z) x = (v - x (0, 0)%nat) * (v - x (0, 0)%nat).
Proof. unfold misfit_in. rewrite mean11, misfit11. lra. Qed.
Lemma misfit2_11 v x : misfit2 1 1 (flat v) (flat 1) x = (v - x (0, 0)%nat) * (v - x (0, 0)%nat).
Proof. unfold misfit2. rewrite mean11, misfit11. lra. Qed.

(* lsq on one pixel of value 1, one iteration: the model is 0.05 *)
Lemma lsq_one : exists x i, lsq 1 1 (flat 1) (flat 1) None None 0.1 0.001 1 0 None = Ok (x, i) /\ x (0, 0)%nat = 0.05 /\ i_score i = 1 /\ i_term i = EMaxiter.
Proof.
  unfold lsq. cbv zeta. cbn [lsq_loop].
  pose proof (turn_some 1 1 (flat 1) (flat 1) (fun _ => 1%Z) 0.1 0.001 0 None (fun _ => 0) ker11_nz 0 0) as T. cbn [steps] in T.
  match goal with |- context [match ?t with Some _ => _ | None => _ end] => replace t with
    (Some ((fun p => bounded 0 None ((fun _ => 0) p + 0.1 * (1 * misfit 1 1 (flat 1) (flat 1) (fun _ => 0) p / (2 * ker_size 1 1 (flat 1))))), 1)) end.
  - eexists _, _. split; [reflexivity|]. cbn [i_score i_term]. split; [|auto]. rewrite misfit11, ker11. unfold bounded, Rmax. destruct (Rle_dec _ _); lra.
  - symmetry. etransitivity; [exact T|]. clear T. rewrite !misfit_in11. cbv beta. destruct (Req_EM_T _ 0) as [E|E]; [exfalso; revert E; clear; intros; nra|]. unfold Rltb. destruct (Rlt_dec _ _) as [L|L].
    + exfalso. replace (1 - 0 / _) with 1 in L by (unfold Rdiv; lra). rewrite Rabs_R1 in L. lra.
    + f_equal. f_equal. lra.
Qed.
Example C40_lsq_nonvacuous : exists x i, lsq 1 1 (flat 1) (flat 1) None None 0.1 0.001 1 0 None = Ok (x, i) /\ sensible 0 None /\ 0.001 <= 1 /\ x (0, 0)%nat <> 0.
Proof. destruct lsq_one as (x & i & E & X & _). exists x, i. split; auto. split; [exact Logic.I|]. rewrite X. lra. Qed.
(* the score reported by lsq is not that of the residual it returns *)
Theorem C40_lsq_score_refuted : ~ forall d1 d2 im ker gain tol maxiter lower upper x i, lsq d1 d2 im ker None None gain tol maxiter lower upper = Ok (x, i) ->
  i_score i = mean d1 d2 (fun p => i_res i p * i_res i p).
Proof.
  intros H. destruct lsq_one as (x & i & E & X & S & _). pose proof (H _ _ _ _ _ _ _ _ _ _ _ E) as F.
  pose proof (C40_lsq _ _ _ _ _ _ _ _ _ _ _ _ _ ker11_nz E) as (n & _ & R & _). rewrite S, mean11, R, misfit11, X in F. lra.
Qed.
(* with tol above 1 lsq returns the starting model, whatever the bounds *)
Theorem C40_lsq_bounds_refuted : ~ forall d1 d2 im ker mdl gain tol maxiter lower upper x i, sensible lower upper ->
  lsq d1 d2 im ker mdl None gain tol maxiter lower upper = Ok (x, i) -> forall p, within lower upper (x p).
Proof.
  intros H. assert (E : exists i, lsq 1 1 (flat 1) (flat 1) (Some (flat (-1))) None 0.1 2 1 0 None = Ok (flat (-1), i)).
  { unfold lsq. cbv zeta. cbn [lsq_loop].
    pose proof (turn_some 1 1 (flat 1) (flat 1) (fun _ => 1%Z) 0.1 2 0 None (flat (-1)) ker11_nz 0 0) as T. cbn [steps] in T.
    match goal with |- context [match ?t with Some _ => _ | None => _ end] => replace t with (@None (image * R)) end; [eauto|].
    symmetry. etransitivity; [exact T|]. clear T. rewrite !misfit_in11. unfold flat. destruct (Req_EM_T _ 0) as [E|E]; [exfalso; revert E; clear; intros; nra|]. unfold Rltb. destruct (Rlt_dec _ _) as [L|L]; auto.
    exfalso. apply L. replace (1 - 0 / _) with 1 by (unfold Rdiv; lra). rewrite Rabs_R1. lra. }
  destruct E as [i E]. specialize (H _ _ _ _ _ _ _ _ _ _ _ _ (Logic.I : sensible _ None) E (0, 0)%nat) as [H _]. unfold flat in H. lra.
Qed.

(* anneal on one pixel of value 1 from 0: a noise of 1/2 is taken up, one of 5 is not *)
Example C40_anneal_nonvacuous : exists x i x' i',
  let run := anneal 1 1 (flat 1) (flat 1) 0 None (fun n => match n with O => flat (1 / 2) | _ => flat 5 end) (fun _ _ => flat 1) None in
  run 1%nat = Ok (x, i) /\ run (1 + 1)%nat = Ok (x', i') /\ x (0, 0)%nat = 1 / 2 /\ x' (0, 0)%nat = 1 / 2 /\ i_score i' = 1 / 4.
Proof.
  cbv zeta. set (noise := fun n : nat => match n with O => flat (1 / 2) | _ => flat 5 end). set (cool := fun (_ : nat) (_ : image) => flat 1).
  pose proof (run_ok 1 1 (flat 1) (flat 1) 0 None noise cool None 0) as E. pose proof (run_ok 1 1 (flat 1) (flat 1) 0 None noise cool None 1) as E'.
  eexists _, _, _, _. split; [exact E|]. split; [exact E'|]. clear E E'. cbn [i_score].
  assert (X : state_after 1 1 (flat 1) (flat 1) 0 None noise cool (fun _ => 0) 1 (0, 0)%nat = 1 / 2).
  { cbn [state_after]. rewrite !misfit2_11. unfold try_model. unfold noise, cool, flat. unfold Rltb at 1. destruct (Rlt_dec _ _) as [L|L].
    - unfold clip, Rltb. destruct (Rlt_dec _ _); lra.
    - exfalso. apply L. unfold clip, Rltb. destruct (Rlt_dec _ _); lra. }
  assert (X' : state_after 1 1 (flat 1) (flat 1) 0 None noise cool (fun _ => 0) 2 (0, 0)%nat = 1 / 2).
  { change (state_after 1 1 (flat 1) (flat 1) 0 None noise cool (fun _ => 0) 2) with
      (let m := state_after 1 1 (flat 1) (flat 1) 0 None noise cool (fun _ => 0) 1 in let c := try_model 1 1 (flat 1) 0 None noise cool 1 m (residual 1 1 (flat 1) (flat 1) m) in
       if Rltb (misfit2 1 1 (flat 1) (flat 1) c) (misfit2 1 1 (flat 1) (flat 1) m) then c else m).
    set (m := state_after 1 1 (flat 1) (flat 1) 0 None noise cool (fun _ => 0) 1) in *. clearbody m. cbv zeta. rewrite !misfit2_11. unfold try_model. rewrite X. unfold noise, cool, flat.
    unfold Rltb at 1. destruct (Rlt_dec _ _) as [L|L]; auto. exfalso. revert L. unfold clip, Rltb. destruct (Rlt_dec _ _); lra. }
  split; [exact X|]. split; [exact X'|]. rewrite misfit2_11. change (start None) with (fun _ : nat * nat => 0). rewrite X'. lra.
Qed.
(* anneal can return a model outside the bounds: with no model given it starts from zeros, which
   the default lower bound (the smallest positive number) excludes *)
Theorem C40_anneal_bounds_refuted : ~ forall d1 d2 im ker lower upper noise cooling n x i, sensible lower upper ->
  anneal d1 d2 im ker lower upper noise cooling None n = Ok (x, i) -> forall p, within lower upper (x p).
Proof.
  intros H. pose proof (run_ok 1 1 (flat 0) (flat 1) 1 None (fun _ => flat 0) (fun _ _ => flat 0) None 0) as E.
  specialize (H _ _ _ _ _ _ _ _ _ _ _ (Logic.I : sensible _ None) E (0, 0)%nat). revert H. cbn [state_after]. rewrite !misfit2_11. change (start None) with (fun _ : nat * nat => 0). unfold Rltb.
  destruct (Rlt_dec _ _) as [L|L]; [exfalso; nra|]. intros [H _]. lra.
Qed.

(* maxent on one pixel that is already fitted *)
Lemma next11 c v : 0 < c -> next_step 1 1 (flat c) (flat 1) (flat c) v (flat c) 0 = (Some 1, None).
Proof.
  intros P. unfold next_step. cbv zeta. set (t := metric_of 1 1 (flat c) (flat 1) (flat c) v (flat c) 0).
  assert (G : g_chi2 t (0, 0)%nat = 0). { unfold t, metric_of. cbn [g_chi2]. unfold residual, convolved. rewrite conv11. unfold flat. lra. }
  assert (J : g_j t (0, 0)%nat = -1). { unfold t, metric_of. cbn [g_j]. unfold flat at 1 2. replace (c / c) with 1 by (field; lra). rewrite ln_1. lra. }
  assert (GG : gg_j t (0, 0)%nat = - 1 / c). { unfold t, metric_of. cbn [gg_j]. unfold flat at 1. lra. }
  assert (NZ : - 1 / c <> 0). { intros E. assert (X : - 1 / c * c = -1) by (field; lra). rewrite E in X. lra. }
  f_equal.
  - unfold score_of. replace (existsb (bad_pixel (flat c) t (flat c)) (pixels 1 1)) with false.
    + unfold dot. rewrite !isum11, GG, J. destruct (Req_EM_T _ 0) as [E|E].
      * exfalso. assert (X : 1 * 1 / - (- 1 / c) = c) by (field; lra). rewrite X in E. lra.
      * f_equal. field. lra.
    + unfold pixels. cbn -[bad_pixel]. unfold bad_pixel. rewrite GG. unfold flat. destruct (Req_EM_T c 0); [lra|]. destruct (Req_EM_T (-1 / c) 0); [contradiction|].
      unfold Rltb. destruct (Rlt_dec 0 (c / c)) as [|L]; auto. exfalso. apply L. replace (c / c) with 1 by (field; lra). lra.
  - unfold dot. rewrite isum11, G. destruct (Req_EM_T _ 0) as [E|E]; auto. exfalso. apply E. unfold Rdiv. lra.
Qed.
Lemma maxent11 tol lo : maxent 1 1 (flat 1) (flat 1) 0 (Some (flat 1)) 0.1 tol 1 lo None =
  if Rltb 1 tol then Ok (Some (flat 1), MInfo true ETol (Some (residual 1 1 (flat 1) (flat 1) (flat 1))) (Some 1) 1)
  else Ok (None, MInfo true EMaxiter None (Some 1) 1).
Proof.
  unfold maxent. cbv zeta. cbn [maxent_loop option_map]. rewrite next11 by lra. destruct (Rltb 1 tol) eqn:T.
  - replace (Rltb 0 1) with true by (symmetry; apply Rltb_true; lra). auto.
  - cbn [andb]. replace (Rltb 0 1) with true by (symmetry; apply Rltb_true; lra). replace (Rltb 10000000000 1) with false by (symmetry; apply Rltb_false; lra). auto.
Qed.
(* a perfect fit makes maxent divide by zero: the model returned is then not made of numbers,
   though success is reported *)
Theorem C40_maxent_finite_refuted : ~ forall d1 d2 im ker var0 mdl gain tol maxiter lower upper b i, sensible lower upper -> 0 < tol <= 0.001 ->
  maxent d1 d2 im ker var0 (Some mdl) gain tol maxiter lower upper = Ok (b, i) -> m_success i = true -> b <> None.
Proof.
  intros H. pose proof (maxent11 0.001 0) as E. unfold Rltb in E. destruct (Rlt_dec 1 0.001); [lra|].
  assert (T : 0 < 0.001 <= 0.001) by lra. apply (H _ _ _ _ _ _ _ _ _ _ _ _ _ (Logic.I : sensible 0 None) T E); auto.
Qed.
(* the starting model is not clipped: fitting at once, it is returned as it is *)
Theorem C40_maxent_bounds_refuted : ~ forall d1 d2 im ker var0 mdl gain tol maxiter lower upper x i, sensible lower upper ->
  maxent d1 d2 im ker var0 (Some mdl) gain tol maxiter lower upper = Ok (Some x, i) -> forall p, within lower upper (x p).
Proof.
  intros H. pose proof (maxent11 2 5) as E. unfold Rltb in E. destruct (Rlt_dec 1 2); [|lra].
  destruct (H _ _ _ _ _ _ _ _ _ _ _ _ _ (Logic.I : sensible _ None) E (0, 0)%nat) as [L _]. unfold flat in L. lra.
Qed.
Example C40_findvar_nonvacuous : exists c i, maxent_findvar 1 1 (flat 1) (flat 1) 3 (Some 0) (Some (flat 1)) 0.1 2 1 0 None false = Some (Ok (c, i)) /\ m_term i = ETol.
Proof.
  unfold maxent_findvar. rewrite maxent11. unfold Rltb. destruct (Rlt_dec 1 2); [|lra]. cbn. eauto.
Qed.
(* a step that is finite: pixel 2, model 1 *)
Example C40_maxent_step_nonvacuous : exists s db da, next_step 1 1 (flat 2) (flat 1) (flat 1) 0 (flat 1) 0 = (Some s, Some (db, da)).
Proof.
  unfold next_step. cbv zeta. set (t := metric_of 1 1 (flat 2) (flat 1) (flat 1) 0 (flat 1) 0).
  assert (Q : q 1 1 (flat 1) = 1) by (rewrite q_ker; apply ker11).
  assert (G : g_chi2 t (0, 0)%nat = -2). { unfold t, metric_of. cbn [g_chi2]. unfold residual, convolved. rewrite conv11, Q. unfold flat. lra. }
  assert (GG : gg_j t (0, 0)%nat = - 1). { unfold t, metric_of. cbn [gg_j]. unfold flat at 1. lra. }
  assert (B : existsb (bad_pixel (flat 1) t (flat 1)) (pixels 1 1) = false).
  { unfold pixels. cbn -[bad_pixel]. unfold bad_pixel. rewrite GG. unfold flat. destruct (Req_EM_T 1 0); [lra|]. destruct (Req_EM_T (-1) 0); [lra|].
    unfold Rltb. destruct (Rlt_dec 0 (1 / 1)) as [|L]; auto. exfalso. lra. }
  unfold score_of. rewrite B. unfold dot. rewrite !isum11, G, GG. destruct (Req_EM_T _ 0) as [E|E]; [exfalso; replace (1 * 1 / - -1) with 1 in E by field; lra|].
  destruct (Req_EM_T _ 0) as [E'|E']; [exfalso; replace (-2 * -2 / - -1) with 4 in E' by field; lra|]. eauto.
Qed.
Print Assumptions C40_lsq. Print Assumptions C40_lsq_bounds. Print Assumptions C40_lsq_outside. Print Assumptions C40_no_iteration.
Print Assumptions C40_anneal_report. Print Assumptions C40_anneal_first. Print Assumptions C40_anneal_turn. Print Assumptions C40_anneal_never_worse.
Print Assumptions C40_anneal_best. Print Assumptions C40_anneal_bounds. Print Assumptions C40_anneal_changed. Print Assumptions C40_maxent. Print Assumptions C40_maxent_run. Print Assumptions C40_maxent_step.
Print Assumptions C40_findvar. Print Assumptions C40_findvar_none. Print Assumptions C40_lsq_score_refuted. Print Assumptions C40_lsq_bounds_refuted.
Print Assumptions C40_anneal_bounds_refuted. Print Assumptions C40_maxent_finite_refuted. Print Assumptions C40_maxent_bounds_refuted.
