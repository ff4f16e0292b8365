(* C29, C30: what sim_cache keeps, and what sim uses. *)
From Coq Require Import Reals Lra String.
From Verif Require Import Base CleanModel ImgModel GeoModel GeoSpec GeoProofs ArrModel ArrSpec ArrProofs ArrProofs2 ArrProofs3 ArrProps ArrProps2 ArrProofs5 ArrProofs6 ArrProofs7.
Ltac Zify.zify_post_hook ::= idtac.
Open Scope R_scope.
Local Notation length := List.length.
(* sim_cache keeps the sources that are up, in order, every option with its source; if none is, nothing; and
   changes nothing else. *)
Theorem C30_kept : forall r m qs eqs jys mf ion shp, r_eq2top r = Some m -> given eqs jys mf ion shp qs ->
  exists c, sim_cache r eqs jys mf ion shp = (with_cache r c, Val tt) /\
  (filter (is_up m) qs = [] -> c = CDict None []) /\
  (filter (is_up m) qs <> [] -> exists s, c = CDict (Some s) [] /\ holds m s (filter (is_up m) qs)).
Proof.
  intros r m qs eqs jys mf ion shp E G. destruct (sim_cache_given r m qs eqs jys mf ion shp E G) as [c [A B]]. exists c. split; auto.
  destruct (filter (is_up m) qs); split; intros; auto; congruence.
Qed.
(* up: at a positive altitude *)
Theorem C30_up : forall m q, is_up m q = true <-> mv m (q_v q) <> (0, 0, 0) /\ 0 < snd (top2azalt (mv m (q_v q))).
Proof. apply up_altitude. Qed.
(* the coordinates used are those at the time set by the last set_jultime, at the place of the array *)
Theorem C30_time : forall sid j1 lat t0 bs ants before t mid, without is_time mid ->
  r_eq2top (run sid j1 (before ++ OTime t :: mid) (new_arr lat t0 bs ants)) = Some (eq2top_m (- sid t) lat).
Proof. intros. apply eq2top_run. auto. Qed.
(* a call that raises changes nothing *)
Theorem C30_failed : forall r eqs jys mf ion shp e, snd (sim_cache r eqs jys mf ion shp) = Exc e -> fst (sim_cache r eqs jys mf ion shp) = r.
Proof.
  intros r eqs jys mf [d1 d2] [[a1 a2] th] e. unfold sim_cache. destruct (r_eq2top r); auto. cbv zeta. destruct (forallb _ _); [discriminate|]. destruct (obind _ _); [discriminate|auto].
Qed.
Lemma compress_short {A} c (l : list A) k : nth_error c k = Some true -> (length l <= k)%nat -> compress c l = Exc IndexError.
Proof.
  revert l k. induction c as [|b c IH]; intros l k E L; [destruct k; discriminate|]. destruct k; cbn [nth_error] in E.
  - injection E as ->. destruct l; cbn in *; [auto|lia].
  - destruct b, l as [|x l]; cbn [compress] in *; auto; try (apply (IH _ k); auto; cbn in *; lia). rewrite (IH l k); auto. cbn in L. lia.
Qed.
(* Fewer flux rows than sources: refused when a source without one is up. *)
Theorem C30_short : forall r m eqs jys mf ion shp k v, r_eq2top r = Some m -> nth_error eqs k = Some v -> 0 < third (mv m v) -> (length jys <= k)%nat ->
  sim_cache r eqs jys mf ion shp = (r, Exc IndexError).
Proof.
  intros r m eqs jys mf [d1 d2] [[a1 a2] th] k v E N U L. unfold sim_cache. rewrite E. cbv zeta.
  assert (Q : nth_error (map (fun t => Rltb 0 (third t)) (map (mv m) eqs)) k = Some true).
  { rewrite map_map. rewrite (map_nth_error _ _ _ N). unfold Rltb. destruct (Rlt_dec 0 _); [auto|contradiction]. }
  replace (forallb negb _) with false.
  2:{ symmetry. apply Bool.not_true_is_false. intros Z. rewrite forallb_forall in Z. apply nth_error_In in Q. apply Z in Q. discriminate. }
  rewrite (compress_short _ _ _ Q L). auto.
Qed.
(* Finding: surplus flux rows go unnoticed. *)
Theorem C30_surplus_refuted : exists r eqs jys mf ion shp, (length eqs < length jys)%nat /\ snd (sim_cache r eqs jys mf ion shp) = Val tt /\
  r_cache (fst (sim_cache r eqs jys mf ion shp)) <> CDict None [].
Proof.
  exists two, [(1, 0, 0)], [[1]; [2]], (Sc 0), (Sc 0, Sc 0), (Sc 0, Sc 0, Sc 0). split; [cbn; lia|].
  assert (U : Rltb 0 (third (mv (eq2top_m (- lst (fun _ => 0) (set_ephemtime (fun _ => 0) (new_arr 0 0 [unit_beam] two_ants) 0)) 0) (1, 0, 0))) = true).
  { unfold Rltb. destruct (Rlt_dec _ _) as [|n]; auto. exfalso. apply n. unfold lst. cbn. rewrite Ropp_0, sin_0, cos_0. lra. }
  unfold sim_cache. cbn [two set_jultime r_eq2top r_lat set_ephemtime new_arr]. cbn [map]. rewrite U. cbn [forallb negb andb compress obind compress_sa]. split; [reflexivity|discriminate].
Qed.
Lemma arr_same a b : (r_beams a, r_ants a, r_lat a, r_date a, r_eq2zen a, r_eq2now a, r_eq2top a, r_pol a) = (r_beams b, r_ants b, r_lat b, r_date b, r_eq2zen b, r_eq2now b, r_eq2top b, r_pol b) ->
  a = with_cache b (r_cache a).
Proof. destruct a, b. unfold with_cache. cbn. congruence. Qed.
(* C29. Before any time is set: AttributeError. *)
Section Sky.
Variable sid j1 : R -> R.
Theorem C29_no_time : forall lat t0 bs ants ops i j, let r := run sid j1 ops (new_arr lat t0 bs ants) in
  without is_time ops -> sim sid j1 r i j = (r, Exc AttributeError).
Proof. intros lat t0 bs ants ops i j r W. destruct (unset_run sid j1 ops W (new_arr lat t0 bs ants) eq_refl eq_refl) as [E _]. unfold sim. fold r in E. rewrite E. auto. Qed.
(* Since the time was set, no sim_cache: RuntimeError. *)
Theorem C29_no_cache : forall lat t0 bs ants before t after i j, let r := run sid j1 (before ++ OTime t :: after) (new_arr lat t0 bs ants) in
  without is_time after -> without is_cache after -> sim sid j1 r i j = (r, Exc RuntimeError).
Proof.
  intros lat t0 bs ants before t after i j r W1 W2. assert (E : r_cache r = CNone). { unfold r. rewrite run_app, run_cons. apply (moved_run sid j1); auto. }
  unfold sim. rewrite E. auto.
Qed.
(* No source was up: zeros, one for each active frequency. *)
Theorem C29_none_up : forall lat t0 bs ants before t mid eqs jys mf ion shp qs after fs i j,
  let r := run sid j1 (before ++ OTime t :: mid ++ OCache eqs jys mf ion shp :: after) (new_arr lat t0 bs ants) in
  without is_time mid -> without is_time after -> without is_cache after -> without is_response after ->
  given eqs jys mf ion shp qs -> filter (is_up (eq2top_m (- sid t) lat)) qs = [] ->
  in_step r fs -> (i < length (r_ants r))%nat -> (j < length (r_ants r))%nat ->
  sim sid j1 r i j = (r, Val (map (fun _ => (0, 0)) fs)).
Proof.
  intros lat t0 bs ants before t mid eqs jys mf ion shp qs after fs i j r W1 W2 W3 W4 G N I A B.
  assert (E : r_cache r = CDict None []).
  { unfold r. replace (before ++ OTime t :: mid ++ OCache eqs jys mf ion shp :: after) with ((before ++ OTime t :: mid) ++ OCache eqs jys mf ion shp :: after) by (rewrite <- app_assoc; auto).
    rewrite run_app, run_cons. apply (none_run sid j1); auto. cbn [step].
    destruct (C30_kept _ _ qs eqs jys mf ion shp (eq2top_run sid j1 lat t0 bs ants before t mid W1) G) as [c [Q [Z _]]]. rewrite Q. cbn [fst with_cache r_cache]. auto. }
  unfold sim. rewrite E. rewrite (passband_step r fs) by auto. cbn [obind]. rewrite map_map. auto.
Qed.
(* Sources were up: the sum over them, as they were given and as seen at that time. *)
Theorem C29_sources : forall lat t0 bs ants ops t qs fs i j p1 p2, let r := run sid j1 ops (new_arr lat t0 bs ants) in
  let m := eq2top_m (- sid t) lat in let ups := filter (is_up m) qs in
  sees ops t qs -> in_step r fs -> (i < length (r_ants r))%nat -> (j < length (r_ants r))%nat -> r_pol r = Some (p1, p2) ->
  ups <> [] -> (forall q, In q ups -> length (q_jys q) = length fs) ->
  exists vis, snd (sim sid j1 r i j) = Val vis /\ length vis = length fs /\
  forall k, (k < length fs)%nat -> nth k vis (0, 0) = visibility sid j1 r m p1 p2 i j ups fs k.
Proof.
  intros lat t0 bs ants ops t qs fs i j p1 p2 r m ups S I A B P N J.
  destruct S as [before [mid [eqs [jys [mf [ion [shp [a1 [a2 [-> [G [W1 [W2 [W3 W4]]]]]]]]]]]]]].
  unfold without in W1, W2. rewrite !Forall_app in W1. rewrite Forall_app in W2. destruct W1 as [T0 [T1 T2]], W2 as [C1 C2].
  destruct (C30_kept _ _ qs eqs jys mf ion shp (eq2top_run sid j1 lat t0 bs ants before t mid T0) G) as [c [Q [_ Z]]]. destruct (Z N) as [s [-> H]].
  assert (F : fresh s r).
  { unfold r. replace (before ++ OTime t :: mid ++ OCache eqs jys mf ion shp :: a1 ++ a2) with ((before ++ OTime t :: mid) ++ OCache eqs jys mf ion shp :: a1 ++ a2) by (rewrite <- app_assoc; auto).
    rewrite run_app, run_cons, run_app. apply (fresh_run2 sid j1); auto. exists []. split.
    - apply (fresh_run1 sid j1); auto. cbn [step]. rewrite Q. auto.
    - intros c e p x Y. discriminate. }
  destruct F as [bm [E Bo]]. destruct (sim_formula sid j1 r fs s bm m ups i j p1 p2 I A B P E Bo H N J) as [vis [bm' [X [_ [L V]]]]].
  exists vis. rewrite X. auto.
Qed.
(* ... refused if the fluxes of one of them are not one for each active frequency *)
Theorem C29_flux_width : forall lat t0 bs ants ops t qs fs i j p1 p2, let r := run sid j1 ops (new_arr lat t0 bs ants) in
  let m := eq2top_m (- sid t) lat in let ups := filter (is_up m) qs in
  sees ops t qs -> in_step r fs -> (i < length (r_ants r))%nat -> (j < length (r_ants r))%nat -> r_pol r = Some (p1, p2) ->
  (exists q, In q ups /\ length (q_jys q) <> length fs) -> snd (sim sid j1 r i j) = Exc ValueError.
Proof.
  intros lat t0 bs ants ops t qs fs i j p1 p2 r m ups S I A B P J. assert (N : ups <> []) by (destruct J as (q & I0 & _) ; intros Z; rewrite Z in I0; destruct I0).
  destruct S as [before [mid [eqs [jys [mf [ion [shp [a1 [a2 [-> [G [W1 [W2 [W3 W4]]]]]]]]]]]]]].
  unfold without in W1, W2. rewrite !Forall_app in W1. rewrite Forall_app in W2. destruct W1 as [T0 [T1 T2]], W2 as [C1 C2].
  destruct (C30_kept _ _ qs eqs jys mf ion shp (eq2top_run sid j1 lat t0 bs ants before t mid T0) G) as [c [Q [_ Z]]]. destruct (Z N) as [s [-> H]].
  assert (F : fresh s r).
  { unfold r. replace (before ++ OTime t :: mid ++ OCache eqs jys mf ion shp :: a1 ++ a2) with ((before ++ OTime t :: mid) ++ OCache eqs jys mf ion shp :: a1 ++ a2) by (rewrite <- app_assoc; auto).
    rewrite run_app, run_cons, run_app. apply (fresh_run2 sid j1); auto. exists []. split.
    - apply (fresh_run1 sid j1); auto. cbn [step]. rewrite Q. auto.
    - intros c e p x Y. discriminate. }
  destruct F as [bm [E Bo]]. eapply (sim_width sid j1 r fs s bm m ups); eauto.
Qed.
(* baselines and phases in that sum are those of the same time, unless set_ephemtime was called *)
Theorem C29_same_time : forall lat t0 bs ants before t rest, without is_time rest -> without is_ephem rest ->
  lst sid (run sid j1 (before ++ OTime t :: rest) (new_arr lat t0 bs ants)) = sid t.
Proof. intros. unfold lst. rewrite date_run; auto. Qed.
(* sim and bm_response change nothing but the tables of responses *)
Theorem C29_sim_keeps : forall r i j, (exists c, fst (sim sid j1 r i j) = with_cache r c) /\ (exists c, fst (bm_response r i j) = with_cache r c).
Proof.
  intros r i j. set (p := fun r => (r_beams r, r_ants r, r_lat r, r_date r, r_eq2zen r, r_eq2now r, r_eq2top r, r_pol r)).
  split; eexists; apply arr_same; [apply (sim_keeps sid p)|apply (bm_response_keeps p)]; reflexivity.
Qed.
(* bm_response without sources: TypeError when none were cached since the time was set *)
Theorem C29_response : forall lat t0 bs ants before t after i j p, let r := run sid j1 (before ++ OTime t :: after) (new_arr lat t0 bs ants) in
  without is_time after -> without is_cache after -> r_pol r = Some p -> bm_response r i j = (r, Exc TypeError).
Proof.
  intros lat t0 bs ants before t after i j [p1 p2] r W1 W2 P. assert (E : r_cache r = CNone). { unfold r. rewrite run_app, run_cons. apply (moved_run sid j1); auto. }
  unfold bm_response. rewrite P. unfold bm_fill at 1. rewrite E. auto.
Qed.
End Sky.
(* Finding: asking for responses when no source is up makes sim raise KeyError instead of giving zeros. *)
Definition low := OCache [(-1, 0, 0)] [[1]] (Sc 0) (Sc 0, Sc 0) (Sc 0, Sc 0, Sc 0).
Definition high := OCache [(1, 0, 0)] [[1]] (Sc 0) (Sc 0, Sc 0) (Sc 0, Sc 0, Sc 0).
Definition src_of (v : vec) : source := {| q_v := v; q_jys := [1]; q_mf := 0; q_dra := 0; q_ddec := 0; q_a1 := 0; q_a2 := 0; q_th := 0 |}.
Lemma given_of v : given [v] [[1]] (Sc 0) (Sc 0, Sc 0) (Sc 0, Sc 0, Sc 0) [src_of v].
Proof. unfold given. cbn. tauto. Qed.
Lemma src_up x t : sin t = 0 -> cos t = 1 -> is_up (eq2top_m (- t) 0) (src_of (x, 0, 0)) = Rltb 0 x.
Proof. intros S Co. unfold is_up. f_equal. cbn. rewrite cos_neg, Co, cos_0. ring. Qed.
Lemma src_up0 x : is_up (eq2top_m (- 0) 0) (src_of (x, 0, 0)) = Rltb 0 x.
Proof. apply src_up; [apply sin_0|apply cos_0]. Qed.
Theorem C29_response_refuted : exists sid j1 lat t0 bs ants before t mid eqs jys mf ion shp qs after i j,
  let r := run sid j1 (before ++ OTime t :: mid ++ OCache eqs jys mf ion shp :: after) (new_arr lat t0 bs ants) in
  without is_time mid /\ without is_time after /\ without is_cache after /\ given eqs jys mf ion shp qs /\ filter (is_up (eq2top_m (- sid t) lat)) qs = [] /\
  snd (sim sid j1 r i j) = Exc KeyError.
Proof.
  exists (fun _ => 0), (fun _ => 0), 0, 0, [unit_beam], two_ants, [], 0, [OPol (Some (PX, PX))], [(-1, 0, 0)], [[1]], (Sc 0), (Sc 0, Sc 0), (Sc 0, Sc 0, Sc 0), [src_of (-1, 0, 0)], [OResponse 0 1], 0%nat, 1%nat.
  cbv zeta. split; [repeat constructor|]. split; [repeat constructor|]. split; [repeat constructor|]. split; [apply given_of|].
  assert (N : filter (is_up (eq2top_m (- 0) 0)) [src_of (-1, 0, 0)] = []). { cbn [filter]. rewrite src_up0. unfold Rltb. destruct (Rlt_dec 0 (-1)); [lra|auto]. }
  split; [exact N|]. cbn [app]. rewrite 2!run_cons. set (r := step _ _ (step _ _ _ _) _). rewrite run_cons.
  destruct (C30_kept r (eq2top_m (- 0) 0) _ _ _ _ _ _ eq_refl (given_of (-1, 0, 0))) as [c [E [Z _]]]. rewrite (Z N) in E.
  cbn [step]. match goal with |- context [sim_cache r ?a ?b ?c0 ?d ?e] => replace (sim_cache r a b c0 d e) with (with_cache r (CDict None []), Val tt) by (symmetry; exact E) end. reflexivity.
Qed.
Example C29_case : sees [OPol (Some (PX, PX)); OTime 0; high; OSim 0 1] 0 [src_of (1, 0, 0)] /\ filter (is_up (eq2top_m (- 0) 0)) [src_of (1, 0, 0)] <> [] /\
  in_step (run (fun _ => 0) (fun _ => 0) [OPol (Some (PX, PX)); OTime 0] (new_arr 0 0 [unit_beam] two_ants)) [1].
Proof.
  split; [|split].
  - exists [OPol (Some (PX, PX))], [], [(1, 0, 0)], [[1]], (Sc 0), (Sc 0, Sc 0), (Sc 0, Sc 0, Sc 0), [], [OSim 0 1]. split; [reflexivity|]. split; [apply given_of|]. repeat split; repeat constructor.
  - cbn [filter]. rewrite src_up0. unfold Rltb. destruct (Rlt_dec 0 1); [discriminate|lra].
  - apply two_in_step.
Qed.
(* two fluxes, one frequency *)
Definition wide : source := {| q_v := (1, 0, 0); q_jys := [1; 2]; q_mf := 0; q_dra := 0; q_ddec := 0; q_a1 := 0; q_a2 := 0; q_th := 0 |}.
Example C29_flux_width_case : let ops := [OPol (Some (PX, PX)); OTime 0; OCache [(1, 0, 0)] [[1; 2]] (Sc 0) (Sc 0, Sc 0) (Sc 0, Sc 0, Sc 0)] in
  snd (sim (fun _ => 0) (fun _ => 0) (run (fun _ => 0) (fun _ => 0) ops (new_arr 0 0 [unit_beam] two_ants)) 0 1) = Exc ValueError.
Proof.
  intros ops.
  assert (G : given [(1, 0, 0)] [[1; 2]] (Sc 0) (Sc 0, Sc 0) (Sc 0, Sc 0, Sc 0) [wide]) by (unfold given; cbn; tauto).
  assert (U : is_up (eq2top_m (- 0) 0) wide = true). { change (is_up (eq2top_m (- 0) 0) (src_of (1, 0, 0)) = true). rewrite src_up0. unfold Rltb. destruct (Rlt_dec 0 1); [auto|lra]. }
  assert (C : exists c, run (fun _ => 0) (fun _ => 0) ops (new_arr 0 0 [unit_beam] two_ants) = with_cache (run (fun _ => 0) (fun _ => 0) [OPol (Some (PX, PX)); OTime 0] (new_arr 0 0 [unit_beam] two_ants)) c).
  { change ops with ([OPol (Some (PX, PX)); OTime 0] ++ [OCache [(1, 0, 0)] [[1; 2]] (Sc 0) (Sc 0, Sc 0) (Sc 0, Sc 0, Sc 0)]). rewrite run_app. set (r := run _ _ [_; _] _).
    destruct (C30_kept r (eq2top_m (- 0) 0) _ _ _ _ _ _ eq_refl G) as [c [E _]]. exists c. rewrite run_cons. cbn [step]. rewrite E. reflexivity. }
  destruct C as [c C].
  apply (C29_flux_width _ _ 0 0 [unit_beam] two_ants ops 0 [wide] [1] 0 1 PX PX).
  - exists [OPol (Some (PX, PX))], [], [(1, 0, 0)], [[1; 2]], (Sc 0), (Sc 0, Sc 0), (Sc 0, Sc 0, Sc 0), [], []. split; [reflexivity|]. split; [exact G|]. repeat split; repeat constructor.
  - rewrite C. apply two_in_step.
  - rewrite C. cbn. lia.
  - rewrite C. cbn. lia.
  - rewrite C. reflexivity.
  - exists wide. split; [cbn [filter]; rewrite U; left; auto|cbn; lia].
Qed.
Print Assumptions C30_kept. Print Assumptions C30_up. Print Assumptions C30_time. Print Assumptions C30_failed. Print Assumptions C30_short. Print Assumptions C30_surplus_refuted.
Print Assumptions C29_no_time. Print Assumptions C29_no_cache. Print Assumptions C29_none_up. Print Assumptions C29_sources. Print Assumptions C29_flux_width. Print Assumptions C29_same_time.
Print Assumptions C29_sim_keeps. Print Assumptions C29_response. Print Assumptions C29_response_refuted.
