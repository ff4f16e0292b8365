From Coq Require Import Reals Lra String.
From Verif Require Import Base CleanModel ImgModel GeoModel GeoSpec GeoProofs ArrModel ArrSpec ArrProofs ArrProofs2 ArrProofs3 ArrProps ArrProofs5 ArrProofs6.
Ltac Zify.zify_post_hook ::= idtac.
Open Scope R_scope.
Local Notation length := List.length.
Lemma bm_fill_gen r s bm c p : r_cache r = CDict (Some s) bm -> bm_ok r s bm ->
  exists bm', fst (bm_fill r c p) = with_cache r (CDict (Some s) bm') /\ bm_ok r s bm'.
Proof.
  intros E B. destruct (ant_response r c (c_top s) p) as [x|e] eqn:X.
  - destruct (bm_fill_ok r s bm c p x E B X) as [bm' [H1 [H2 _]]]. exists bm'. rewrite H1. auto.
  - unfold bm_fill. rewrite E. set (bm1 := match find Nat.eqb bm c with None => _ | Some _ => _ end).
    assert (B1 : bm_ok r s bm1).
    { unfold bm1. destruct (find Nat.eqb bm c) eqn:F; auto. intros c' e' p' y. rewrite (find_store _ Nat.eqb_eq). destruct (Nat.eqb c' c); eauto. intros Z. injection Z as <-. discriminate. }
    exists bm1. split; auto. destruct (find xy_eqb _ p); auto. rewrite resp_cache, X. auto.
Qed.
Definition fresh (s : simc) (r : arr) : Prop := exists bm, r_cache r = CDict (Some s) bm /\ bm_ok r s bm.
Lemma response_fresh s r i j : fresh s r -> fresh s (fst (bm_response r i j)).
Proof.
  intros [bm [E B]]. unfold bm_response. destruct (r_pol r) as [[p1 p2]|]; [|exists bm; auto].
  destruct (bm_fill_gen r s bm i p1 E B) as [bm1 [E1 B1]]. destruct (bm_fill r i p1) as [r1 o1]. cbn [fst] in E1. subst r1. destruct o1; [|exists bm1; auto].
  destruct (bm_fill_gen (with_cache r (CDict (Some s) bm1)) s bm1 j p2 eq_refl B1) as [bm2 [E2 B2]]. destruct (bm_fill _ j p2) as [r2 o2]. cbn [fst] in E2. subst r2.
  destruct o2; exists bm2; auto.
Qed.
Lemma update_resp r i c t p : ant_response (fst (ant_update_at r i)) c t p = ant_response r c t p.
Proof.
  unfold ant_update_at. destruct (get (r_ants r) i) as [a|] eqn:A; auto. destruct (ant_update (r_beams r) a) as [a'|] eqn:U; auto. cbn [fst].
  unfold ant_update in U. destruct (get (r_beams r) (a_beam a)) as [b|] eqn:Bm; cbn [obind] in U; [|discriminate].
  assert (Q : a_beam a' = a_beam a /\ a_rotx a' = a_rotx a /\ a_roty a' = a_roty a) by (injection U as <-; auto). destruct Q as [Q1 [Q2 Q3]]. clear U.
  unfold ant_response. cbn [r_ants with_ants r_beams]. apply get_val in A.
  assert (G : get (upd (r_ants r) i a') c = if Nat.eqb c i then Val a' else get (r_ants r) c).
  { clear - A. unfold get. revert i c A. induction (r_ants r) as [|y l IH]; intros i c A; [destruct i; discriminate|]. destruct i, c; cbn [upd nth_error Nat.eqb] in *; auto. }
  rewrite G. destruct (Nat.eqb_spec c i) as [->|]; auto. apply get_val in A. rewrite A. cbn [obind]. rewrite Q1, Q2, Q3. auto.
Qed.
Section S.
Context (sid j1 : R -> R).
Lemma sim_fresh s r i j : fresh s r -> fresh s (fst (sim sid j1 r i j)).
Proof.
  intros F. pose proof (response_fresh s r i j F) as F2. destruct F as [bm [E B]]. unfold sim. rewrite E. destruct (gen_uvw _ _ _ _ _); [|exists bm; auto]. destruct (passband _ _ _); [|exists bm; auto].
  destruct (bm_response r i j). auto.
Qed.
Lemma update_fresh s r : fresh s r -> fresh s (fst (arr_update r)).
Proof.
  intros [bm [E B]]. exists bm. unfold arr_update. cbv zeta. split.
  - rewrite (each_keeps r_cache); auto. apply update_at_keeps. auto.
  - intros c e p x F G. rewrite (each_keeps (fun r => ant_response r c (c_top s) p)); [|intros; apply update_resp]. apply (B c e p x F G).
Qed.
(* cache is left alone by everything but these *)
Lemma step_cache r o : is_time o = false -> is_cache o = false -> is_use o = false -> r_cache (step sid j1 r o) = r_cache r.
Proof.
  assert (A1 : forall r x, r_cache (with_ants r x) = r_cache r) by auto. assert (A2 : forall r x, r_cache (with_beams r x) = r_cache r) by auto.
  destruct o; try discriminate; intros _ _ _; cbn [step]; auto.
  - unfold select_chans. pose proof (each_keeps r_cache (fun r i => ant_select r i ks) (seq 0 (length (r_ants r))) ltac:(intros; apply ant_select_keeps; auto) r) as K.
    destruct (each _ _ r) as [r1 o]. cbn [fst] in K. destruct o; auto. unfold arr_update. cbv zeta. rewrite (each_keeps r_cache); [auto|apply update_at_keeps; auto].
  - unfold arr_update. cbv zeta. rewrite (each_keeps r_cache); [auto|apply update_at_keeps; auto].
  - destruct p; auto.
  - unfold point_ant. destruct (get _ _); auto.
  - apply ant_select_keeps; auto.
Qed.
Lemma run_app l1 l2 r : run sid j1 (l1 ++ l2) r = run sid j1 l2 (run sid j1 l1 r).
Proof. apply fold_left_app. Qed.
Lemma run_cons o l r : run sid j1 (o :: l) r = run sid j1 l (step sid j1 r o).
Proof. reflexivity. Qed.
Lemma fresh_run1 s l : without is_time l -> without is_cache l -> without is_use l -> forall r, r_cache r = CDict (Some s) [] -> r_cache (run sid j1 l r) = CDict (Some s) [].
Proof.
  intros A B D. induction l as [|o l IH]; auto. inversion A; inversion B; inversion D; subst. intros r E. rewrite run_cons. apply IH; auto. rewrite step_cache; auto.
Qed.
Lemma fresh_run2 s l : without is_time l -> without is_cache l -> without is_tune l -> forall r, fresh s r -> fresh s (run sid j1 l r).
Proof.
  intros A B D. induction l as [|o l IH]; auto. inversion A; inversion B; inversion D; subst. intros r F. rewrite run_cons. apply IH; auto. clear IH A B D.
  destruct o; try discriminate; cbn [step].
  - apply update_fresh; auto.
  - destruct F as [bm [E Bo]]. exists bm. auto.
  - destruct F as [bm [E Bo]]. exists bm. destruct p; auto.
  - apply response_fresh. auto.
  - apply sim_fresh. auto.
Qed.
Lemma moved_run l : without is_time l -> without is_cache l -> forall r x, (x = CUnset \/ x = CNone) -> r_cache r = x -> r_cache (run sid j1 l r) = x.
Proof.
  intros A B. induction l as [|o l IH]; auto. inversion A; inversion B; subst. intros r x X E. rewrite run_cons. apply IH; auto.
  destruct (is_use o) eqn:U; [|rewrite step_cache; auto]. destruct o; try discriminate; cbn [step].
  - unfold bm_response. destruct (r_pol r) as [[p1 p2]|]; auto. unfold bm_fill at 1. rewrite E. destruct X as [-> | ->]; auto.
  - unfold sim. rewrite E. destruct X as [-> | ->]; auto.
Qed.
Lemma unset_run l : without is_time l -> forall r, r_cache r = CUnset -> r_eq2top r = None -> r_cache (run sid j1 l r) = CUnset /\ r_eq2top (run sid j1 l r) = None.
Proof.
  intros A. induction l as [|o l IH]; auto. inversion A; subst. intros r E T. rewrite run_cons.
  assert (K : r_eq2top (step sid j1 r o) = None).
  { rewrite <- T. clear - H1. destruct o; try discriminate; cbn [step]; auto.
    - destruct (geo_select r ks) as [G|G]; unfold geo in G; congruence.
    - pose proof (geo_update r) as G; unfold geo in G; congruence.
    - destruct p; auto.
    - rewrite (sim_cache_keeps r_eq2top); auto.
    - rewrite (bm_response_keeps r_eq2top); auto.
    - rewrite (sim_keeps sid r_eq2top); auto.
    - unfold point_ant. destruct (get _ _); auto.
    - rewrite (ant_select_keeps r_eq2top); auto. }
  apply IH; auto. destruct (is_cache o) eqn:C.
  - destruct o; try discriminate. cbn [step]. unfold sim_cache. rewrite T. auto.
  - apply (moved_run [o]); auto; constructor; auto.
Qed.
Lemma none_run l : without is_time l -> without is_cache l -> without is_response l -> forall r, r_cache r = CDict None [] -> r_cache (run sid j1 l r) = CDict None [].
Proof.
  intros A B D. induction l as [|o l IH]; auto. inversion A; inversion B; inversion D; subst. intros r E. rewrite run_cons. apply IH; auto.
  destruct (is_use o) eqn:U; [|rewrite step_cache; auto]. destruct o; try discriminate; cbn [step]. unfold sim. rewrite E. auto.
Qed.
Lemma jtimes_none l : without is_time l -> jtimes l = [].
Proof. intros A. induction A as [|o l E A IH]; auto. unfold jtimes in *. cbn [flat_map]. rewrite IH. destruct o; auto. discriminate. Qed.
Lemma times_none l : without is_time l -> without is_ephem l -> times l = [].
Proof. intros A B. induction A as [|o l E A IH]; auto. inversion B; subst. unfold times in *. cbn [flat_map]. rewrite IH by auto. destruct o; auto; discriminate. Qed.
Lemma eq2top_run lat t0 bs ants before t mid : without is_time mid -> r_eq2top (run sid j1 (before ++ OTime t :: mid) (new_arr lat t0 bs ants)) = Some (eq2top_m (- sid t) lat).
Proof.
  intros A. pose proof (run_geo sid j1 lat t0 bs ants (before ++ OTime t :: mid)) as G. cbv zeta in G. unfold geo in G.
  assert (E : jtimes (before ++ OTime t :: mid) = jtimes before ++ [t]).
  { unfold jtimes. rewrite flat_map_app. f_equal. cbn [flat_map]. fold (jtimes mid). rewrite jtimes_none; auto. }
  rewrite E, lastopt_app in G. cbn [option_map] in G. congruence.
Qed.
Lemma date_run lat t0 bs ants before t mid : without is_time mid -> without is_ephem mid -> r_date (run sid j1 (before ++ OTime t :: mid) (new_arr lat t0 bs ants)) = t.
Proof.
  intros A B. pose proof (run_geo sid j1 lat t0 bs ants (before ++ OTime t :: mid)) as G. cbv zeta in G. unfold geo in G.
  assert (E : times (before ++ OTime t :: mid) = times before ++ [t]).
  { unfold times. rewrite flat_map_app. f_equal. cbn [flat_map]. fold (times mid). rewrite times_none; auto. }
  rewrite E, last_last in G. congruence.
Qed.
End S.
