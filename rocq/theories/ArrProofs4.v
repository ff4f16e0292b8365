From Coq Require Import Reals Lra String.
From Verif Require Import Base CleanModel ImgModel GeoModel GeoSpec GeoProofs ArrModel ArrSpec ArrProofs.
Ltac Zify.zify_post_hook ::= idtac.
Open Scope R_scope.
Local Notation length := List.length.
Lemma upd_nth {A} (l : list A) i x j : nth_error (upd l i x) j = if Nat.eqb i j then (if Nat.ltb i (length l) then Some x else None) else nth_error l j.
Proof.
  revert i j. induction l as [|y l IH]; intros [|i] [|j]; cbn [upd nth_error Nat.eqb]; auto.
  - destruct (Nat.eqb i j); cbn; auto.
  - rewrite IH. destruct (Nat.eqb i j); auto.
Qed.
Lemma list_ext {A} (l m : list A) : (forall i, nth_error l i = nth_error m i) -> l = m.
Proof.
  revert m. induction l as [|x l IH]; intros [|y m] H; auto; try (specialize (H O); discriminate). f_equal.
  - specialize (H O). cbn in H. congruence.
  - apply IH. intros i. apply (H (S i)).
Qed.
Lemma take1_ok {A} (d : A) l k : chan_ok l k -> take1 l k = Val (chan_at d l k).
Proof.
  unfold chan_ok, take1, chan_at. intros H. cbv zeta. destruct (((k <? - Z.of_nat (length l)) || (Z.of_nat (length l) <=? k))%Z) eqn:E; [exfalso; lia|].
  assert (M : (if (k <? 0)%Z then (k + Z.of_nat (length l))%Z else k) = (k mod Z.of_nat (length l))%Z).
  { destruct (k <? 0)%Z eqn:K.
    - rewrite <- (Z_mod_plus_full k 1). symmetry. rewrite Z.mod_small; lia.
    - symmetry. apply Z.mod_small. lia. }
  rewrite M. unfold get. destruct (nth_error l _) eqn:F.
  - erewrite nth_error_nth by eauto. auto.
  - apply nth_error_None in F. pose proof (Z.mod_pos_bound k (Z.of_nat (length l))). lia.
Qed.
Lemma take1_bad {A} (l : list A) k : ~ chan_ok l k -> take1 l k = Exc IndexError.
Proof. unfold chan_ok, take1. intros H. cbv zeta. destruct (((k <? - Z.of_nat (length l)) || (Z.of_nat (length l) <=? k))%Z) eqn:E; auto. exfalso. lia. Qed.
Lemma chan_ok_dec {A} (l : list A) k : chan_ok l k \/ ~ chan_ok l k.
Proof. unfold chan_ok. lia. Qed.
Lemma take_ok {A} (d : A) l ks : Forall (chan_ok l) ks -> take l ks = Val (map (chan_at d l) ks).
Proof. unfold take. induction 1 as [|k ks H _ IH]; cbn [omap map]; auto. rewrite (take1_ok d) by auto. cbn [obind]. rewrite IH. auto. Qed.
Lemma take_bad {A} (d : A) (l : list A) ks : ~ Forall (chan_ok l) ks -> take l ks = Exc IndexError.
Proof.
  unfold take. induction ks as [|k ks IH]; intros H; [destruct H; constructor|]. cbn [omap]. destruct (chan_ok_dec l k) as [K|K].
  - rewrite (take1_ok d) by auto. cbn [obind]. rewrite IH; auto.
  - rewrite take1_bad; auto.
Qed.
Definition good (b : beam) (act : option (list Z)) : Prop := Forall (chan_ok (b_freqs b)) (chans_of b act).
Lemma select_ok b act : good b act -> beam_select b act = (tuned_beam b act, Val tt).
Proof. intros H. unfold beam_select, beam_update. unfold good, chans_of in H. cbn [set_chans b_freqs b_chans]. destruct act; cbn in *; rewrite (take_ok 0) by auto; auto. Qed.
Lemma select_bad b act : ~ good b act -> exists b', beam_select b act = (b', Exc IndexError).
Proof. intros H. unfold beam_select, beam_update. unfold good, chans_of in H. cbn [set_chans b_freqs b_chans]. destruct act; cbn in *; rewrite (take_bad 0) by auto; eauto. Qed.
Lemma good_dec b act : good b act \/ ~ good b act.
Proof.
  unfold good. induction (chans_of b act) as [|k l [IH|IH]]; [left; constructor| |right; intros H; inversion H; auto].
  destruct (chan_ok_dec (b_freqs b) k); [left; constructor; auto|right; intros H'; inversion H'; auto].
Qed.
Lemma tuned_beam_idem b a a' : tuned_beam (tuned_beam b a) a' = tuned_beam b a'.
Proof. destruct a'; reflexivity. Qed.
Lemma good_tuned b a a' : good (tuned_beam b a) a' <-> good b a'.
Proof. destruct a'; reflexivity. Qed.
Lemma update_tuned bs a b : nth_error bs (a_beam a) = Some b -> ant_update bs a = Val (tuned a (b_afreqs b)).
Proof.
  intros E. unfold ant_update, get. rewrite E. cbn [obind]. unfold tuned. f_equal. 
Qed.
Definition used (r : arr) (m k : nat) : bool := existsb (fun a => Nat.eqb (a_beam a) k) (firstn m (r_ants r)).
Definition stat (a : ant) := (a_pos a, a_beam a, a_phspoly a, (a_bpr a, a_bpi a, a_amp a), (a_rotx a, a_roty a)).
Lemma tuned_stat a fs : stat (tuned a fs) = stat a.
Proof. auto. Qed.
Lemma tuned_same a a' fs : stat a = stat a' -> tuned a fs = tuned a' fs.
Proof. unfold stat, tuned, gain_at. intros E. inversion E. auto. Qed.
Definition Inv act (r : arr) (m : nat) (r' : arr) : Prop :=
  rest r' = rest r /\ r_eq2zen r' = r_eq2zen r /\
  (forall k, nth_error (r_beams r') k = option_map (fun b => if used r m k then tuned_beam b act else b) (nth_error (r_beams r) k)) /\
  (forall i, option_map stat (nth_error (r_ants r') i) = option_map stat (nth_error (r_ants r) i)).
Lemma firstn_S {A} (l : list A) m x : nth_error l m = Some x -> firstn (S m) l = firstn m l ++ [x].
Proof. revert l. induction m as [|m IH]; intros [|y l] E; cbn in *; try discriminate; [congruence|]. rewrite IH; auto. Qed.
Lemma used_S r m a k : nth_error (r_ants r) m = Some a -> used r (S m) k = used r m k || Nat.eqb (a_beam a) k.
Proof. intros E. unfold used. rewrite (firstn_S _ _ _ E), existsb_app. cbn. rewrite orb_false_r. auto. Qed.
Lemma stat_nth (r r' : arr) i a : (forall i, option_map stat (nth_error (r_ants r') i) = option_map stat (nth_error (r_ants r) i)) ->
  nth_error (r_ants r) i = Some a -> exists a', nth_error (r_ants r') i = Some a' /\ stat a' = stat a.
Proof. intros H E. specialize (H i). rewrite E in H. destruct (nth_error (r_ants r') i) as [a'|]; inversion H. exists a'. unfold stat in *. split; auto. congruence. Qed.
Lemma get_some {A} (l : list A) i x : nth_error l i = Some x -> get l i = Val x.
Proof. unfold get. intros ->. auto. Qed.
Lemma step_ok act r m r' a b : Inv act r m r' -> nth_error (r_ants r) m = Some a -> nth_error (r_beams r) (a_beam a) = Some b ->
  (good b act -> exists r2, ant_select r' m act = (r2, Val tt) /\ Inv act r (S m) r2) /\
  (~ good b act -> snd (ant_select r' m act) = Exc IndexError).
Proof.
  intros [H1 [H2 [H3 H4]]] E F. destruct (stat_nth r r' m a H4 E) as [a' [E' St]]. assert (Q : a_beam a' = a_beam a) by (unfold stat in St; congruence).
  unfold ant_select. rewrite (get_some _ _ _ E'). pose proof (H3 (a_beam a')) as B. rewrite Q, F in B. cbn [option_map] in B.
  set (bb := if used r m (a_beam a) then tuned_beam b act else b) in *. rewrite <- Q in B. rewrite (get_some _ _ _ B).
  assert (G : good bb act <-> good b act) by (unfold bb; destruct (used _ _ _); [apply good_tuned|tauto]).
  assert (T : tuned_beam bb act = tuned_beam b act) by (unfold bb; destruct (used _ _ _); [apply tuned_beam_idem|auto]). split.
  - intros Gd. rewrite select_ok by tauto. rewrite T. unfold ant_update_at. cbn [with_beams r_ants r_beams]. rewrite (get_some _ _ _ E').
    assert (L : (a_beam a' < length (r_beams r'))%nat) by (apply nth_error_Some; congruence).
    erewrite update_tuned. 2:{ rewrite upd_nth, Nat.eqb_refl. apply Nat.ltb_lt in L. rewrite L. reflexivity. }
    eexists. split; [reflexivity|]. split; [exact H1|]. split; [exact H2|]. split.
    + intros k. cbn [with_ants with_beams r_beams]. rewrite upd_nth, (used_S r m a k E), Q. destruct (Nat.eqb_spec (a_beam a) k) as [<-|N].
      * rewrite orb_true_r, F. rewrite Q in L. apply Nat.ltb_lt in L. rewrite L. auto.
      * rewrite orb_false_r. apply H3.
    + intros i. cbn [with_ants r_ants with_beams]. rewrite upd_nth. destruct (Nat.eqb_spec m i) as [<-|N]; [|apply H4].
      assert (L' : (m < length (r_ants r'))%nat) by (apply nth_error_Some; congruence). apply Nat.ltb_lt in L'. rewrite L', E. cbn [option_map]. rewrite tuned_stat, St. auto.
  - intros Gd. destruct (select_bad bb act) as [b' ->]; [tauto|]. auto.
Qed.
Lemma loop_ok act r n : wf r -> forall m r', (m + n = length (r_ants r))%nat -> Inv act r m r' ->
  ((forall a b, In a (r_ants r) -> has_beam r a b -> good b act) -> exists r2, each (fun r i => ant_select r i act) (seq m n) r' = (r2, Val tt) /\ Inv act r (length (r_ants r)) r2) /\
  ((exists a b i, nth_error (r_ants r) i = Some a /\ (m <= i)%nat /\ has_beam r a b /\ ~ good b act) -> snd (each (fun r i => ant_select r i act) (seq m n) r') = Exc IndexError).
Proof.
  intros W. induction n as [|n IH]; intros m r' L I.
  - split.
    + intros _. exists r'. split; auto. replace (length (r_ants r)) with m by lia. auto.
    + intros [a [b [i [E [Li _]]]]]. assert (i < length (r_ants r))%nat by (apply nth_error_Some; congruence). lia.
  - cbn [seq each]. destruct (nth_error (r_ants r) m) as [a|] eqn:E; [|apply nth_error_None in E; lia].
    destruct (W a (nth_error_In _ _ E)) as [b B]. destruct (step_ok act r m r' a b I E B) as [S1 S2].
    destruct (good_dec b act) as [G|G].
    + destruct (S1 G) as [r2 [Q I2]]. rewrite Q. destruct (IH (S m) r2 ltac:(lia) I2) as [K1 K2]. split; auto.
      intros [a' [b' [i [E' [Li [B' G']]]]]]. apply K2. exists a', b', i. split; auto. split; auto.
      assert (i <> m); [|lia]. intros ->. unfold has_beam in *. assert (a' = a) by congruence. subst. assert (b' = b) by congruence. subst. auto.
    + specialize (S2 G). destruct (ant_select r' m act) as [r2 o]. cbn [snd] in S2. subst o. split; auto. intros H. destruct G. eapply H; eauto. eapply nth_error_In; eauto.
Qed.
Lemma Inv_0 act r : Inv act r 0 r.
Proof. split; auto. split; auto. split; auto. intros k. unfold used. cbn. destruct (nth_error (r_beams r) k); auto. Qed.
(* the last loop: all antennas recomputed *)
Lemma update_loop n r : forall m r', (m + n = length (r_ants r))%nat -> (forall a, In a (r_ants r) -> exists b, nth_error (r_beams r) (a_beam a) = Some b) ->
  rest r' = rest r -> r_eq2zen r' = r_eq2zen r -> r_beams r' = r_beams r ->
  (forall i, nth_error (r_ants r') i = if Nat.ltb i m then option_map (fun a => tuned a (match nth_error (r_beams r) (a_beam a) with Some b => b_afreqs b | None => [] end)) (nth_error (r_ants r) i) else nth_error (r_ants r) i) ->
  exists r2, each ant_update_at (seq m n) r' = (r2, Val tt) /\ rest r2 = rest r /\ r_eq2zen r2 = r_eq2zen r /\ r_beams r2 = r_beams r /\
   r_ants r2 = map (fun a => tuned a (match nth_error (r_beams r) (a_beam a) with Some b => b_afreqs b | None => [] end)) (r_ants r).
Proof.
  induction n as [|n IH]; intros m r' L W H1 H2 H3 H4.
  - exists r'. split; auto. split; auto. split; auto. split; auto. apply list_ext. intros i. rewrite H4, nth_error_map. destruct (Nat.ltb_spec i m); auto.
    rewrite (proj2 (nth_error_None (r_ants r) i)) by lia. auto.
  - cbn [seq each]. destruct (nth_error (r_ants r) m) as [a|] eqn:E; [|apply nth_error_None in E; lia].
    destruct (W a (nth_error_In _ _ E)) as [b B]. unfold ant_update_at at 1.
    assert (E' : nth_error (r_ants r') m = Some a) by (rewrite H4, Nat.ltb_irrefl; auto). rewrite (get_some _ _ _ E'). rewrite H3, (update_tuned _ _ _ B).
    apply (IH (S m)); auto; [lia|]. intros i. cbn [with_ants r_ants]. rewrite upd_nth.
    assert (L' : (m < length (r_ants r'))%nat) by (apply nth_error_Some; congruence). apply Nat.ltb_lt in L'. rewrite L'.
    destruct (Nat.eqb_spec m i) as [<-|N].
    + replace (Nat.ltb m (S m)) with true by (symmetry; apply Nat.ltb_lt; lia). rewrite E. cbn [option_map]. rewrite B. auto.
    + rewrite H4. replace (Nat.ltb i (S m)) with (Nat.ltb i m); auto. destruct (Nat.ltb_spec i m), (Nat.ltb_spec i (S m)); auto; lia.
Qed.
Lemma arr_update_ok r : wf r -> exists r2, arr_update r = (r2, Val tt) /\ rest r2 = rest r /\ r_eq2zen r2 = eq2top_m 0 (r_lat r) /\ r_beams r2 = r_beams r /\
   r_ants r2 = map (fun a => tuned a (match nth_error (r_beams r) (a_beam a) with Some b => b_afreqs b | None => [] end)) (r_ants r).
Proof.
  intros W. unfold arr_update. cbv zeta. match goal with |- context [each _ _ ?x] => set (r0 := x) end.
  destruct (update_loop (length (r_ants r0)) r0 0 r0) as [r2 [E [H1 [H2 [H3 H4]]]]]; auto. exists r2. auto.
Qed.
(* the state after a successful selection *)
Definition retuned act (r : arr) (r2 : arr) : Prop :=
  rest r2 = rest r /\ r_eq2zen r2 = eq2top_m 0 (r_lat r) /\
  (forall k, nth_error (r_beams r2) k = option_map (fun b => if used r (length (r_ants r)) k then tuned_beam b act else b) (nth_error (r_beams r) k)) /\
  r_ants r2 = map (fun a => tuned a (match nth_error (r_beams r) (a_beam a) with Some b => b_afreqs (tuned_beam b act) | None => [] end)) (r_ants r).
Lemma used_all r i a : nth_error (r_ants r) i = Some a -> used r (length (r_ants r)) (a_beam a) = true.
Proof. intros E. unfold used. rewrite firstn_all. apply existsb_exists. exists a. split; [eapply nth_error_In; eauto|apply Nat.eqb_refl]. Qed.
Lemma select_all act r : wf r -> (forall a b, In a (r_ants r) -> has_beam r a b -> good b act) -> exists r2, select_chans r act = (r2, Val tt) /\ retuned act r r2.
Proof.
  intros W G. destruct (loop_ok act r (length (r_ants r)) W 0 r eq_refl (Inv_0 act r)) as [L _]. destruct (L G) as [r1 [E I]].
  unfold select_chans. rewrite E. destruct I as [I1 [I2 [I3 I4]]].
  assert (W1 : wf r1).
  { intros a1 J. apply In_nth_error in J. destruct J as [i J]. specialize (I4 i). rewrite J in I4. destruct (nth_error (r_ants r) i) as [a|] eqn:Ei; [|discriminate].
    assert (Q : a_beam a1 = a_beam a) by (cbn in I4; unfold stat in I4; congruence). destruct (W a (nth_error_In _ _ Ei)) as [b B]. unfold has_beam in *. rewrite Q, I3, B. cbn. eauto. }
  destruct (arr_update_ok r1 W1) as [r2 [E2 [J1 [J2 [J3 J4]]]]]. exists r2. split; auto. split; [congruence|]. split; [rewrite J2; f_equal; unfold rest in I1; congruence|]. split.
  - intros k. rewrite J3. apply I3.
  - rewrite J4. apply list_ext. intros i. rewrite !nth_error_map. specialize (I4 i). destruct (nth_error (r_ants r1) i) as [a1|], (nth_error (r_ants r) i) as [a|] eqn:Ei; try discriminate; auto.
    cbn [option_map] in *. assert (Q : a_beam a1 = a_beam a) by (unfold stat in I4; congruence). assert (Q' : stat a1 = stat a) by (unfold stat in *; congruence).
    f_equal. rewrite Q, I3, (used_all r i a Ei). destruct (nth_error (r_beams r) (a_beam a)); cbn [option_map]; apply tuned_same; auto.
Qed.
Lemma select_none act r : wf r -> (exists a b, In a (r_ants r) /\ has_beam r a b /\ ~ good b act) -> snd (select_chans r act) = Exc IndexError.
Proof.
  intros W [a [b [J [B G]]]]. destruct (loop_ok act r (length (r_ants r)) W 0 r eq_refl (Inv_0 act r)) as [_ L].
  apply In_nth_error in J. destruct J as [i J]. specialize (L ltac:(exists a, b, i; repeat split; auto; lia)).
  unfold select_chans. destruct (each _ _ _) as [r1 o]. cbn [snd] in L. subst o. auto.
Qed.
Lemma good_None b : good b None.
Proof. unfold good, chans_of. apply Forall_forall. intros k I. apply in_map_iff in I. destruct I as [n [<- I]]. apply in_seq in I. unfold chan_ok. lia. Qed.
Lemma tuned_None b : b_afreqs (tuned_beam b None) = b_freqs b.
Proof.
  cbn [tuned_beam b_afreqs chans_of]. rewrite map_map. apply list_ext. intros i. rewrite nth_error_map.
  destruct (Nat.ltb_spec i (length (b_freqs b))) as [L|L].
  - rewrite (nth_error_nth' _ 0%nat) by (rewrite seq_length; auto). rewrite seq_nth by auto. cbn [option_map plus]. unfold chan_at.
    rewrite Z.mod_small by lia. rewrite Nat2Z.id. symmetry. apply nth_error_nth'. auto.
  - rewrite !(proj2 (nth_error_None _ i)); auto. rewrite seq_length. auto.
Qed.
