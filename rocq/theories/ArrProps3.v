(* C48: selecting channels. *)
From Coq Require Import Reals Lra String.
From Verif Require Import Base CleanModel ImgModel GeoModel GeoSpec GeoProofs ArrModel ArrSpec ArrProofs ArrProofs4.
Ltac Zify.zify_post_hook ::= idtac.
Open Scope R_scope.
Local Notation length := List.length.
(* channels that every antenna's beam has *)
Definition channels_ok (r : arr) (active : option (list Z)) : Prop :=
  forall a b, In a (r_ants r) -> has_beam r a b -> Forall (chan_ok (b_freqs b)) (chans_of b active).
(* Selecting channels that exist (None: all of them) succeeds; afterwards every antenna's beam is at the frequencies of
   those channels, in the order given, and the antenna's phases and gains are those of its polynomials
   there; nothing else has changed, whatever beams are shared. *)
Theorem C48_select : forall r active, wf r -> channels_ok r active -> exists r', select_chans r active = (r', Val tt) /\ rest r' = rest r /\
  length (r_ants r') = length (r_ants r) /\
  forall i a b, nth_error (r_ants r) i = Some a -> has_beam r a b ->
    exists a', nth_error (r_ants r') i = Some a' /\ has_beam r' a' (tuned_beam b active) /\ a' = tuned a (map (chan_at 0 (b_freqs b)) (chans_of b active)).
Proof.
  intros r active W H. destruct (select_all active r W H) as [r' [E [R1 [_ [R3 R4]]]]]. exists r'. split; auto. split; auto. split; [rewrite R4, map_length; auto|].
  intros i a b Ea B. eexists. rewrite R4, nth_error_map, Ea. cbn [option_map]. unfold has_beam in B. rewrite B. split; [reflexivity|]. split; [|reflexivity].
  unfold has_beam. cbn [tuned a_beam]. rewrite R3, B, (used_all r i a Ea). auto.
Qed.
(* A channel some beam does not have: IndexError. *)
Theorem C48_no_such_channel : forall r active, wf r -> (exists a b, In a (r_ants r) /\ has_beam r a b /\ ~ Forall (chan_ok (b_freqs b)) (chans_of b active)) ->
  snd (select_chans r active) = Exc IndexError.
Proof. intros. apply select_none; auto. Qed.
Lemma arr_ext x y : r_beams x = r_beams y -> r_ants x = r_ants y -> r_eq2zen x = r_eq2zen y -> rest x = rest y -> x = y.
Proof. destruct x, y. unfold rest. cbn. intros. f_equal; congruence. Qed.
Lemma retuned_wf act r r' : wf r -> retuned act r r' -> wf r'.
Proof.
  intros W [_ [_ [R3 R4]]] a I. rewrite R4 in I. apply in_map_iff in I. destruct I as [a0 [<- I]]. destruct (W a0 I) as [b B]. unfold has_beam in *. cbn [tuned a_beam]. rewrite R3, B. cbn. eauto.
Qed.
Lemma used_same act r r' n : retuned act r r' -> forall k, used r' n k = used r n k.
Proof.
  intros [_ [_ [_ R4]]] k. unfold used. rewrite R4, firstn_map. induction (firstn n (r_ants r)) as [|a l IH]; cbn [map existsb]; auto. rewrite IH. auto.
Qed.
(* What was selected before does not matter; in particular None restores the whole band. *)
Theorem C48_last_counts : forall r first second r1, wf r -> channels_ok r first -> channels_ok r second -> select_chans r first = (r1, Val tt) ->
  select_chans r1 second = select_chans r second.
Proof.
  intros r first second r1 W H1 H2 E. destruct (select_all first r W H1) as [r' [E' Q]]. assert (r' = r1) by congruence. subst r'. clear E'.
  pose proof (retuned_wf _ _ _ W Q) as W1.
  assert (H2' : channels_ok r1 second).
  { intros a b I B. destruct Q as [_ [_ [R3 R4]]]. rewrite R4 in I. apply in_map_iff in I. destruct I as [a0 [<- I]]. unfold has_beam in B. cbn [tuned a_beam] in B.
    rewrite R3 in B. destruct (W a0 I) as [b0 B0]. unfold has_beam in B0. rewrite B0 in B. cbn in B.
    specialize (H2 a0 b0 I B0). destruct (used _ _ _); inversion B; subst; auto. }
  destruct (select_all second r1 W1 H2') as [ra [Ea Qa]]. destruct (select_all second r W H2) as [rb [Eb Qb]]. rewrite Ea, Eb. f_equal.
  destruct Q as [R1 [R2 [R3 R4]]]. destruct Qa as [A1 [A2 [A3 A4]]]. destruct Qb as [B1 [B2 [B3 B4]]].
  assert (Bm : r_beams ra = r_beams rb).
  { assert (Ln : length (r_ants r1) = length (r_ants r)) by (rewrite R4, map_length; auto). apply list_ext. intros k. rewrite A3, B3, R3, Ln. rewrite (used_same first r r1) by (repeat split; auto).
    destruct (nth_error (r_beams r) k); cbn [option_map]; auto. destruct (used _ _ _); auto. }
  assert (An : r_ants ra = r_ants rb).
  { rewrite A4, B4, R4, map_map. apply map_ext_in. intros a I. cbn [tuned a_beam]. destruct (W a I) as [b B]. unfold has_beam in B. rewrite R3, B. cbn [option_map].
    apply In_nth_error in I. destruct I as [i I]. rewrite (used_all r i a I), tuned_beam_idem. apply tuned_same. auto. }
  assert (r_lat r1 = r_lat r) by (unfold rest in R1; congruence). apply arr_ext; congruence.
Qed.
Theorem C48_restore : forall r ks r1, wf r -> channels_ok r (Some ks) -> select_chans r (Some ks) = (r1, Val tt) -> select_chans r1 None = select_chans r None /\
  exists r0, select_chans r None = (r0, Val tt) /\ forall i a b, nth_error (r_ants r) i = Some a -> has_beam r a b ->
    exists a', nth_error (r_ants r0) i = Some a' /\ a' = tuned a (b_freqs b).
Proof.
  intros r ks r1 W H E. assert (N : channels_ok r None) by (intros a b _ _; apply good_None). split; [apply C48_last_counts with (Some ks); auto|].
  destruct (C48_select r None W N) as [r0 [E0 [_ [_ K]]]]. exists r0. split; auto. intros i a b Ea B. destruct (K i a b Ea B) as [a' [K1 [_ K2]]]. exists a'. split; auto.
  rewrite K2. f_equal. apply tuned_None.
Qed.
Lemma chan_at_map {A B} (f : A -> B) d d' l k : chan_ok l k -> chan_at d (map f l) k = f (chan_at d' l k).
Proof.
  unfold chan_ok, chan_at. intros H. rewrite map_length. rewrite (nth_indep _ d (f d')), map_nth; auto. rewrite map_length.
  pose proof (Z.mod_pos_bound k (Z.of_nat (length l))). lia.
Qed.
(* Against the whole band: phases, gains and beam responses with channels ks are entries ks of those with all channels. *)
Theorem C48_whole_band : forall r ks r0 r1, wf r -> channels_ok r (Some ks) -> select_chans r None = (r0, Val tt) -> select_chans r (Some ks) = (r1, Val tt) ->
  forall i a0 a1, nth_error (r_ants r0) i = Some a0 -> nth_error (r_ants r1) i = Some a1 ->
  a_phsoff a1 = map (chan_at 0 (a_phsoff a0)) ks /\ a_gain a1 = map (chan_at (0, 0) (a_gain a0)) ks /\
  (forall tops p resp0, ant_response r0 i tops p = Val resp0 -> ant_response r1 i tops p = Val (map (fun row => map (chan_at (0, 0) row) ks) resp0)).
Proof.
  intros r ks r0 r1 W H E0 E1 i a0 a1 F0 F1. assert (N : channels_ok r None) by (intros a b _ _; apply good_None).
  destruct (C48_select r None W N) as [r0' [E0' [_ [L0 K0]]]]. assert (r0' = r0) by congruence. subst r0'.
  destruct (C48_select r (Some ks) W H) as [r1' [E1' [_ [L1 K1]]]]. assert (r1' = r1) by congruence. subst r1'.
  destruct (nth_error (r_ants r) i) as [a|] eqn:Ea.
  2:{ apply nth_error_None in Ea. assert (i < length (r_ants r0))%nat by (apply nth_error_Some; congruence). lia. }
  destruct (W a (nth_error_In _ _ Ea)) as [b B]. destruct (K0 i a b Ea B) as [x0 [X1 [X2 X3]]]. assert (x0 = a0) as -> by congruence.
  destruct (K1 i a b Ea B) as [x1 [Y1 [Y2 Y3]]]. assert (x1 = a1) as -> by congruence.
  pose proof (tuned_None b) as T. cbn [tuned_beam b_afreqs] in T. rewrite T in X3. cbn [chans_of] in Y3. pose proof (H a b (nth_error_In _ _ Ea) B) as OK. cbn [chans_of] in OK. rewrite Forall_forall in OK.
  split; [|split].
  - rewrite X3, Y3. cbn [tuned a_phsoff]. rewrite map_map. apply map_ext_in. intros k I. symmetry. apply chan_at_map. auto.
  - rewrite X3, Y3. cbn [tuned a_gain]. rewrite map_map. apply map_ext_in. intros k I. symmetry. apply chan_at_map. auto.
  - intros tops p resp0 Q. unfold ant_response in *. rewrite (get_some _ _ _ F0) in Q. rewrite (get_some _ _ _ F1). cbn [obind] in *.
    unfold has_beam in X2, Y2. rewrite (get_some _ _ _ X2) in Q. rewrite (get_some _ _ _ Y2). cbn [obind] in *. rewrite tuned_None in Q. cbn [tuned_beam b_pat b_afreqs chans_of] in *.
    match type of Q with Val ?x = _ => assert (D : resp0 = x) by congruence end. rewrite D. f_equal. rewrite map_map. apply map_ext. intros t. rewrite map_map. apply map_ext_in. intros k I.
    replace (match p with PX => a_rotx a1 | PY => a_roty a1 end) with (match p with PX => a_rotx a0 | PY => a_roty a0 end) by (rewrite X3, Y3; auto).
    symmetry. apply (chan_at_map (fun f => b_pat b f _)). auto.
Qed.
(* Antennas whose beams cover the same band are in step after any selection that succeeds. *)
Theorem C48_in_step : forall r active fs r', wf r -> r_ants r <> [] -> (forall a b, In a (r_ants r) -> has_beam r a b -> b_freqs b = fs) ->
  (match active with Some ks => Forall (chan_ok fs) ks | None => True end) -> select_chans r active = (r', Val tt) ->
  in_step r' (match active with Some ks => map (chan_at 0 fs) ks | None => fs end).
Proof.
  intros r active fs r' W N S OK E. assert (H : channels_ok r active). { intros a b I B. destruct active; [|apply good_None]. cbn. rewrite (S a b I B). auto. }
  destruct (C48_select r active W H) as [r1 [E1 [_ [L K]]]]. assert (r1 = r') by congruence. subst r1. split.
  - intros Z. rewrite Z in L. cbn in L. destruct (r_ants r); [congruence|discriminate].
  - intros a' I. apply In_nth_error in I. destruct I as [i I]. destruct (nth_error (r_ants r) i) as [a|] eqn:Ea.
    2:{ apply nth_error_None in Ea. assert (i < length (r_ants r'))%nat by (apply nth_error_Some; congruence). lia. }
    destruct (W a (nth_error_In _ _ Ea)) as [b B]. destruct (K i a b Ea B) as [x [X1 [X2 X3]]]. assert (x = a') as -> by congruence.
    pose proof (S a b (nth_error_In _ _ Ea) B) as Fb.
    assert (D : map (chan_at 0 (b_freqs b)) (chans_of b active) = match active with Some ks => map (chan_at 0 fs) ks | None => fs end).
    { destruct active as [ks|]; [cbn; rewrite Fb; auto|]. rewrite <- Fb. exact (tuned_None b). }
    rewrite D in X3. split; [|rewrite X3; split; auto]. unfold has_beam in X2. eexists. split; [exact X2|]. cbn [tuned_beam b_afreqs]. auto.
Qed.
(* Selecting on one antenna changes the beam it shares with another, whose own tables stay at the old channels. *)
Definition b4 : beam := new_beam [1; 2; 3; 4] (fun _ _ => (1, 0)).
Definition b2 : beam := new_beam [1; 2] (fun _ _ => (1, 0)).
Definition raw (b : nat) (phs : list R) : ant := {| a_pos := (0, 0, 0); a_beam := b; a_phspoly := phs; a_phsoff := []; a_bpr := [1]; a_bpi := [0]; a_amp := 1; a_gain := [];
  a_rotx := ident; a_roty := ident |}.
Definition shared : arr := new_arr 0 0 [b4] [tuned (raw 0 [1; 0]) [1; 2; 3; 4]; tuned (raw 0 [0; 1]) [1; 2; 3; 4]].
Theorem C48_antenna_refuted : exists r i r' fs, wf r /\ in_step r fs /\ ant_select r i (Some [0%Z]) = (r', Val tt) /\ (forall fs', ~ in_step r' fs').
Proof.
  exists shared, 0%nat. eexists. exists [1; 2; 3; 4].
  assert (I0 : in_step shared [1; 2; 3; 4]).
  { split; [discriminate|]. intros a [<-|[<-|[]]]; (split; [exists b4; split; reflexivity|split; reflexivity]). }
  split. { intros a I. destruct I0 as [_ I0]. destruct (I0 a I) as [[b [B _]] _]. exists b. exact B. }
  split; [exact I0|]. split; [reflexivity|].
  intros fs' [_ H]. pose proof (H _ (or_intror (or_introl eq_refl))) as [[b [B F]] [P _]]. cbn in B. injection B as <-. cbn in F. subst fs'. cbn in P. inversion P.
Qed.
(* A selection that fails half way leaves the antennas before it selected and those after it not. *)
Definition uneven : arr := new_arr 0 0 [b4; b2] [tuned (raw 0 [1; 0]) [1; 2; 3; 4]; tuned (raw 1 [0; 1]) [1; 2]].
Theorem C48_failed_refuted : exists r ks r' a, wf r /\ select_chans r (Some ks) = (r', Exc IndexError) /\ nth_error (r_ants r) 0 = Some a /\ nth_error (r_ants r') 0 <> Some a.
Proof.
  exists uneven, [3%Z]. eexists. eexists. split. { intros a [<-|[<-|[]]]; unfold has_beam; cbn; eauto. }
  split; [reflexivity|]. split; [reflexivity|]. cbn. intros E. inversion E.
Qed.
Example C48_case : wf shared /\ channels_ok shared (Some [2; -1]%Z).
Proof.
  split. { intros a [<-|[<-|[]]]; unfold has_beam; cbn; eauto. }
  intros a b [<-|[<-|[]]] B; unfold has_beam in B; cbn in B; injection B as <-; repeat constructor; cbn; lia.
Qed.
Print Assumptions C48_select. Print Assumptions C48_no_such_channel. Print Assumptions C48_last_counts. Print Assumptions C48_restore. Print Assumptions C48_whole_band.
Print Assumptions C48_in_step. Print Assumptions C48_antenna_refuted. Print Assumptions C48_failed_refuted.
