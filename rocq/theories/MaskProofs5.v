(* Histories of maskio calls refine the bitmap specification. *)
From Verif Require Import Base MaskModel MaskSpec MaskProofs1 MaskProofs2 MaskProofs3 MaskProofs4.
Ltac Zify.zify_post_hook ::= idtac.

Definition R (K : bitmap) (m : mask) : Prop :=
  forall p b, K p = Some b -> 0 <= p /\ p + 31 < ext m /\ cur m (p + 31) = b.

Lemma R_pres K m m' : R K m -> pres m m' -> R K m'.
Proof.
  intros HR [E P] p b H. destruct (HR p b H) as [H1 [H2 H3]].
  split; [exact H1|]. split; [lia|]. rewrite P by lia. exact H3.
Qed.

Lemma R_wrote K m m' a fl : R K m -> 0 <= a -> wrote m m' (a + 31) fl -> R (store K a fl) m'.
Proof.
  intros HR Ha [E [L P]] p b H. unfold store in H.
  destruct ((a <=? p) && (p <? a + Z.of_nat (length fl))) eqn:Ep.
  - inversion H; subst b. split; [lia|].
    assert (fl <> []) as Hne by (intros ->; cbn [length] in Ep; lia). specialize (L Hne).
    split; [lia|]. rewrite P by lia.
    replace ((a + 31 <=? p + 31) && (p + 31 <? a + 31 + Z.of_nat (length fl))) with true by lia.
    f_equal. lia.
  - destruct (HR p b H) as [H1 [H2 H3]]. split; [exact H1|]. split; [lia|].
    rewrite P by lia.
    replace ((a + 31 <=? p + 31) && (p + 31 <? a + 31 + Z.of_nat (length fl))) with false by lia. exact H3.
Qed.

Lemma R_holds K m a n : R K m -> 0 <= a -> 0 <= n -> all_known K a n ->
  holds K a n (bit_list (cur m) (a + 31) (Z.to_nat n)) /\ (0 < n -> a + 31 + n <= ext m).
Proof.
  intros HR Ha Hn Hk. split.
  - split; [rewrite bit_list_length; lia|]. intros k Hkr. specialize (Hk k Hkr).
    destruct (K (a + k)) as [b|] eqn:E; [|congruence].
    destruct (HR _ _ E) as [H1 [H2 H3]]. rewrite bit_list_nthZ by lia.
    f_equal. rewrite <- H3. f_equal. lia.
  - intros Hpos. specialize (Hk (n - 1) ltac:(lia)).
    destruct (K (a + (n - 1))) as [b|] eqn:E; [|congruence].
    destruct (HR _ _ E) as [H1 [H2 H3]]. lia.
Qed.

Lemma reopen_spec m g : Inv m -> 
  exists m' r, mkreopen m g = (m', r) /\ Inv m' /\ pres m m' /\ (31 < ext m -> r = Ret tt) .
Proof.
  intros H. unfold mkreopen. destruct (flushed m H) as [m1 [F1 [F2 [F3 [F4 F5]]]]]. rewrite F1.
  destruct F2 as [Fw Fc]. destruct (i_size m1 Fw) as [Hs Hn]. pose proof (proj1 F3) as HE.
  unfold mkopen_old. rewrite (i_hdr m1 Fw), Z.eqb_refl. cbn [negb].
  destruct (m_nw m1 <=? 1) eqn:E.
  - exists m1, Bug. refine (conj eq_refl (conj (conj Fw Fc) (conj F3 _))). lia.
  - eexists _, _. split; [reflexivity|].
    assert (I : Invw (Mk (m_item m1) (m_nw m1) g false (- BUFFERSIZE * BPI) 0 (m_nw m1 * BPI))).
    { unfold BUFFERSIZE, BPI. constructor; msimp.
      - exists (-128). split; [lia|]. right. auto.
      - lia.
      - lia.
      - intros _. left. reflexivity.
      - intros _ p Hp. lia.
      - discriminate.
      - apply (i_hdr m1 Fw). }
    split; [split; [exact I|unfold BUFFERSIZE, BPI; msimp; intros; lia]|]. split; [|reflexivity].
    apply (pres_trans m m1); [exact F3|].
    apply pres_clean; try assumption; try reflexivity. unfold ext at 2. unfold BPI, BUFFERSIZE. msimp. lia.
Qed.

Lemma step_spec K m o : R K m -> Inv m -> valid_op o ->
  exists m' x, mstep m o = (m', x) /\ Inv m' /\ R (spec_step K o) m' /\ expected K o x.
Proof.
  intros HR HI HV. destruct o as [a fl|a n rs|a n|a n| |g]; cbn [mstep spec_step expected valid_op] in *.
  - unfold mkwrite_flags, OFFSET.
    destruct (mkwrite_loop_spec (length fl) m (a + 31) (Z.of_nat (length fl)) fl HI ltac:(lia) eq_refl ltac:(lia)) as [m' [E1 [E2 E3]]].
    rewrite E1. exists m'. eexists. split; [reflexivity|]. split; [exact E2|]. split; [|reflexivity].
    apply (R_wrote K m); auto.
  - destruct HV as [V1 [V2 V3]]. destruct (mkwrite_runs_spec m a n rs HI V1 V2 V3) as [m' [E1 [E2 E3]]].
    rewrite E1. exists m'. eexists. split; [reflexivity|]. split; [exact E2|]. split; [|reflexivity].
    apply (R_wrote K m); auto.
  - destruct HV as [V1 V2]. unfold mkread_flags, OFFSET.
    destruct (mkread_loop_spec (Z.to_nat n + 2) m (a + 31) n [] HI ltac:(lia) ltac:(lia)) as [m' [r [E1 [E2 [E3 E4]]]]].
    rewrite E1. exists m'. eexists. split; [reflexivity|]. split; [exact E2|].
    split; [apply (R_pres K m); auto|]. split.
    + destruct E4 as [[E4 _]|[fl [E4 _]]]; rewrite E4; discriminate.
    + intros Hk. destruct (R_holds K m a n HR V1 V2 Hk) as [Q1 Q2].
      destruct E4 as [[E4 E5]|[fl [E4 E5]]].
      * exfalso. destruct (Z.eq_dec n 0) as [->|]; [|lia].
        rewrite E4 in E1. cbn in E1. discriminate.
      * destruct (Z.eq_dec n 0) as [->|].
        { exists []. assert (Er : r = Ret []) by (cbn in E1; congruence). rewrite Er. split; [reflexivity|]. split; [reflexivity|lia]. }
        exists fl. rewrite E4. split; [reflexivity|]. rewrite E5 by lia. exact Q1.
  - destruct HV as [V1 V2]. unfold mkread_runs, OFFSET.
    destruct (mkread_runs_loop_spec (Z.to_nat n + 2) m (a + 31) n (Rs false 0 []) HI ltac:(lia) ltac:(lia)) as [m' [r [E1 [E2 [E3 E4]]]]].
    rewrite E1. exists m'. eexists. split; [reflexivity|]. split; [exact E2|].
    split; [apply (R_pres K m); auto|]. split.
    + destruct E4 as [[E4 _]|[fl [E4 _]]]; rewrite E4; discriminate.
    + intros Hk. destruct (R_holds K m a n HR V1 V2 Hk) as [Q1 Q2].
      destruct E4 as [[E4 E5]|[fl [E4 E5]]].
      * exfalso. destruct (Z.eq_dec n 0) as [->|]; [|lia].
        rewrite E4 in E1. cbn in E1. discriminate.
      * destruct (Z.eq_dec n 0) as [->|].
        { exists []. assert (Er : r = Ret []) by (cbn in E1; congruence). rewrite Er. split; [reflexivity|]. split; [exact I|].
          split; [reflexivity|lia]. }
        exists (runs_of fl (Rs false 0 [])). rewrite E4. split; [reflexivity|].
        pose proof (runs_of_spec fl) as RS. cbv zeta in RS. destruct RS as [RS1 RS2].
        rewrite (E5 ltac:(lia)) in *. rewrite bit_list_length in RS1, RS2.
        replace (Z.of_nat (Z.to_nat n)) with n in RS1, RS2 by lia.
        split; [exact RS1|]. rewrite RS2. exact Q1.
  - destruct (flush_spec m HI) as [m' [F1 [F2 [F3 _]]]]. rewrite F1. exists m'. eexists. split; [reflexivity|].
    split; [exact F2|]. split; [apply (R_pres K m); auto|reflexivity].
  - destruct (reopen_spec m g HI) as [m' [r [F1 [F2 [F3 F4]]]]]. rewrite F1. exists m'. eexists. split; [reflexivity|].
    split; [exact F2|]. split; [apply (R_pres K m); auto|].
    intros [p Hp]. destruct (K p) as [b|] eqn:E; [|congruence]. destruct (HR p b E) as [H1 [H2 H3]].
    rewrite F4 by lia. reflexivity.
Qed.

Lemma run_spec ops : forall K m, R K m -> Inv m -> Forall valid_op ops -> expected_all K ops (mrun m ops).
Proof.
  induction ops as [|o ops IH]; intros K m HR HI HV; cbn [mrun expected_all]; [exact I|].
  inversion HV; subst. destruct (step_spec K m o HR HI) as [m' [x [E1 [E2 [E3 E4]]]]]; [assumption|].
  rewrite E1. split; [exact E4|]. apply IH; assumption.
Qed.

Lemma Inv_new f g : Inv (mkopen_new f g).
Proof.
  unfold mkopen_new, BUFFERSIZE, BPI. split; [constructor|]; msimp.
  - exists (-128). split; [lia|]. right. auto.
  - lia.
  - lia.
  - intros _. left. reflexivity.
  - intros _ p Hp. lia.
  - discriminate.
  - reflexivity.
  - lia.
Qed.

Lemma R_empty m : R empty_bitmap m.
Proof. intros p b H. discriminate. Qed.
