(* C17: what storing correlations as 16-bit integers does to them. *)
From Coq Require Import Reals Lra.
From Flocq Require Import Core Relative.
From Verif Require Import Base CleanModel PackModel PackSpec PackProofs PackProps QuantModel.
Ltac Zify.zify_post_hook ::= idtac.
Open Scope R_scope.

(* the largest absolute value of the record *)
Definition is_max_abs (data : list R) (m : R) : Prop := (forall x, In x data -> Rabs x <= m) /\ exists x, In x data /\ Rabs x = m.

Definition u : R := / 16777216.
Lemma round_normal x : bpow radix2 (-126) <= Rabs x -> exists e, Rabs e <= u /\ round32 x = x * (1 + e).
Proof.
  intros H. destruct (relative_error_N_FLT_ex radix2 (-149) 24 ltac:(lia) (fun z => negb (Z.even z)) x) as (e & E & F); [exact H|].
  exists e. split; auto. replace u with (/ 2 * bpow radix2 (- (24) + 1)); auto. unfold u. cbn. lra.
Qed.
Lemma round_any x : exists e n, Rabs e <= u /\ Rabs n <= bpow radix2 (-149) /\ round32 x = x * (1 + e) + n.
Proof.
  destruct (relative_error_N_FLT'_ex radix2 (-149) 24 ltac:(lia) (fun z => negb (Z.even z)) x) as (e & n & E & F & _ & G).
  exists e, n. split; [|split; auto].
  - eapply Rle_trans; [exact E|]. unfold u_ro. replace (/ 2 * bpow radix2 (- (24) + 1)) with u by (unfold u; cbn; lra). unfold u.
    apply Rmult_le_reg_r with (1 + / 16777216); [lra|]. unfold Rdiv. rewrite Rmult_assoc, Rinv_l by lra. lra.
  - eapply Rle_trans; [exact F|]. pose proof (bpow_ge_0 radix2 (-149)). lra.
Qed.
Lemma round_0 : round32 0 = 0.
Proof. apply round_0. typeclasses eauto. Qed.
Lemma f32_0 : f32 0 = Some 0.
Proof. unfold f32. rewrite round_0, Rabs_R0. unfold Rltb. destruct (Rlt_dec 0 _); auto. exfalso. apply n. apply bpow_gt_0. Qed.
Lemma f32_some x r : round32 x = r -> Rabs r < bpow radix2 128 -> f32 x = Some r.
Proof. intros E L. unfold f32. rewrite E. unfold Rltb. destruct (Rlt_dec _ _); auto. contradiction. Qed.
(* the largest value *)
Lemma fold_max l : forall m0, let m := fold_left (fun m x => Rmax m (if Rltb x 0 then - x else x)) l m0 in
  m0 <= m /\ (forall x, In x l -> Rabs x <= m) /\ (m = m0 \/ exists x, In x l /\ Rabs x = m).
Proof.
  induction l as [|x l IH]; intros m0; cbn [fold_left In]; [split; [apply Rle_refl|]; split; [intros y []|auto]|].
  assert (A : (if Rltb x 0 then - x else x) = Rabs x) by (unfold Rltb, Rabs; destruct (Rlt_dec x 0), (Rcase_abs x); lra).
  rewrite A. specialize (IH (Rmax m0 (Rabs x))) as (P & Q & S). pose proof (Rmax_l m0 (Rabs x)). pose proof (Rmax_r m0 (Rabs x)).
  split; [lra|]. split.
  - intros y [<-|I]; [lra|auto].
  - destruct S as [S|(y & I & S)]; [|right; exists y; split; [right; exact I|exact S]].
    rewrite S. unfold Rmax. destruct (Rle_dec m0 (Rabs x)); [right; exists x; split; [left|]; reflexivity|left; reflexivity].
Qed.
Lemma maxval_is data m : is_max_abs data m -> m <> 0 -> maxval data = m.
Proof.
  intros [U (x & I & E)] N. unfold maxval. cbv zeta. destruct (fold_max data 0) as (P & Q & S).
  set (mm := fold_left _ data 0) in *. clearbody mm. assert (mm = m).
  { apply Rle_antisym; [|rewrite <- E; auto]. destruct S as [->|(y & J & <-)]; auto. rewrite <- E. apply Rabs_pos. }
  subst mm. destruct (Req_EM_T m 0); [contradiction|auto].
Qed.
Lemma maxval_zero data : (forall x, In x data -> x = 0) -> maxval data = 1.
Proof.
  intros H. unfold maxval. cbv zeta. destruct (fold_max data 0) as (P & Q & S). set (mm := fold_left _ data 0) in *. clearbody mm.
  assert (mm = 0). { destruct S as [S|(y & J & <-)]; auto. rewrite (H y J). apply Rabs_R0. } subst. destruct (Req_EM_T 0 0); auto. contradiction.
Qed.
Lemma trunc_near z : Rabs (z - IZR (Ztrunc z)) < 1 /\ Rabs (IZR (Ztrunc z)) <= Rabs z.
Proof.
  destruct (Rle_or_lt 0 z) as [H|H].
  - rewrite Ztrunc_floor by auto. pose proof (Zfloor_lb z). pose proof (Zfloor_ub z). pose proof (IZR_le 0 (Zfloor z) (Zfloor_lub 0 z H)).
    rewrite !Rabs_pos_eq by lra. lra.
  - rewrite Ztrunc_ceil by lra. pose proof (Zceil_ub z). pose proof (Zceil_lb z). pose proof (IZR_le (Zceil z) 0 (Zceil_glb 0 z ltac:(lra))).
    rewrite (Rabs_left1 (z - _)), (Rabs_left1 (IZR _)), (Rabs_left1 z) by lra. lra.
Qed.
Lemma prod2 a b : Rabs a <= 8 * u -> Rabs b <= u -> Rabs ((1 + a) * (1 + b) - 1) <= Rabs a + u + / 1048576 * u.
Proof.
  intros A B. replace ((1 + a) * (1 + b) - 1) with (a + b + a * b) by ring. pose proof (Rabs_triang (a + b) (a * b)). pose proof (Rabs_triang a b).
  rewrite Rabs_mult in H. assert (Rabs a * Rabs b <= 8 * u * u) by (apply Rmult_le_compat; auto; apply Rabs_pos). unfold u in *. lra.
Qed.

Section One.
Variables (m : R).
Hypotheses (L : bpow radix2 (-110) <= m) (U : m <= bpow radix2 127).
Let Q : R := m / 32767.
Lemma m_pos : 0 < m.
Proof. pose proof (bpow_gt_0 radix2 (-110)). lra. Qed.
Lemma Q_pos : 0 < Q.
Proof. unfold Q. pose proof m_pos. lra. Qed.
Lemma scale_val : exists e s, f32 (32767 / m) = Some s /\ Rabs e <= u /\ s = / Q * (1 + e).
Proof.
  pose proof m_pos as MP. assert (IQ : 32767 / m = / Q) by (unfold Q; field; lra).
  assert (B1 : bpow radix2 (-126) <= 32767 / m).
  { apply Rle_trans with (32767 / bpow radix2 127).
    - unfold Rdiv. rewrite <- bpow_opp. change (-126)%Z with (1 + - (127))%Z. rewrite bpow_plus. change (bpow radix2 1) with 2. pose proof (bpow_gt_0 radix2 (- (127))). lra.
    - unfold Rdiv. apply Rmult_le_compat_l; [lra|]. apply Rinv_le_contravar; auto. }
  assert (B2 : 32767 / m <= bpow radix2 126).
  { apply Rle_trans with (32767 / bpow radix2 (-110)).
    - unfold Rdiv. apply Rmult_le_compat_l; [lra|]. apply Rinv_le_contravar; auto. apply bpow_gt_0.
    - unfold Rdiv. rewrite <- bpow_opp. change (- (-110))%Z with 110%Z. change 126%Z with (16 + 110)%Z. rewrite bpow_plus. change (bpow radix2 16) with 65536. pose proof (bpow_gt_0 radix2 110). lra. }
  destruct (round_normal (32767 / m)) as (e & E & F). { rewrite Rabs_pos_eq; auto. pose proof (bpow_ge_0 radix2 (-126)). lra. }
  exists e, (32767 / m * (1 + e)). split; [|split; auto; rewrite IQ; auto]. apply f32_some; auto.
  pose proof (bpow_gt_0 radix2 126) as X. apply Rabs_le_inv in E. unfold u in E.
  assert (D : 0 < 32767 / m) by (pose proof (bpow_gt_0 radix2 (-126)); lra). rewrite Rabs_pos_eq by (apply Rmult_le_pos; lra).
  change 128%Z with (126 + 2)%Z. rewrite bpow_plus. change (bpow radix2 2) with 4.
  apply Rle_lt_trans with (bpow radix2 126 * 2); [apply Rmult_le_compat; lra|lra].
Qed.
Lemma tscale_val : exists e t, f32 Q = Some t /\ Rabs e <= u /\ t = Q * (1 + e).
Proof.
  pose proof Q_pos. assert (B1 : bpow radix2 (-126) <= Q).
  { unfold Q. apply Rle_trans with (bpow radix2 (-110) / 32767); [|lra]. change (-110)%Z with (16 + -126)%Z. rewrite bpow_plus. change (bpow radix2 16) with 65536. pose proof (bpow_gt_0 radix2 (-126)). lra. }
  destruct (round_normal Q) as (e & E & F); [rewrite Rabs_pos_eq by lra; auto|]. exists e, (Q * (1 + e)). split; [|split; auto]. apply f32_some; auto.
  apply Rabs_le_inv in E. unfold u in E. rewrite Rabs_pos_eq by (apply Rmult_le_pos; lra).
  pose proof (bpow_gt_0 radix2 127). change 128%Z with (127 + 1)%Z. rewrite bpow_plus. change (bpow radix2 1) with 2.
  apply Rlt_trans with (Q * 2); [apply Rmult_lt_compat_l; lra|]. unfold Q. lra.
Qed.
(* one sample *)
Lemma sample x e1 e3 s t : Rabs x <= m -> Rabs e1 <= u -> Rabs e3 <= u -> s = / Q * (1 + e1) -> t = Q * (1 + e3) ->
  exists q r, option_map Ztrunc (f32 (s * x)) = Some q /\ (Z.abs q <= 32767)%Z /\ f32 (t * IZR q) = Some r /\ Rabs (r - x) <= 1.01 * Q.
Proof.
  intros X E1 E3 S T. pose proof Q_pos as QP. assert (MQ : m = 32767 * Q) by (unfold Q; field).
  destruct (round_any (s * x)) as (e2 & n & E2 & N & Z). set (z := round32 (s * x)) in *.
  assert (N' : Rabs n <= / 1048576). { eapply Rle_trans; [exact N|]. apply Rle_trans with (bpow radix2 (-20)); [apply bpow_le; lia|cbn; lra]. }
  assert (P12 : Rabs ((1 + e1) * (1 + e2) - 1) <= 2.01 * u). { pose proof (prod2 e1 e2 ltac:(unfold u in *; lra) E2). unfold u in *. lra. }
  set (p := (1 + e1) * (1 + e2) - 1) in *.
  assert (P123 : Rabs ((1 + p) * (1 + e3) - 1) <= 3.1 * u). { pose proof (prod2 p e3 ltac:(unfold u in *; lra) E3). unfold u in *. lra. }
  assert (ZX : z = / Q * x * (1 + p) + n). { rewrite Z, S. unfold p. ring. }
  assert (XQ : Rabs (/ Q * x) <= 32767).
  { rewrite Rabs_mult, Rabs_inv, (Rabs_pos_eq Q) by lra. apply Rmult_le_reg_l with Q; auto. rewrite <- Rmult_assoc, Rinv_r, Rmult_1_l by lra. lra. }
  assert (ZB : Rabs z <= 32767.01).
  { rewrite ZX. eapply Rle_trans; [apply Rabs_triang|]. rewrite Rabs_mult. assert (Rabs (1 + p) <= 1 + 2.01 * u).
    { eapply Rle_trans; [apply Rabs_triang|]. rewrite Rabs_R1. lra. }
    assert (Rabs (/ Q * x) * Rabs (1 + p) <= 32767 * (1 + 2.01 * u)) by (apply Rmult_le_compat; auto; apply Rabs_pos). unfold u in *. lra. }
  assert (F1 : f32 (s * x) = Some z). { apply f32_some; auto. eapply Rle_lt_trans; [exact ZB|]. apply Rlt_le_trans with (bpow radix2 16); [cbn; lra|apply bpow_le; lia]. }
  set (q := Ztrunc z). destruct (trunc_near z) as [TN TB]. fold q in TN, TB.
  assert (QB : (Z.abs q <= 32767)%Z).
  { assert (H : Rabs (IZR q) < 32768) by lra. rewrite <- abs_IZR in H. apply lt_IZR in H. lia. }
  assert (QB' : Rabs (IZR q) <= 32767) by (rewrite <- abs_IZR; apply IZR_le; auto).
  assert (TP : Q * (1 - u) <= t <= Q * (1 + u)). { apply Rabs_le_inv in E3. rewrite T. split; apply Rmult_le_compat_l; lra. }
  assert (TQ : Rabs (t * IZR q - x) <= Q * (1 + u) + 32767 * Q * (3.1 * u) + Q * (1 + u) * / 1048576).
  { replace (t * IZR q - x) with (- (t * (z - IZR q)) + (x * ((1 + p) * (1 + e3) - 1) + t * n)) by (rewrite ZX, T; field; lra).
    eapply Rle_trans; [apply Rabs_triang|]. rewrite Rabs_Ropp, Rplus_assoc. apply Rplus_le_compat.
    - rewrite Rabs_mult, (Rabs_pos_eq t) by (unfold u in *; nra). assert (Rabs (z - IZR q) <= 1) by lra.
      apply Rle_trans with (t * 1); [apply Rmult_le_compat_l; auto; unfold u in *; nra|lra].
    - eapply Rle_trans; [apply Rabs_triang|]. rewrite !Rabs_mult. apply Rplus_le_compat.
      + apply Rmult_le_compat; auto; try apply Rabs_pos. lra.
      + apply Rmult_le_compat; auto; try apply Rabs_pos. rewrite Rabs_pos_eq; [lra|unfold u in *; nra]. }
  exists q. destruct (Z.eq_dec q 0) as [Q0|Q0].
  - exists 0. split; [rewrite F1; auto|]. split; auto. rewrite Q0 in *. rewrite Rmult_0_r in *. split; [apply f32_0|]. unfold u in *. lra.
  - assert (Q1 : 1 <= Rabs (IZR q)). { rewrite <- abs_IZR. apply IZR_le. lia. }
    assert (TQ1 : Rabs (t * IZR q) <= 32767 * (Q * (1 + u))).
    { rewrite Rabs_mult, Rmult_comm. apply Rmult_le_compat; auto; try apply Rabs_pos. rewrite Rabs_pos_eq; [lra|unfold u in *; nra]. }
    destruct (round_normal (t * IZR q)) as (e4 & E4 & F4).
    { rewrite Rabs_mult. apply Rle_trans with (Rabs t * 1); [|apply Rmult_le_compat_l; auto; apply Rabs_pos]. rewrite Rabs_pos_eq by (unfold u in *; nra).
      apply Rle_trans with (bpow radix2 (-110) / 32767 * (1 - u)).
      - change (-110)%Z with (16 + -126)%Z. rewrite bpow_plus. change (bpow radix2 16) with 65536. pose proof (bpow_gt_0 radix2 (-126)). unfold u. lra.
      - unfold u in *. unfold Q in *. lra. }
    exists (t * IZR q * (1 + e4)). split; [rewrite F1; auto|]. split; auto. split.
    + apply f32_some; auto. rewrite Rabs_mult. assert (Rabs (1 + e4) <= 1 + u) by (eapply Rle_trans; [apply Rabs_triang|]; rewrite Rabs_R1; lra).
      assert (Rabs (t * IZR q) * Rabs (1 + e4) <= (32767 * (Q * (1 + u))) * (1 + u)) by (apply Rmult_le_compat; auto; apply Rabs_pos).
      eapply Rle_lt_trans; [exact H0|]. change 128%Z with (127 + 1)%Z. rewrite bpow_plus. change (bpow radix2 1) with 2. pose proof (bpow_gt_0 radix2 127). unfold u in *. nra.
    + replace (t * IZR q * (1 + e4) - x) with ((t * IZR q - x) + t * IZR q * e4) by ring. eapply Rle_trans; [apply Rabs_triang|]. rewrite (Rabs_mult (t * IZR q)).
      assert (Rabs (t * IZR q) * Rabs e4 <= 32767 * (Q * (1 + u)) * u) by (apply Rmult_le_compat; auto; apply Rabs_pos). unfold u in *. lra.
Qed.
End One.

Lemma map_opt_forall {A B} (f : A -> option B) P l : (forall x, In x l -> exists y, f x = Some y /\ P x y) -> exists ys, map_opt f l = Some ys /\ Forall2 P l ys.
Proof.
  induction l as [|x l IH]; intros H; cbn [map_opt]; [eauto|]. destruct (H x (or_introl eq_refl)) as (y & E & Y). rewrite E.
  destruct IH as (ys & F & G); [intros z I; apply H; cbn; auto|]. rewrite F. eauto.
Qed.
Lemma be2_length q : length (concat (map (be_bytes 2) q)) = (2 * length q)%nat.
Proof. induction q as [|v q IH]; cbn [map concat length]; auto. rewrite app_length, IH. cbn. lia. Qed.
Lemma stored q : Forall (fun v => (Z.abs v <= 32767)%Z) q -> exists d, store16 q = Ok d /\ length d = (2 * length q)%nat /\ load16 (length q) d = Ok q.
Proof.
  intros H. destruct (C04_int16_roundtrip q) as (d & m & E & F & G & W). exists d. split; auto. unfold load16. rewrite F. cbn [bind].
  assert (FS : Forall (fits_signed 2) q). { eapply Forall_impl; [|exact H]. intros v V. cbv beta in V. unfold fits_signed. cbn. lia. }
  split; [|rewrite G, (W FS); auto]. rewrite pack16_array in E. assert (D : d = concat (map (be_bytes 2) q)) by congruence. rewrite D. apply be2_length.
Qed.
Lemma Forall2_map_r {A B C} (P : A -> C -> Prop) (f : B -> C) l1 l2 : Forall2 (fun a b => P a (f b)) l1 l2 -> Forall2 P l1 (map f l2).
Proof. induction 1; cbn; auto. Qed.

(* every component of a record read back differs from the one written by at most 1.01 times the
   largest absolute value of the record over 32767; and 2 bytes are used per component *)
Theorem C17_quantum data m : is_max_abs data m -> bpow radix2 (-110) <= m <= bpow radix2 127 ->
  exists back, write_read data = Ok back /\
    Forall2 (fun x r => exists v, r = Some v /\ Rabs (v - x) <= 1.01 * (m / 32767)) data back.
Proof.
  intros IM [L U]. pose proof (m_pos m L) as MP. pose proof (maxval_is data m IM ltac:(lra)) as MV.
  destruct (scale_val m L U) as (e1 & s & S1 & S2 & S3). destruct (tscale_val m L U) as (e3 & t & T1 & T2 & T3).
  destruct (map_opt_forall (fun x => option_map Ztrunc (f32 (s * x)))
    (fun x q => (Z.abs q <= 32767)%Z /\ exists r, f32 (t * IZR q) = Some r /\ Rabs (r - x) <= 1.01 * (m / 32767)) data) as (q & M & F).
  { intros x I. destruct IM as [IM _]. destruct (sample m L U x e1 e3 s t (IM x I) S2 T2 S3 T3) as (q & r & A & B & C & D). exists q. split; auto. split; auto. exists r. auto. }
  unfold write_read, quantise. rewrite MV, S1, T1, M. cbn [bind].
  assert (QB : Forall (fun v => (Z.abs v <= 32767)%Z) q). { clear - F. induction F; constructor; tauto. }
  destruct (stored q QB) as (d & D1 & _ & D2). rewrite D1. cbn [bind]. rewrite D2. cbn [bind]. eexists. split; [reflexivity|]. unfold restore. apply Forall2_map_r.
  clear - F. induction F as [|x v l1 l2 [_ (r & A & B)] F IH]; constructor; auto. exists r. auto.
Qed.
(* components that are zero stay zero, whatever the rest of the record *)
Lemma f32_trunc_0 s : option_map Ztrunc (f32 (s * 0)) = Some 0%Z.
Proof. rewrite Rmult_0_r, f32_0. cbn. rewrite Ztrunc_IZR. auto. Qed.
Lemma map_opt_nth {A B} (f : A -> option B) l ys : map_opt f l = Some ys -> length ys = length l /\ forall i x, nth_error l i = Some x -> exists y, f x = Some y /\ nth_error ys i = Some y.
Proof.
  revert ys. induction l as [|x l IH]; intros ys E; cbn [map_opt] in E; [injection E as <-; split; auto; intros [|i] x X; discriminate|].
  destruct (f x) as [y|] eqn:Y; [|discriminate]. destruct (map_opt f l) as [s|]; [|discriminate]. injection E as <-. destruct (IH s eq_refl) as [L N].
  split; [cbn; auto|]. intros [|i] z Z; cbn in *; [injection Z as <-; eauto|auto].
Qed.
Theorem C17_zero_component data back i : write_read data = Ok back -> nth_error data i = Some 0 -> nth_error back i = Some (Some 0).
Proof.
  unfold write_read, quantise. destruct (f32 (maxval data / 32767)) as [t|]; [|discriminate]. destruct (f32 (32767 / maxval data)) as [s|]; [|discriminate].
  destruct (map_opt _ data) as [q|] eqn:M; [|discriminate]. cbn [bind]. intros E I. apply map_opt_nth in M as [ML M]. destruct (M i 0 I) as (y & Y & N).
  rewrite f32_trunc_0 in Y. injection Y as <-. destruct (C04_int16_roundtrip q) as (d & mm & E1 & F1 & G1 & _). unfold store16, load16 in E. rewrite E1 in E. cbn [bind] in E.
  rewrite F1 in E. cbn [bind] in E. rewrite G1 in E. injection E as <-. unfold restore. rewrite map_map. rewrite nth_error_map, N. cbn [option_map]. f_equal.
  change (wrap16 0) with 0%Z. rewrite Rmult_0_r. apply f32_0.
Qed.
Lemma nth_error_ext {A} (l1 l2 : list A) : (forall i, nth_error l1 i = nth_error l2 i) -> l1 = l2.
Proof.
  revert l2. induction l1 as [|a l1 IH]; intros [|b l2] H; auto; try (specialize (H O); discriminate).
  pose proof (H O) as E. injection E as <-. f_equal. apply IH. intros i. exact (H (S i)).
Qed.
Theorem C17_zeros data : (forall x, In x data -> x = 0) -> write_read data = Ok (map (fun _ => Some 0) data).
Proof.
  intros H. assert (E : exists back, write_read data = Ok back).
  { assert (B1 : bpow radix2 (-110) <= 1) by (change 1 with (bpow radix2 0); apply bpow_le; lia). assert (B2 : 1 <= bpow radix2 127) by (change 1 with (bpow radix2 0); apply bpow_le; lia).
    destruct (scale_val 1 B1 B2) as (e1 & s & S1 & _). destruct (tscale_val 1 B1 B2) as (e3 & t & T1 & _).
    unfold write_read, quantise. rewrite (maxval_zero data H), S1, T1.
    destruct (map_opt_forall (fun x => option_map Ztrunc (f32 (s * x))) (fun _ q => (Z.abs q <= 32767)%Z) data) as (q & M & F).
    { intros x I. rewrite (H x I), f32_trunc_0. exists 0%Z. split; auto. lia. }
    rewrite M. cbn [bind]. assert (QB : Forall (fun v => (Z.abs v <= 32767)%Z) q). { clear - F. induction F; constructor; auto. }
    destruct (stored q QB) as (d & D1 & _ & D2). rewrite D1. cbn [bind]. rewrite D2. cbn. eauto. }
  destruct E as [back E]. rewrite E. f_equal. assert (L : length back = length data).
  { unfold write_read, quantise in E. destruct (f32 (maxval data / 32767)) as [t|]; [|discriminate]. destruct (f32 (32767 / maxval data)) as [s|]; [|discriminate].
    destruct (map_opt _ data) as [q|] eqn:M; [|discriminate]. cbn [bind] in E. apply map_opt_nth in M as [ML _].
    destruct (C04_int16_roundtrip q) as (d & mm & E1 & F1 & G1 & _). unfold store16, load16 in E. rewrite E1 in E. cbn [bind] in E. rewrite F1 in E. cbn [bind] in E. rewrite G1 in E.
    injection E as <-. unfold restore. rewrite !map_length. auto. }
  apply nth_error_ext. intros i. rewrite nth_error_map. destruct (nth_error data i) as [x|] eqn:N; cbn [option_map].
  - apply (C17_zero_component _ _ _ E). rewrite N. f_equal. apply H. eapply nth_error_In, N.
  - apply nth_error_None. rewrite L. apply nth_error_None. auto.
Qed.

(* ---- values ---- *)
Lemma round32_val x e n : bpow radix2 (e - 1) <= x < bpow radix2 e -> (-125 <= e)%Z -> Rabs (x * bpow radix2 (24 - e) - IZR n) < / 2 -> round32 x = IZR n * bpow radix2 (e - 24).
Proof.
  intros B E N. unfold round32, round, scaled_mantissa, cexp. assert (P : 0 < x) by (pose proof (bpow_gt_0 radix2 (e - 1)); lra).
  rewrite (mag_unique radix2 x e) by (rewrite Rabs_pos_eq by lra; auto).
  replace (FLT_exp (-149) 24 e) with (e - 24)%Z by (unfold FLT_exp; lia). replace (- (e - 24))%Z with (24 - e)%Z by lia.
  rewrite (Znearest_imp _ _ n); auto.
Qed.
Lemma f32_val x e n : bpow radix2 (e - 1) <= x < bpow radix2 e -> (-125 <= e <= 126)%Z -> Rabs (x * bpow radix2 (24 - e) - IZR n) < / 2 -> (0 <= n <= 33554432)%Z ->
  f32 x = Some (IZR n * bpow radix2 (e - 24)).
Proof.
  intros B E N L. rewrite (f32_some _ _ (round32_val x e n B ltac:(lia) N)); auto. pose proof (bpow_gt_0 radix2 (e - 24)). assert (H0 : 0 <= IZR n <= 33554432) by (split; apply IZR_le; lia).
  rewrite Rabs_pos_eq by (apply Rmult_le_pos; lra). apply Rle_lt_trans with (33554432 * bpow radix2 (e - 24)); [apply Rmult_le_compat_r; lra|].
  change 33554432 with (bpow radix2 25). rewrite <- bpow_plus. apply bpow_lt. lia.
Qed.
Lemma w1045 : write_read [1045] = Ok [Some (8560378 * bpow radix2 (11 - 24))].
Proof.
  unfold write_read, quantise. rewrite (maxval_is [1045] 1045); [|split; [intros x [<-|[]]; rewrite Rabs_pos_eq; lra|exists 1045; split; [left; auto|rewrite Rabs_pos_eq; lra]]|lra].
  rewrite (f32_val (1045 / 32767) (-4) 8560901); [|cbn; lra|lia|cbn; apply Rabs_def1; lra|lia].
  rewrite (f32_val (32767 / 1045) 5 16439564); [|cbn; lra|lia|cbn; apply Rabs_def1; lra|lia]. cbn [map_opt].
  rewrite (f32_val (16439564 * bpow radix2 (5 - 24) * 1045) 15 16776703); [|cbn; lra|lia|cbn; apply Rabs_def1; lra|lia]. cbn [option_map].
  replace (Ztrunc (16776703 * bpow radix2 (15 - 24))) with 32766%Z.
  2:{ symmetry. rewrite Ztrunc_floor by (cbn; lra). apply Zfloor_imp. cbn. lra. }
  cbn [bind]. destruct (stored [32766%Z]) as (d & D1 & _ & D2); [constructor; [lia|constructor]|]. rewrite D1. cbn [bind]. rewrite D2. cbn [bind restore map].
  rewrite (f32_val (8560901 * bpow radix2 (-4 - 24) * 32766) 11 8560378); [|cbn; lra|lia|cbn; apply Rabs_def1; lra|lia]. auto.
Qed.
Lemma max1045 : is_max_abs [1045] 1045.
Proof. split; [intros x [<-|[]]; rewrite Rabs_pos_eq; lra|]. exists 1045. split; [left; auto|rewrite Rabs_pos_eq; lra]. Qed.
Example C17_quantum_nonvacuous : is_max_abs [1045] 1045 /\ bpow radix2 (-110) <= 1045 <= bpow radix2 127 /\ exists v, write_read [1045] = Ok [Some v] /\ v <> 1045.
Proof.
  split; [apply max1045|]. split.
  - split; [apply Rle_trans with (bpow radix2 0); [apply bpow_le; lia|cbn; lra]|apply Rle_trans with (bpow radix2 11); [cbn; lra|apply bpow_le; lia]].
  - eexists. split; [exact w1045|]. cbn. lra.
Qed.
(* one quantum is not always enough: the single value 1045 comes back as 1044.968..., which is
   1.0028 quanta off: rounding makes the largest sample the integer 32766 *)
Theorem C17_one_quantum_refuted : ~ forall data m back, is_max_abs data m -> bpow radix2 (-110) <= m <= bpow radix2 127 -> write_read data = Ok back ->
  Forall2 (fun x r => exists v, r = Some v /\ Rabs (v - x) <= m / 32767) data back.
Proof.
  intros H. destruct C17_quantum_nonvacuous as (A & B & _). specialize (H _ _ _ A B w1045). inversion H as [|? ? ? ? (v & E & L)]. injection E as <-.
  apply Rabs_le_inv in L. cbn in L. lra.
Qed.
(* a record whose largest value is below 2^-113 cannot be scaled: 32767/maxval is infinite *)
Theorem C17_tiny_refuted : ~ forall data m, is_max_abs data m -> 0 < m -> generic_format radix2 (FLT_exp (-149) 24) m -> exists back, write_read data = Ok back.
Proof.
  intros H. set (m := bpow radix2 (-140)). pose proof (bpow_gt_0 radix2 (-140)) as P. fold m in P.
  assert (A : is_max_abs [m] m) by (split; [intros x [<-|[]]; rewrite Rabs_pos_eq; lra|exists m; split; [left; auto|rewrite Rabs_pos_eq; lra]]).
  destruct (H [m] m A P) as (back & E). { apply generic_format_FLT_bpow; [reflexivity|lia]. }
  unfold write_read, quantise in E. rewrite (maxval_is [m] m A ltac:(lra)) in E. destruct (f32 (m / 32767)); [|discriminate].
  destruct (f32 (32767 / m)) as [s|] eqn:F; [|discriminate]. unfold f32 in F. unfold Rltb in F. destruct (Rlt_dec _ _) as [L|L]; [|discriminate].
  assert (G : bpow radix2 128 <= round32 (32767 / m)).
  { replace (bpow radix2 128) with (round32 (bpow radix2 128)).
    - apply round_le; [apply FLT_exp_valid; reflexivity|typeclasses eauto|]. unfold m, Rdiv. rewrite <- bpow_opp. change (- (-140))%Z with 140%Z. change 140%Z with (12 + 128)%Z.
      rewrite bpow_plus. pose proof (bpow_gt_0 radix2 128). change (bpow radix2 12) with 4096. nra.
    - apply round_generic; [typeclasses eauto|]. apply generic_format_FLT_bpow; [reflexivity|lia]. }
  pose proof (bpow_gt_0 radix2 128). rewrite Rabs_pos_eq in L by lra. lra.
Qed.
Print Assumptions C17_quantum. Print Assumptions C17_zero_component. Print Assumptions C17_zeros. Print Assumptions C17_one_quantum_refuted. Print Assumptions C17_tiny_refuted.
