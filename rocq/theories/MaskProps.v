(* C09, C10: flag bitmaps. *)
From Verif Require Import Base MaskModel MaskSpec MaskProofs3 MaskProofs4 MaskProofs5.
From Verif Require Import MaskProofs1.
Ltac Zify.zify_post_hook ::= idtac.

(* C09 + C10. For every history of writes (in either form), reads (in either
   form), flushes and close/reopen on a freshly created flags item, whatever the
   uninitialised memory contains, every call returns what the specification
   MaskSpec.expected demands. *)
Theorem C09_mask_history : forall (file_garbage buf_garbage : Z -> Z) (ops : list mop),
  Forall valid_op ops ->
  expected_all empty_bitmap ops (mrun (mkopen_new file_garbage buf_garbage) ops).
Proof. intros f g ops HV. apply run_spec; [apply R_empty|apply Inv_new|exact HV]. Qed.

(* The particular case a user states: store, do anything that does not store
   over it, read back. *)
Theorem C09_mask_write_read : forall f g before a fl between r,
  Forall valid_op before -> 0 <= a -> Forall valid_op between ->
  (forall b fl', In (OWrite b fl') between ->
     b + Z.of_nat (length fl') <= a \/ a + Z.of_nat (length fl) <= b) ->
  (forall b n rs, In (OWriteRuns b n rs) between -> b + n <= a \/ a + Z.of_nat (length fl) <= b) ->
  nth_error (mrun (mkopen_new f g) (before ++ OWrite a fl :: between ++ [ORead a (Z.of_nat (length fl))]))
            (length before + 1 + length between) = Some r ->
  r = RFlags (Ret fl).
Proof.
  intros f g before a fl between r V1 Ha V2 N1 N2 Hr.
  assert (V : Forall valid_op (before ++ OWrite a fl :: between ++ [ORead a (Z.of_nat (length fl))])).
  { apply Forall_app. split; [exact V1|]. constructor; [exact Ha|]. apply Forall_app. split; [exact V2|].
    constructor; [|constructor]. cbn. lia. }
  pose proof (C09_mask_history f g _ V) as H. clear V V1.
  revert H Hr. generalize (mrun (mkopen_new f g) (before ++ OWrite a fl :: between ++ [ORead a (Z.of_nat (length fl))])).
  generalize empty_bitmap.
  induction before as [|o before IH]; intros K xs H Hr.
  - cbn [app length Nat.add] in *. destruct xs as [|x xs]; [destruct H|]. cbn [expected_all] in H. destruct H as [_ H].
    cbn [nth_error] in Hr.
    assert (HK : holds (spec_step K (OWrite a fl)) a (Z.of_nat (length fl)) fl).
    { split; [reflexivity|]. intros k Hk. cbn [spec_step]. unfold store.
      replace ((a <=? a + k) && (a + k <? a + Z.of_nat (length fl))) with true by lia.
      do 3 f_equal. lia. }
    revert HK H Hr. generalize (spec_step K (OWrite a fl)). clear K x.
    intros K; revert K xs.
    induction between as [|o between IHb]; intros K xs HK H Hr.
    + cbn [app length] in *. destruct xs as [|x xs]; [destruct H|]. cbn in Hr. inversion Hr; subst x.
      destruct H as [[_ H] _]. destruct H as [fl' [E1 [E2 E3]]].
      { intros k Hk. rewrite (proj2 HK) by lia. discriminate. }
      rewrite E1. do 2 f_equal. apply nth_ext with (d := false) (d' := false); [lia|].
      intros k Hk. assert (Hk' : 0 <= Z.of_nat k < Z.of_nat (length fl)) by lia.
      pose proof (E3 _ Hk') as A1. pose proof (proj2 HK _ Hk') as A2. rewrite A1 in A2. inversion A2 as [A3].
      rewrite Nat2Z.id in A3. exact A3.
    + cbn [app length] in *. destruct xs as [|x xs]; [destruct H|]. cbn in Hr. destruct H as [_ H].
      inversion V2; subst.
      apply (IHb H3 (fun b fl' Hin => N1 b fl' (or_intror Hin)) (fun b n rs Hin => N2 b n rs (or_intror Hin)) (spec_step K o) xs); auto.
      destruct HK as [HK1 HK2]. split; [exact HK1|]. intros k Hk. rewrite <- HK2 by lia.
      destruct o as [b fl'|b n rs|b n|b n| |g']; cbn [spec_step]; try reflexivity.
      * unfold store. specialize (N1 b fl' (or_introl eq_refl)).
        replace ((b <=? a + k) && (a + k <? b + Z.of_nat (length fl'))) with false by lia. reflexivity.
      * unfold store. specialize (N2 b n rs (or_introl eq_refl)). rewrite runs_flags_length.
        destruct H2 as [V3 [V4 V5]].
        replace ((b <=? a + k) && (a + k <? b + Z.of_nat (Z.to_nat n))) with false by lia. reflexivity.
  - cbn [app length Nat.add] in *. destruct xs as [|x xs]; [destruct H|]. cbn [nth_error] in Hr.
    destruct H as [_ H]. apply (IH _ xs H Hr).
Qed.

(* C10: the run-length form is canonical, so runs written are the runs read. *)
Theorem C10_runs_canonical : forall n rs rs',
  runs_maximal (-1) n rs -> runs_maximal (-1) n rs' -> runs_flags rs n = runs_flags rs' n -> rs = rs'.
Proof.
  intros n rs rs' H H' E. apply (maximal_unique rs (-1) n); auto. intros k Hk.
  destruct (Z.eq_dec k 0) as [->|].
  - assert (P : forall r, runs_maximal (-1) n r -> in_runs r 0 = false).
    { intros r Hr. destruct r as [|s [|e r]]; [reflexivity|destruct Hr|]. destruct Hr as [A [B [C D]]].
      cbn [in_runs]. rewrite (in_runs_low r e n) by (try (apply maximal_wf; exact D); lia). lia. }
    rewrite (P rs H), (P rs' H'). reflexivity.
  - assert (E2 : nth (Z.to_nat (k - 1)) (runs_flags rs n) false = nth (Z.to_nat (k - 1)) (runs_flags rs' n) false) by (rewrite E; reflexivity).
    rewrite !runs_flags_nth in E2 by lia. replace (k - 1 + 1) with k in E2 by lia. exact E2.
Qed.

Theorem C10_runs_roundtrip : forall f g before a n rs r,
  Forall valid_op before -> 0 <= a -> 0 <= n -> runs_maximal (-1) n rs ->
  nth_error (mrun (mkopen_new f g) (before ++ [OWriteRuns a n rs; OReadRuns a n])) (length before + 1) = Some r ->
  r = RRuns (Ret rs).
Proof.
  intros f g before a n rs r V1 Ha Hn Hm Hr.
  assert (W : runs_wf 0 n rs).
  { pose proof (maximal_wf _ _ _ Hm) as W. destruct rs as [|s [|e r0]]; [exact I|destruct Hm|].
    cbn [runs_maximal runs_wf] in *. destruct W as [W1 [W2 [W3 W4]]]. repeat split; auto; lia. }
  assert (V : Forall valid_op (before ++ [OWriteRuns a n rs; OReadRuns a n])).
  { apply Forall_app. split; [exact V1|]. repeat constructor; auto. }
  pose proof (C09_mask_history f g _ V) as H. clear V V1. revert H Hr.
  generalize (mrun (mkopen_new f g) (before ++ [OWriteRuns a n rs; OReadRuns a n])). generalize empty_bitmap.
  induction before as [|o before IH]; intros K xs H Hr.
  - cbn [app length Nat.add] in *. destruct xs as [|x [|y xs]]; [destruct H|destruct H as [_ []]|].
    cbn in Hr. inversion Hr; subst y. destruct H as [_ [[_ H] _]].
    assert (HS : forall k, 0 <= k < n -> store K a (runs_flags rs n) (a + k) = Some (nth (Z.to_nat k) (runs_flags rs n) false)).
    { intros k Hk. unfold store. rewrite runs_flags_length.
      replace ((a <=? a + k) && (a + k <? a + Z.of_nat (Z.to_nat n))) with true by lia. do 3 f_equal. lia. }
    destruct H as [rs' [E1 [E2 [E3 E4]]]].
    { intros k Hk. cbn [spec_step]. rewrite HS by lia. discriminate. }
    rewrite E1. do 2 f_equal. apply (C10_runs_canonical n); auto.
    apply nth_ext with (d := false) (d' := false); [rewrite !runs_flags_length; reflexivity|].
    intros k Hk. rewrite runs_flags_length in Hk. assert (Hk' : 0 <= Z.of_nat k < n) by lia.
    pose proof (E4 _ Hk') as A1. cbn [spec_step] in A1. rewrite HS in A1 by lia. inversion A1 as [A2].
    rewrite Nat2Z.id in A2. symmetry. exact A2.
  - cbn [app length Nat.add] in *. destruct xs as [|x xs]; [destruct H|]. cbn [nth_error] in Hr.
    destruct H as [_ H]. apply (IH _ xs H Hr).
Qed.

(* A concrete history meeting the hypotheses, crossing the 3968-bit window and
   run through the model. *)
Definition ex_ops : list mop :=
  [OWrite 3960 [true; false; true; true; false; false; false; true; true; true];
   OWriteRuns 0 40 [2; 5; 31; 33]; OReopen (fun _ => 7); OReadRuns 0 40; OWrite 3 [false]; OFlush; ORead 0 6;
   ORead 3960 10; OReadRuns 3960 10; ORead 5000 1].
Example ex_ops_valid : Forall valid_op ex_ops.
Proof. unfold ex_ops. repeat constructor; cbn; lia. Qed.
Example ex_ops_run : mrun (mkopen_new (fun _ => 5) (fun _ => 9)) ex_ops =
  [RUnit (Ret tt); RUnit (Ret tt); RUnit (Ret tt); RRuns (Ret [2; 5; 31; 33]); RUnit (Ret tt); RUnit (Ret tt);
   RFlags (Ret [false; true; true; false; true; false]);
   RFlags (Ret [true; false; true; true; false; false; false; true; true; true]);
   RRuns (Ret [1; 1; 3; 4; 8; 10]); RFlags Bug].
Proof. vm_compute. reflexivity. Qed.
Example ex_maximal : runs_maximal (-1) 40 [2; 5; 31; 33].
Proof. cbn. lia. Qed.

Print Assumptions C09_mask_history.
Print Assumptions C09_mask_write_read.
Print Assumptions C10_runs_canonical.
Print Assumptions C10_runs_roundtrip.
