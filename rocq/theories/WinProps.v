(* C46: windows are symmetric, bounded, rise to the middle and peak there. *)
From Coq Require Import Reals Lra String.
From Verif Require Import Base CleanModel GridModel GridProofs WinModel WinSpec WinProofs.
Ltac Zify.zify_post_hook ::= idtac.
Open Scope R_scope.
Local Notation length := List.length.

(* every window but parzen and none, for every length from 2 on *)
Definition proper_window (name : string) : Prop :=
  In name ["blackman"; "blackman-harris"; "gaussian0.4"; "kaiser2"; "kaiser3"; "hamming"; "hanning"; "tukey"; "barthann"]%string.
Theorem C46_window i0 L name : bessel0 i0 -> (2 <= L)%Z -> proper_window name ->
  exists w, gen_window i0 L name None = Ok (Arr w) /\ good_window L w.
Proof.
  intros B0 HL H. unfold gen_window. replace (L <? 0)%Z with false by (symmetry; apply Z.ltb_ge; lia).
  assert (K2 := kaiser_good L HL i0 2 B0 ltac:(lra)). assert (K3 := kaiser_good L HL i0 3 B0 ltac:(lra)).
  repeat (destruct H as [<- | H]; [eexists; split; [reflexivity|]; auto using hamming_good, hanning_good, blackman_good, blackman_harris_good, gaussian_good, barthann_good, tukey_good|]). contradiction.
Qed.
(* tukey with any alpha *)
Theorem C46_tukey i0 L alpha : (2 <= L)%Z -> exists w, gen_window i0 L "tukey" (Some alpha) = Ok (Arr w) /\ good_window L w.
Proof. intros HL. unfold gen_window. replace (L <? 0)%Z with false by (symmetry; apply Z.ltb_ge; lia). eexists. split; [reflexivity|]. apply tukey_good. auto. Qed.
(* its two ends: alpha = 0 is a rectangle and alpha = 1 the hanning window *)
Theorem C46_tukey_ends i0 L : (0 <= L)%Z -> gen_window i0 L "tukey" (Some 0) = Ok (Arr (repeat 1 (Z.to_nat L))) /\
  gen_window i0 L "tukey" (Some 1) = gen_window i0 L "hanning" None.
Proof.
  intros HL. unfold gen_window. replace (L <? 0)%Z with false by (symmetry; apply Z.ltb_ge; lia). cbn. unfold tukey.
  destruct (Rle_dec 0 0); [|lra]. destruct (Rle_dec 1 0); [lra|]. destruct (Rle_dec 1 1); [|lra]. auto.
Qed.
(* parzen is bounded and has L samples, but it is symmetric about sample L/2 and starts from 0 *)
Theorem C46_parzen i0 L : (2 <= L)%Z -> exists w, gen_window i0 L "parzen" None = Ok (Arr w) /\ Z.of_nat (length w) = L /\ bounded01 w /\
  nth 0 w 0 = 0 /\ forall k, (0 < k < length w)%nat -> nth (length w - k) w 0 = nth k w 0.
Proof.
  intros HL. unfold gen_window. replace (L <? 0)%Z with false by (symmetry; apply Z.ltb_ge; lia). eexists. split; [reflexivity|]. rewrite indices_map, of_fun_length.
  assert (L2 : 2 <= IZR L) by (apply IZR_le; auto). split; [lia|]. split; [|split].
  - apply Forall_forall. intros x X. apply in_map_iff in X as (k & <- & K). apply in_seq in K. unfold parzen.
    assert (KL : 0 <= INR k <= IZR L). { split; [apply pos_INR|]. rewrite INR_IZR_INZ. apply IZR_le. lia. }
    assert (A : 0 <= Rabs (IZR L / 2 - INR k) / (IZR L / 2) <= 1); [|lra]. split.
    + apply Rmult_le_pos; [apply Rabs_pos|]. left. apply Rinv_0_lt_compat. lra.
    + apply (Rmult_le_reg_r (IZR L / 2)); [lra|]. unfold Rdiv at 1. rewrite Rmult_assoc, Rinv_l by lra. unfold Rabs. destruct (Rcase_abs _); lra.
  - rewrite of_fun_nth by lia. unfold parzen. cbn [INR]. rewrite Rminus_0_r, Rabs_pos_eq by lra. field. lra.
  - intros k K. rewrite !of_fun_nth by lia. unfold parzen. rewrite minus_INR by lia. rewrite (INR_IZR_INZ (Z.to_nat L)), Z2Nat.id by lia.
    replace (IZR L / 2 - (IZR L - INR k)) with (- (IZR L / 2 - INR k)) by field. rewrite Rabs_Ropp. auto.
Qed.
(* findings: parzen is not symmetric for any length; none is one number, not L of them; tukey
   gives two samples when asked for one *)
Theorem C46_parzen_refuted i0 L w : (2 <= L)%Z -> gen_window i0 L "parzen" None = Ok (Arr w) -> ~ symmetric w.
Proof.
  intros HL E S. unfold gen_window in E. replace (L <? 0)%Z with false in E by (symmetry; apply Z.ltb_ge; lia). cbn in E. injection E as <-. rewrite indices_map in S.
  specialize (S 0%nat). rewrite of_fun_length in S. specialize (S ltac:(lia)). rewrite !of_fun_nth in S by lia. unfold parzen in S. rewrite Nat.sub_0_r, minus_INR in S by lia.
  rewrite (INR_IZR_INZ (Z.to_nat L)), Z2Nat.id in S by lia. cbn [INR] in S. assert (L2 : 2 <= IZR L) by (apply IZR_le; auto). assert (A : Rabs (IZR L / 2 - (IZR L - 1)) < IZR L / 2) by (unfold Rabs; destruct (Rcase_abs _); lra).
  rewrite Rminus_0_r, (Rabs_pos_eq (IZR L / 2)) in S by lra. unfold Rdiv at 1 4 in S.
  assert (Rabs (IZR L / 2 - (IZR L - 1)) * / (IZR L / 2) < 1); [|replace (IZR L / 2 * / (IZR L / 2)) with 1 in S by (field; lra); lra].
  apply (Rmult_lt_reg_r (IZR L / 2)); [lra|]. rewrite Rmult_assoc, Rinv_l by lra. lra.
Qed.
Theorem C46_none_refuted i0 L : (0 <= L)%Z -> gen_window i0 L "none" None = Ok (Num 1).
Proof. intros HL. unfold gen_window. replace (L <? 0)%Z with false by (symmetry; apply Z.ltb_ge; lia). reflexivity. Qed.
Theorem C46_tukey_one_refuted i0 alpha : 0 < alpha < 1 -> exists w, gen_window i0 1 "tukey" (Some alpha) = Ok (Arr w) /\ length w = 2%nat.
Proof.
  intros A. eexists. split; [reflexivity|]. unfold tukey. destruct (Rle_dec alpha 0); [lra|]. destruct (Rle_dec 1 alpha); [lra|]. cbv zeta.
  pose proof (floorR_spec (alpha * (1 - 1) / 2)) as [F1 F2]. assert (W : floorR (alpha * (1 - 1) / 2) = 0%Z).
  { assert (alpha * (1 - 1) / 2 = 0) by field. assert (IZR (floorR (alpha * (1 - 1) / 2)) < 1) by (apply Rle_lt_trans with (alpha * (1 - 1) / 2); lra).
    assert (-1 < IZR (floorR (alpha * (1 - 1) / 2))) by lra. apply lt_IZR in H0, H1. lia. }
  rewrite W. rewrite !app_length, !map_length. reflexivity.
Qed.
(* an unknown name or a keyword the window does not take raises *)
Theorem C46_unknown i0 L name alpha : ~ proper_window name -> name <> "parzen"%string -> name <> "none"%string -> gen_window i0 L name alpha = Err.
Proof.
  intros P N1 N2. unfold gen_window. destruct (L <? 0)%Z; auto. unfold window_func. cbv zeta.
  repeat match goal with |- context [(name =? ?s)%string] => destruct (String.eqb_spec name s) as [-> | ?]; [first [exfalso; apply P; unfold proper_window; cbn; tauto | congruence]|] end. auto.
Qed.
Theorem C46_keyword i0 L name alpha : name <> "tukey"%string -> gen_window i0 L name (Some alpha) = Err.
Proof.
  intros N. unfold gen_window. destruct (L <? 0)%Z; auto. unfold window_func. cbv zeta.
  repeat match goal with |- context [(name =? ?s)%string] => destruct (String.eqb_spec name s); auto end. congruence.
Qed.
Example C46_case : bessel0 (fun x => 1 + x * x) /\ proper_window "hanning" /\ good_window 3 [0; 1; 0].
Proof.
  split; [split; [lra | intros x y H; nra]|]. split; [unfold proper_window; cbn; tauto|]. split; [reflexivity|]. split; [|split; [|split]].
  - intros [|[|[|k]]] K; cbn in *; auto; lia.
  - repeat constructor; lra.
  - intros [|k] K; cbn in *; [lra|lia].
  - intros [|[|k]] K; cbn in *; auto; lia.
Qed.
Print Assumptions C46_window.
Print Assumptions C46_tukey.
Print Assumptions C46_tukey_ends.
Print Assumptions C46_parzen.
Print Assumptions C46_parzen_refuted.
Print Assumptions C46_none_refuted.
Print Assumptions C46_tukey_one_refuted.
Print Assumptions C46_unknown.
Print Assumptions C46_keyword.
