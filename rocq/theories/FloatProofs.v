(* Proofs about FloatModel. *)
From Coq Require Import Reals.
From Flocq Require Import Core IEEE754.BinarySingleNaN IEEE754.Binary IEEE754.Bits.
From Verif Require Import Base FloatModel.
Ltac Zify.zify_post_hook ::= idtac.
Open Scope Z_scope.

Lemma nan_pl_lt prec pl : nan_pl prec pl = true -> Zpos pl < 2 ^ (prec - 1).
Proof.
  intro H. unfold nan_pl in H. rewrite Zpos_digits2_pos in H. apply Z.ltb_lt in H.
  pose proof (Zpower_gt_Zdigits radix2 (prec - 1) (Zpos pl)) as X. cbn [Z.abs] in X. change (radix_val radix2) with 2 in X. apply X. lia.
Qed.

Lemma narrow64_range x : 0 <= narrow64 x < 2 ^ 32.
Proof.
  unfold narrow64. destruct (b64_of_bits x) as [s|s|s pl H|s m e H]; cbn [cv32]; try (apply (bits_of_binary_float_range 23 8); reflexivity).
  apply (join_bits_range 23 8); [|lia].
  apply nan_pl_lt in H. change (53 - 1) with 52 in H.
  assert (0 <= Z.pos pl / 2 ^ 29 < 2 ^ 23).
  { split; [apply Z.div_pos; lia|]. apply Z.div_lt_upper_bound; [lia|]. change (2 ^ 29 * 2 ^ 23) with (2 ^ 52). lia. }
  unfold quiet. destruct (Z.ltb_spec (Z.pos pl / 2 ^ 29) (2 ^ 22)); lia.
Qed.

Definition quiet_pattern (x : Z) : Prop :=
  match b32_of_bits x with B754_nan _ _ _ pl _ => 2 ^ 22 <= Zpos pl | _ => True end.

Lemma b64_nan s p : 0 < p < 2 ^ 52 -> exists H, b64_of_bits (join_bits 52 11 s p 2047) = B754_nan 53 1024 s (Z.to_pos p) H.
Proof.
  intro Hp. assert (E : B2FF 53 1024 (b64_of_bits (join_bits 52 11 s p 2047)) = F754_nan s (Z.to_pos p)).
  { unfold b64_of_bits, binary_float_of_bits. etransitivity; [apply B2FF_FF2B|]. unfold binary_float_of_bits_aux.
    rewrite split_join_bits by lia. change (Zeq_bool 2047 0) with false. change (Zeq_bool 2047 (2 ^ 11 - 1)) with true. cbv iota.
    destruct p; try lia. reflexivity. }
  destruct (b64_of_bits (join_bits 52 11 s p 2047)) as [s'|s'|s' pl H|s' m e H]; cbn [B2FF] in E; try discriminate.
  injection E as -> ->. exists H. reflexivity.
Qed.

Lemma fexp_le : forall e, SpecFloat.fexp 53 1024 e <= SpecFloat.fexp 24 128 e.
Proof. intro e. unfold SpecFloat.fexp, SpecFloat.emin. lia. Qed.

(* a finite single is a finite double of the same value, and back *)
Lemma finite_there s m e H : let f := B754_finite 24 128 s m e H in
  cv32 (binary_normalize 53 1024 eq_refl eq_refl mode_NE (cond_Zopp s (Zpos m)) e s) = bits_of_b32 f.
Proof.
  intro f. set (g := binary_normalize 53 1024 eq_refl eq_refl mode_NE (cond_Zopp s (Zpos m)) e s).
  set (r := F2R (Float radix2 (cond_Zopp s (Zpos m)) e)).
  assert (RF : B2R 24 128 f = r) by reflexivity.
  assert (GF : generic_format radix2 (SpecFloat.fexp 24 128) r) by (rewrite <- RF; apply generic_format_B2R).
  assert (GD : generic_format radix2 (SpecFloat.fexp 53 1024) r).
  { eapply generic_inclusion_mag; [|exact GF]. intros _. apply fexp_le. }
  assert (LT : (Rabs r < bpow radix2 128)%R) by (rewrite <- RF; apply abs_B2R_lt_emax).
  assert (NZ : r <> 0%R).
  { unfold r. intro X. apply eq_0_F2R in X. destruct s; discriminate. }
  assert (SG : match Rcompare r 0 with Eq => s | Lt => true | Gt => false end = s).
  { unfold r. destruct s; cbn [cond_Zopp].
    - rewrite Rcompare_Lt; [reflexivity|]. apply F2R_lt_0. reflexivity.
    - rewrite Rcompare_Gt; [reflexivity|]. apply F2R_gt_0. reflexivity. }
  pose proof (binary_normalize_correct 53 1024 eq_refl eq_refl mode_NE (cond_Zopp s (Zpos m)) e s) as C. fold r in C. fold g in C.
  rewrite round_generic in C by (auto; apply valid_rnd_round_mode).
  rewrite Rlt_bool_true in C.
  2: { eapply Rlt_le_trans; [exact LT|]. apply bpow_le. lia. }
  destruct C as (C1 & C2 & C3). rewrite SG in C3.
  destruct g as [s'|s'|s' pl' H'|s' m' e' H'] eqn:EG; cbn [is_finite] in C2; try discriminate.
  - cbn [B2R] in C1. congruence.
  - cbn [Bsign] in C3. subst s'. cbn [B2R] in C1. cbn [cv32]. f_equal.
    pose proof (binary_normalize_correct 24 128 eq_refl eq_refl mode_NE (cond_Zopp s (Zpos m')) e' s) as C. rewrite C1 in C.
    rewrite round_generic in C by (auto; apply valid_rnd_round_mode). rewrite Rlt_bool_true in C by assumption.
    destruct C as (D1 & D2 & D3). rewrite SG in D3.
    apply B2R_Bsign_inj; [exact D2|reflexivity|rewrite D1; symmetry; exact RF|exact D3].
Qed.

Theorem narrow_widen x : 0 <= x < 2 ^ 32 -> quiet_pattern x -> narrow64 (widen32 x) = x.
Proof.
  intros Hx HQ. unfold narrow64, widen32, quiet_pattern in *.
  assert (EX : bits_of_b32 (b32_of_bits x) = x) by (apply (bits_of_binary_float_of_bits 23 8 eq_refl eq_refl eq_refl); exact Hx).
  rewrite <- EX at 2. destruct (b32_of_bits x) as [s|s|s pl H|s m e H]; cbn [cv64].
  - unfold b64_of_bits, bits_of_b64. rewrite binary_float_of_bits_of_binary_float. reflexivity.
  - unfold b64_of_bits, bits_of_b64. rewrite binary_float_of_bits_of_binary_float. reflexivity.
  - pose proof (nan_pl_lt _ _ H) as L. change (24 - 1) with 23 in L.
    unfold quiet at 1. replace (Z.pos pl * 2 ^ 29 <? 2 ^ 51) with false by (symmetry; apply Z.ltb_ge; lia).
    destruct (b64_nan s (Z.pos pl * 2 ^ 29)) as (H' & ->); [lia|]. cbn [cv32].
    rewrite Z2Pos.id by lia. rewrite Z.div_mul by lia. unfold quiet. replace (Z.pos pl <? 2 ^ 22) with false by (symmetry; apply Z.ltb_ge; lia). reflexivity.
  - unfold b64_of_bits, bits_of_b64. rewrite binary_float_of_bits_of_binary_float. apply finite_there.
Qed.

Lemma normalize_not_nan m e s : is_nan 24 128 (binary_normalize 24 128 eq_refl eq_refl mode_NE m e s) = false.
Proof.
  pose proof (binary_normalize_correct 24 128 eq_refl eq_refl mode_NE m e s) as C.
  destruct (binary_normalize 24 128 eq_refl eq_refl mode_NE m e s) as [s'|s'|s' pl H|s' m' e' H]; try reflexivity.
  destruct (Rlt_bool _ _) in C.
  - destruct C as (_ & X & _). discriminate.
  - cbn [B2FF] in C. unfold binary_overflow, BinarySingleNaN.binary_overflow in C. destruct (overflow_to_inf _ _) in C; discriminate.
Qed.

Lemma b32_nan s p : 0 < p < 2 ^ 23 -> exists H, b32_of_bits (join_bits 23 8 s p 255) = B754_nan 24 128 s (Z.to_pos p) H.
Proof.
  intro Hp. assert (E : B2FF 24 128 (b32_of_bits (join_bits 23 8 s p 255)) = F754_nan s (Z.to_pos p)).
  { unfold b32_of_bits, binary_float_of_bits. etransitivity; [apply B2FF_FF2B|]. unfold binary_float_of_bits_aux.
    rewrite split_join_bits by lia. change (Zeq_bool 255 0) with false. change (Zeq_bool 255 (2 ^ 8 - 1)) with true. cbv iota.
    destruct p; try lia. reflexivity. }
  destruct (b32_of_bits (join_bits 23 8 s p 255)) as [s'|s'|s' pl H|s' m e H]; cbn [B2FF] in E; try discriminate.
  injection E as -> ->. exists H. reflexivity.
Qed.

Lemma narrow_quiet x : quiet_pattern (narrow64 x).
Proof.
  unfold quiet_pattern, narrow64. destruct (b64_of_bits x) as [s|s|s pl H|s m e H]; cbn [cv32].
  - unfold b32_of_bits, bits_of_b32. rewrite binary_float_of_bits_of_binary_float. exact I.
  - unfold b32_of_bits, bits_of_b32. rewrite binary_float_of_bits_of_binary_float. exact I.
  - apply nan_pl_lt in H. change (53 - 1) with 52 in H.
    assert (0 <= Z.pos pl / 2 ^ 29 < 2 ^ 23).
    { split; [apply Z.div_pos; lia|]. apply Z.div_lt_upper_bound; [lia|]. change (2 ^ 29 * 2 ^ 23) with (2 ^ 52). lia. }
    assert (Q : 2 ^ 22 <= quiet (2 ^ 22) (Z.pos pl / 2 ^ 29) < 2 ^ 23) by (unfold quiet; destruct (Z.ltb_spec (Z.pos pl / 2 ^ 29) (2 ^ 22)); lia).
    destruct (b32_nan s (quiet (2 ^ 22) (Z.pos pl / 2 ^ 29))) as (H' & ->); [lia|]. rewrite Z2Pos.id; lia.
  - pose proof (normalize_not_nan (cond_Zopp s (Z.pos m)) e s) as N.
    unfold b32_of_bits, bits_of_b32. rewrite binary_float_of_bits_of_binary_float.
    destruct (binary_normalize 24 128 eq_refl eq_refl mode_NE (cond_Zopp s (Z.pos m)) e s); try exact I. discriminate.
Qed.

Theorem stored_once x : widen32 (narrow64 (widen32 (narrow64 x))) = widen32 (narrow64 x).
Proof. f_equal. apply narrow_widen; [apply narrow64_range|apply narrow_quiet]. Qed.
