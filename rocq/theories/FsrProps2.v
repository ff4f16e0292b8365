(* C72, continued: the sky-pass filter, and the options that do not work. *)
From Coq Require Import Reals Lra.
From Verif Require Import Base BaselineModel CleanModel CmdModel FsrModel FsrSpec FsrProofs FsrProofs2 FsrProps.
Ltac Zify.zify_post_hook ::= idtac.
Open Scope R_scope.
Local Notation length := List.length.

(* delay number k of n, for the delay z bins from zero *)
Definition bin_of (n : nat) (z : Z) (k : nat) : Prop := (Z.of_nat k = z \/ Z.of_nat k = z + Z.of_nat n)%Z.
Definition nearest (rnd : R -> Z) : Prop := forall x, Rabs (IZR (rnd x) - x) <= 1 / 2.
Lemma nearest_bounds rnd x : nearest rnd -> x - 1 / 2 <= IZR (rnd x) <= x + 1 / 2.
Proof. intros H. specialize (H x). unfold Rabs in H. destruct (Rcase_abs _); lra. Qed.
Lemma Rabs_def2_le x a : Rabs x <= a -> - a <= x <= a.
Proof. unfold Rabs. destruct (Rcase_abs x); lra. Qed.
Lemma sky_nulled n u l k : (l < 0)%Z -> (0 <= u)%Z -> (u - l <= Z.of_nat n)%Z -> (k < n)%nat -> nulled n u l k = true <-> ~ exists z, bin_of n z k /\ (l <= z < u)%Z.
Proof.
  intros L U W K. unfold nulled, py_index. rewrite Bool.andb_true_iff, Nat.leb_le, Nat.ltb_lt. destruct (Z.ltb_spec u 0); [lia|]. destruct (Z.ltb_spec l 0); [|lia]. split.
  - intros [A B] (z & [Q|Q] & R0); lia.
  - intros H1. destruct (Z_lt_dec (Z.of_nat k) u) as [A|A].
    + exfalso. apply H1. exists (Z.of_nat k). unfold bin_of. lia.
    + destruct (Z_lt_dec (Z.of_nat k - Z.of_nat n) l) as [B|B]; [lia|]. exfalso. apply H1. exists (Z.of_nat k - Z.of_nat n)%Z. unfold bin_of. lia.
Qed.
(* -d -1 without a source: the delays within one and a half times the baseline's length of the array's delay are
   taken, and none that is half a bin further away *)
Theorem C72_skypass pols extract tol padlen n rnd sdf bl dly rs : (0 < n)%nat -> nearest rnd -> 0 < sdf -> (forall a, (padlen a <= a)%nat) -> Forall (fit None pols n) rs ->
  let bin := 1 / (sdf * INR n) in
  (forall r, In r rs -> Rabs (dly (place r)) + bin < 3 / 2 * bl (place r) /\ 3 * bl (place r) + 2 * bin <= 1 / sdf) ->
  exists out (taken : Z * Z -> Z -> Prop), run None pols (-1) (-1) false extract tol (fun k => Some (skypass rnd sdf n (bl k) (dly k))) padlen rs = (out, true) /\
    Forall2 (fun r => filtered (clean tol n) None extract n (fun k => exists z, bin_of n z k /\ taken (place r) z) r) rs out /\
    forall q z, (Rabs (IZR z * bin - dly q) <= 3 / 2 * bl q -> taken q z) /\ (taken q z -> Rabs (IZR z * bin - dly q) <= 3 / 2 * bl q + bin / 2).
Proof.
  intros N RN SD PA F bin HB. set (lims := fun k => skypass rnd sdf n (bl k) (dly k)). set (taken := fun k z => (snd (lims k) <= z < fst (lims k))%Z).
  assert (NP : 0 < INR n) by (apply lt_0_INR; exact N). assert (BP : 0 < bin) by (unfold bin; apply Rdiv_lt_0_compat; [lra|apply Rmult_lt_0_compat; assumption]).
  assert (SB : 1 / sdf = INR n * bin) by (unfold bin; field; lra).
  destruct (run_plain None pols (-1) extract tol (fun k => Some (lims k)) padlen n lims (fun q k => exists z, bin_of n z k /\ taken q z) rs N PA F) as (out & E & F2).
  - intros r I _. split; [reflexivity|]. destruct (HB r I) as [H1 H2]. rewrite SB in H2. intros k K. unfold taken, lims, skypass. fold bin. cbn [fst snd].
    set (b := bl (place r)) in *. set (d := dly (place r)) in *. pose proof (nearest_bounds rnd ((d + 3 / 2 * b) / bin + 1) RN) as [U1 U2]. pose proof (nearest_bounds rnd ((d - 3 / 2 * b) / bin) RN) as [L1 L2].
    assert (DA : - Rabs d <= d <= Rabs d) by (unfold Rabs; destruct (Rcase_abs d); lra).
    assert (Q1 : (d - 3 / 2 * b) / bin < -1) by (apply (Rmult_lt_reg_r bin); [exact BP|]; unfold Rdiv; rewrite Rmult_assoc, Rinv_l by lra; lra).
    assert (Q2 : 1 < (d + 3 / 2 * b) / bin) by (apply (Rmult_lt_reg_r bin); [exact BP|]; unfold Rdiv; rewrite Rmult_assoc, Rinv_l by lra; lra).
    assert (Q3 : (d + 3 / 2 * b) / bin - (d - 3 / 2 * b) / bin + 2 <= INR n) by (apply (Rmult_le_reg_r bin); [exact BP|]; replace (((d + 3 / 2 * b) / bin - (d - 3 / 2 * b) / bin + 2) * bin) with (3 * b + 2 * bin) by (field; lra); lra).
    apply sky_nulled; [| | |exact K].
    + apply lt_IZR. lra.
    + apply le_IZR. lra.
    + apply le_IZR. rewrite minus_IZR, <- INR_IZR_INZ. lra.
  - exists out, taken. split; [exact E|]. split; [exact F2|]. intros q z. unfold taken, lims, skypass. fold bin. cbn [fst snd]. set (b := bl q). set (d := dly q).
    pose proof (nearest_bounds rnd ((d + 3 / 2 * b) / bin + 1) RN) as [U1 U2]. pose proof (nearest_bounds rnd ((d - 3 / 2 * b) / bin) RN) as [L1 L2].
    assert (X1 : (d + 3 / 2 * b) / bin * bin = d + 3 / 2 * b) by (field; lra). assert (X2 : (d - 3 / 2 * b) / bin * bin = d - 3 / 2 * b) by (field; lra). split.
    + intros H. apply Rabs_def2_le in H.
      assert (A : (d - 3 / 2 * b) / bin <= IZR z) by (apply (Rmult_le_reg_r bin); [exact BP|lra]). assert (B1 : IZR z <= (d + 3 / 2 * b) / bin) by (apply (Rmult_le_reg_r bin); [exact BP|lra]). split.
      * assert (rnd ((d - 3 / 2 * b) / bin)%R < z + 1)%Z by (apply lt_IZR; rewrite plus_IZR; lra). lia.
      * apply lt_IZR. lra.
    + intros [A B1]. apply IZR_le in A. assert (z + 1 <= rnd ((d + 3 / 2 * b) / bin + 1)%R)%Z as B2 by lia. apply IZR_le in B2. rewrite plus_IZR in B2.
      assert (C1 : ((d - 3 / 2 * b) / bin - 1 / 2) * bin <= IZR z * bin) by (apply Rmult_le_compat_r; lra). assert (C2 : IZR z * bin <= ((d + 3 / 2 * b) / bin + 1 / 2) * bin) by (apply Rmult_le_compat_r; lra).
      apply Rabs_le. lra.
Qed.
Print Assumptions C72_skypass.

(* when the array's delay is further from zero than that, nothing is left out: all delays are taken *)
Theorem C72_skypass_refuted pols extract tol padlen n rnd sdf bl dly rs : (0 < n)%nat -> nearest rnd -> 0 < sdf -> (forall a, (padlen a <= a)%nat) -> Forall (fit None pols n) rs ->
  (forall r, In r rs -> 0 <= bl (place r) /\ 3 / 2 * bl (place r) + 1 / (sdf * INR n) <= dly (place r)) ->
  exists out, run None pols (-1) (-1) false extract tol (fun k => Some (skypass rnd sdf n (bl k) (dly k))) padlen rs = (out, true) /\
    Forall2 (filtered (clean tol n) None extract n (fun _ => True)) rs out.
Proof.
  intros N RN SD PA F HB. set (bin := 1 / (sdf * INR n)) in *. assert (NP : 0 < INR n) by (apply lt_0_INR; exact N). assert (BP : 0 < bin) by (unfold bin; apply Rdiv_lt_0_compat; [lra|apply Rmult_lt_0_compat; assumption]).
  apply (run_plain None pols (-1) extract tol (fun k => Some (skypass rnd sdf n (bl k) (dly k))) padlen n (fun k => skypass rnd sdf n (bl k) (dly k)) (fun _ _ => True) rs N PA F).
  intros r I _. split; [reflexivity|]. intros k K. destruct (HB r I) as [H1 H2]. unfold skypass. fold bin. cbn [fst snd]. set (b := bl (place r)) in *. set (d := dly (place r)) in *.
  pose proof (nearest_bounds rnd ((d + 3 / 2 * b) / bin + 1) RN) as [U1 U2]. pose proof (nearest_bounds rnd ((d - 3 / 2 * b) / bin) RN) as [L1 L2].
  assert (Q1 : 1 <= (d - 3 / 2 * b) / bin) by (apply (Rmult_le_reg_r bin); [exact BP|]; unfold Rdiv; rewrite Rmult_assoc, Rinv_l by lra; lra).
  assert (Q2 : (d - 3 / 2 * b) / bin <= (d + 3 / 2 * b) / bin) by (apply (Rmult_le_reg_r bin); [exact BP|]; unfold Rdiv; rewrite !Rmult_assoc, Rinv_l by lra; lra).
  assert (A1 : (0 <= rnd ((d - 3 / 2 * b) / bin)%R)%Z) by (apply le_IZR; lra). assert (A2 : (rnd ((d - 3 / 2 * b) / bin)%R <= rnd ((d + 3 / 2 * b) / bin + 1)%R)%Z) by (apply le_IZR; lra).
  split; [|intros Q; exfalso; apply Q; exact Logic.I]. intros Q. exfalso. unfold nulled, py_index in Q. rewrite Bool.andb_true_iff, Nat.leb_le, Nat.ltb_lt in Q.
  destruct (Z.ltb_spec (rnd ((d - 3 / 2 * b) / bin)) 0); [lia|]. destruct (Z.ltb_spec (rnd ((d + 3 / 2 * b) / bin + 1)) 0); lia.
Qed.
Print Assumptions C72_skypass_refuted.

Lemma gather_pols src pols pb tol vs : forall dat up dat' up', (forall k a, get dat k = Some a -> In (fst k) pols) -> gather src pols pb tol vs dat up = Ok (dat', up') -> forall k a, get dat' k = Some a -> In (fst k) pols.
Proof.
  induction vs as [|[[[[[t i] j] p] d] f] vs IH]; intros dat up dat' up' HD E k a G; cbn [gather] in E; [injection E as <- _; eapply HD; eauto|].
  destruct (existsb (Z.eqb p) pols) eqn:IP; cbn [negb orb] in E; [|eapply IH; eauto]. destruct (Z.eqb i j); [eapply IH; eauto|].
  apply existsb_exists in IP as (q & IQ & EQ). apply Z.eqb_eq in EQ. subst q.
  assert (HA : forall x k a, get (append dat (p, ij2bl i j) x) k = Some a -> In (fst k) pols).
  { intros x c b H. rewrite get_append in H. destruct (key_eqb_spec (p, ij2bl i j) c) as [<-|]; [exact IQ|eapply HD; eauto]. }
  destruct (phased src (t, i, j, p, d, f)) as [[x|]|]; [|eapply IH; [|exact E|exact G]; apply HA|discriminate].
  destruct pb; [discriminate|]. destruct (delays tol x f) as [y|]; [|discriminate]. cbn [bind] in E. eapply IH; [|exact E|exact G]. apply HA.
Qed.
Lemma block_key src drw dw tol filters padlen up e e' : block src drw dw tol filters padlen up e = Ok e' -> fst e' = fst e.
Proof.
  unfold block. destruct (negb _); [discriminate|]. destruct (negb up); [congruence|]. destruct (rates _ _ _) as [d|]; [|discriminate]. cbn [bind]. destruct (limits _ _ _ _ _) as [l|]; [|discriminate]. cbn [bind]. intros E. injection E as <-. reflexivity.
Qed.
Lemma mapres_none {A B} (f : _ * A -> res (_ * B)) l : forall l' k, (forall e e', f e = Ok e' -> fst e' = fst e) -> mapres f l = Ok l' -> get l k = None -> get l' k = None.
Proof.
  induction l as [|e l IH]; intros l' k HF E G; cbn [mapres] in E; [injection E as <-; reflexivity|]. destruct (f e) as [e'|] eqn:FE; [|discriminate]. cbn [bind] in E. destruct (mapres f l) as [m|] eqn:M; [|discriminate]. cbn [bind] in E. injection E as <-.
  pose proof (HF _ _ FE) as K. destruct e as [c a], e' as [c' b]. cbn [fst] in K. subst c'. cbn [get] in *. destruct (key_eqb c k); [discriminate|]. eapply IH; eauto.
Qed.
Lemma emit_missing src pb extract dat r : is_auto r = false -> get dat (place r) = None -> forall vs cnt, In r vs -> snd (emit src pb extract dat cnt vs) = false.
Proof.
  intros A G vs. induction vs as [|v vs IH]; intros cnt I; [destruct I|]. destruct v as [[[[[t i] j] p] d] f]. destruct I as [<-|I].
  - cbn [is_auto place] in A, G. cbn [emit]. rewrite A, G. reflexivity.
  - cbn [emit]. destruct (Z.eqb i j).
    + specialize (IH cnt I). destruct (emit src pb extract dat cnt vs) as [o b]. exact IH.
    + destruct (get dat (p, ij2bl i j)) as [rows|]; [|reflexivity]. destruct (nth_error rows _) as [x|]; [|reflexivity]. destruct (answer _ _ _ _ _) as [y|]; [|reflexivity].
      specialize (IH (count_up cnt (p, ij2bl i j)) I). destruct (emit src pb extract dat (count_up cnt (p, ij2bl i j)) vs) as [o b]. exact IH.
Qed.
(* a cross-correlation of a polarisation that is not selected ends the run, whatever the options *)
Theorem C72_polarisation_refuted src pols drw dw pb extract tol filters padlen rs r : In r rs -> ~ auto r -> ~ In (polarisation r) pols -> snd (run src pols drw dw pb extract tol filters padlen rs) = false.
Proof.
  intros I NA NP. unfold run. destruct (gather src pols pb tol rs [] false) as [[dat up]|] eqn:E; [|reflexivity]. cbn [bind fst snd]. destruct (mapres _ dat) as [dat'|] eqn:M; [|reflexivity].
  apply emit_missing with (r := r); [apply cross_iff, NA| |exact I]. eapply mapres_none; [apply block_key|exact M|]. destruct (get dat (place r)) as [a|] eqn:G; [|reflexivity]. exfalso. apply NP.
  pose proof (gather_pols src pols pb tol rs [] false dat up ltac:(discriminate) E _ _ G) as H. destruct r as [[[[[t i] j] p] d] f]. exact H.
Qed.
Print Assumptions C72_polarisation_refuted.
(* with -P nothing is written *)
Theorem C72_passband_refuted src pols drw dw extract tol filters padlen n rs r : Forall (fit src pols n) rs -> In r rs -> ~ auto r -> phases src n r <> None ->
  run src pols drw dw true extract tol filters padlen rs = ([], false).
Proof.
  intros F I NA U. unfold run. assert (E : forall dat up, gather src pols true tol rs dat up = Err); [|rewrite E; reflexivity].
  induction rs as [|v rs IH]; [destruct I|]. inversion F as [|? ? FV FS]; subst. intros dat up. pose proof (phased_ok src pols n v FV) as PH. destruct I as [->|I].
  - destruct FV as (_ & PO & _). specialize (PO NA). destruct (phases src n r) as [ph|]; [|contradiction]. destruct r as [[[[[t i] j] p] d] f]. cbn [gather]. cbn [auto polarisation] in *.
    replace (existsb (Z.eqb p) pols) with true by (symmetry; apply existsb_exists; exists p; split; [exact PO|apply Z.eqb_refl]). destruct (Z.eqb_spec i j); [contradiction|]. cbn [negb orb]. rewrite PH. reflexivity.
  - specialize (IH FS I). destruct v as [[[[[t i] j] p] d] f]. cbn [gather]. destruct (negb _ || _)%bool; [apply IH|]. rewrite PH. destruct (phases src n (t, i, j, p, d, f)); [reflexivity|apply IH].
Qed.
Print Assumptions C72_passband_refuted.
(* with a source and -d -1 nothing is written *)
Theorem C72_source_skypass_refuted g pols drw extract tol filters padlen n rs r : (0 < n)%nat -> Forall (fit (Some g) pols n) rs -> In r rs -> ~ auto r -> phases (Some g) n r <> None ->
  run (Some g) pols drw (-1) false extract tol filters padlen rs = ([], false).
Proof.
  intros N F I NA U. unfold run. destruct (gather_ok (Some g) pols tol n rs N F [] false) as (dat & E & G). rewrite E. cbn [bind fst snd orb].
  assert (UP : existsb (fun v => (negb (is_auto v) && sky (Some g) v)%bool) rs = true).
  { apply existsb_exists. exists r. split; [exact I|]. rewrite (proj2 (cross_iff r) NA). unfold sky. rewrite (phased_ok (Some g) pols n r) by (eapply Forall_forall; eauto). destruct (phases (Some g) n r); [reflexivity|contradiction]. }
  rewrite UP in *. assert (NE : dat <> []).
  { intros ->. specialize (G (place r)). cbn [get] in G. destruct (map (xof (Some g) tol n) (filter (mine (place r)) rs)) as [|x l] eqn:M; [|discriminate].
    assert (Q : In r (filter (mine (place r)) rs)) by (apply filter_In; split; [exact I|]; unfold mine; rewrite (proj2 (cross_iff r) NA), key_eqb_refl; reflexivity). destruct (filter (mine (place r)) rs); [destruct Q|discriminate]. }
  destruct dat as [|e dat]; [contradiction|]. cbn [mapres]. assert (B : block (Some g) drw (-1) tol filters padlen true e = Err).
  { unfold block. destruct (negb _); [reflexivity|]. cbn [negb]. destruct (rates _ _ _); reflexivity. }
  rewrite B. reflexivity.
Qed.
Print Assumptions C72_source_skypass_refuted.

(* a spectrum with all its power in one channel has all delays alike: -d 1 leaves the first and the last of four *)
Definition one_channel : R * Z * Z * Z * list (R * R) * list bool := (0, 0%Z, 1%Z, (-5)%Z, [(4, 0); (0, 0); (0, 0); (0, 0)], [false; false; false; false]).
Example C72_table : exists r', run None [(-5)%Z] (-1) 1 false true (1 / 1000) (fun _ => None) (fun a => a) [one_channel] = ([r'], true) /\
  component (data r') 0 = (1, 0) /\ component (data r') 1 = (0, 0) /\ component (data r') 2 = (0, 0) /\ component (data r') 3 = (1, 0).
Proof.
  assert (F : Forall (fit None [(-5)%Z] 4) [one_channel]).
  { constructor; [|constructor]. split; [split; reflexivity|]. split; [intros _; left; reflexivity|]. cbn. intros ph E. injection E as <-. split; [reflexivity|]. intros z I. cbn in I. intros ->. destruct I as [I|[I|[I|[I|[]]]]]; injection I as I; lra. }
  destruct (C72_unflagged None [(-5)%Z] 1 true (1 / 1000) (fun _ => None) (fun a => a) 4 [one_channel] ltac:(lia) ltac:(lia) ltac:(auto) F) as (out & E & F2).
  destruct (C72_delay None [(-5)%Z] 1 true (1 / 1000) (fun _ => None) (fun a => a) 4 [one_channel] ltac:(lia) ltac:(lia) ltac:(auto) F) as (out' & E' & F2'). rewrite E in E'. injection E' as <-.
  inversion F2 as [|? r' ? ? H T]; subst. inversion T; subst. inversion F2' as [|? ? ? ? H' _]; subst. exists r'. split; [exact E|]. clear - H H'.
  assert (NA : ~ auto one_channel) by (cbn; discriminate). assert (LD : length (data r') = 4%nat) by (destruct H' as [_ H']; destruct (H' NA) as (x & e & _ & _ & (_ & L & _)); exact L).
  assert (Z0 : forall c, (c < 4)%nat -> nth c (flags one_channel) false = false) by (intros c C; cbn; do 4 (destruct c as [|c]; [reflexivity|]); lia). specialize (H NA Z0 _ eq_refl).
  assert (TD : forall s, length s = 4%nat -> toward (repeat (1, 0) 4) s = s) by (intros s L; apply toward_ones; exact L).
  assert (CV : forall k, component (data one_channel) k = (1, 0)).
  { intros k. unfold component, sum. cbn [data one_channel length seq map nth fold_right]. unfold circle. replace (INR 0 * INR k / INR 4) with 0 by (cbn [INR]; unfold Rdiv; ring). rewrite Rmult_0_r, cos_0, sin_0. unfold times, plus. cbn [fst snd]. replace (INR 4) with 4 by (cbn; ring). f_equal; field. }
  rewrite !TD in H; [|reflexivity|exact LD]. assert (N0 : near 4 1 0 /\ ~ near 4 1 1 /\ ~ near 4 1 2 /\ near 4 1 3) by (unfold near; lia). destruct N0 as (A0 & A1 & A2 & A3).
  pose proof (proj1 (H 0%nat ltac:(lia)) A0). pose proof (proj2 (H 1%nat ltac:(lia)) A1). pose proof (proj2 (H 2%nat ltac:(lia)) A2). pose proof (proj1 (H 3%nat ltac:(lia)) A3). rewrite CV in *. auto.
Qed.
