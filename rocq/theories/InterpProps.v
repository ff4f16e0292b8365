(* C65: interpolation between samples (aipy/interp.py). *)
From Coq Require Import Reals Lra.
From Verif Require Import Base CleanSpec CleanProofs InterpModel InterpSpec InterpProofs InterpProofs2.
Open Scope R_scope.

(* double precision gives the filter the taps it has in exact arithmetic: from -order to order *)
Definition regular (order factor : nat) : Prop := tap_count (Z.of_nat order) (Z.of_nat factor) = (2 * Z.of_nat order * Z.of_nat factor + 1)%Z.
Theorem C65_regular_powers k order : (k <= 16)%nat -> (1 <= order <= 32)%nat -> regular order (2 ^ k).
Proof.
  assert (H : forallb (fun k => forallb (fun o => (tap_count (Z.of_nat o) (2 ^ Z.of_nat k) =? 2 * Z.of_nat o * 2 ^ Z.of_nat k + 1)%Z) (seq 1 32)) (seq 0 17) = true) by (vm_compute; reflexivity).
  intros K O. rewrite forallb_forall in H. assert (I : In k (seq 0 17)) by (apply in_seq; lia). specialize (H k I). rewrite forallb_forall in H.
  unfold regular. rewrite Nat2Z.inj_pow. apply Z.eqb_eq, H, in_seq. lia.
Qed.
(* with the default order: all factors up to 128 but these *)
Definition irregular : list nat := [6; 22; 23; 24; 27; 29; 36; 38; 54; 55; 57; 59; 68; 72; 76; 84; 86; 96; 98; 108; 114]%nat.
Theorem C65_regular_default factor : (1 <= factor <= 128)%nat -> (regular 4 factor <-> ~ In factor irregular) /\
  (In factor irregular -> tap_count 4 (Z.of_nat factor) = (8 * Z.of_nat factor + 2)%Z).
Proof.
  assert (H : forallb (fun f => Bool.eqb (tap_count 4 (Z.of_nat f) =? 8 * Z.of_nat f + 1)%Z (negb (existsb (Nat.eqb f) irregular)) &&
     implb (existsb (Nat.eqb f) irregular) (tap_count 4 (Z.of_nat f) =? 8 * Z.of_nat f + 2)%Z) (seq 1 128) = true) by (vm_compute; reflexivity).
  intros F. rewrite forallb_forall in H. specialize (H factor). rewrite in_seq in H. specialize (H ltac:(lia)). apply andb_prop in H. destruct H as [A B].
  apply Bool.eqb_prop in A. assert (I : In factor irregular <-> existsb (Nat.eqb factor) irregular = true).
  { rewrite existsb_exists. split; [intros K; exists factor; split; [exact K|apply Nat.eqb_refl]|intros [x [K E]]; apply Nat.eqb_eq in E; subst; exact K]. }
  split.
  - rewrite I. unfold regular. change (2 * Z.of_nat 4)%Z with 8%Z. change (Z.of_nat 4) with 4%Z. rewrite <- Z.eqb_eq, A. destruct (existsb _ _); cbn; split; congruence.
  - rewrite I. intros K. rewrite K in B. apply Z.eqb_eq, B.
Qed.

Section C65.
Variable polyfit : list R -> list R -> nat -> list R.
Notation interpolate := (InterpModel.interpolate polyfit).
(* at which arguments it raises *)
Theorem C65_raises filter ys factor order : keeps_length filter -> regular order factor ->
  (exists out, interpolate filter ys factor order = Ok out) <-> (factor <> 0 /\ 0 < order <= length ys)%nat.
Proof.
  intros KL RG. unfold InterpModel.interpolate. rewrite RG. split.
  - intros [out H]. unfold interpolate_with in H. destruct (Nat.eqb_spec factor 0); [discriminate|]. split; [assumption|].
    destruct (polyextend polyfit ys order 2) eqn:E; [|discriminate]. apply (ext_shape _ _ _ _ _ E).
  - intros [F O]. destruct (run_ok polyfit filter KL (Z.to_nat (2 * Z.of_nat order * Z.of_nat factor + 1)) ys factor order) as (e & out & _ & _ & E & _); try lia; [nia|]. eauto.
Qed.
(* every output is the mean of the extended samples weighted by the filter, its centre at position
   m / factor; there are factor outputs for each sample *)
Theorem C65_mean filter ys factor order out : keeps_length filter -> regular order factor -> interpolate filter ys factor order = Ok out ->
  length out = (factor * length ys)%nat /\ exists e, extended ys order e /\ polyextend polyfit ys order 2 = Ok e /\
  forall m, (m < length out)%nat -> nth m out 0 = weighted_mean (filter (tap_grid order factor (2 * order * factor + 1))) factor e m.
Proof.
  intros KL RG H. destruct (proj1 (C65_raises filter ys factor order KL RG) (ex_intro _ out H)) as [F O].
  unfold InterpModel.interpolate in H. rewrite RG in H. replace (Z.to_nat _) with (2 * order * factor + 1)%nat in H by lia.
  destruct (run_ok polyfit filter KL (2 * order * factor + 1) ys factor order) as (e & out' & E & X & R & L & M); try lia; [nia|].
  rewrite H in R. injection R as <-. split; [rewrite L; nia|]. exists e. auto.
Qed.
(* a filter given by a function of the distance: the weight of sample n is h (m/factor - n) *)
Theorem C65_position h order factor m n : (0 < factor)%nat ->
  weight (map h (tap_grid order factor (2 * order * factor + 1))) factor m (n + order) =
  if Rle_dec (Rabs (INR m / INR factor - INR n)) (INR order) then h (INR m / INR factor - INR n) else 0.
Proof.
  intros F. assert (PF : 0 < INR factor) by (apply lt_0_INR; exact F). unfold weight. rewrite map_length, tap_grid_len.
  set (L := (2 * order * factor + 1)%nat).
  assert (X : INR m / INR factor - INR n = (INR m - INR factor * INR n) / INR factor) by (field; lra).
  assert (IFF : Rabs (INR m / INR factor - INR n) <= INR order <-> (m <= factor * (n + order) /\ factor * (n + order) < m + L)%nat).
  { assert (A : (m <= factor * (n + order))%nat <-> INR m <= INR factor * (INR n + INR order)) by (rewrite <- plus_INR, <- mult_INR; split; [apply le_INR|apply INR_le]).
    assert (B : (factor * (n + order) < m + L)%nat <-> INR factor * (INR n + INR order) <= INR m + 2 * INR order * INR factor).
    { unfold L. transitivity (factor * (n + order) <= m + 2 * order * factor)%nat; [lia|].
      replace (INR factor * (INR n + INR order)) with (INR (factor * (n + order))) by (rewrite mult_INR, plus_INR; ring).
      replace (INR m + 2 * INR order * INR factor) with (INR (m + 2 * order * factor)) by (rewrite plus_INR, !mult_INR; cbn; ring). split; [apply le_INR|apply INR_le]. }
    rewrite A, B, X. clear - PF. unfold Rabs.
    assert (Q : forall u v, 0 < v -> forall w, u / v <= w <-> u <= w * v).
    { intros u v V w. split; intros K; [apply (Rmult_le_compat_r v) in K; [|lra]; unfold Rdiv in K; rewrite Rmult_assoc, Rinv_l in K by lra; lra|].
      apply (Rmult_le_reg_r v); [exact V|]. unfold Rdiv. rewrite Rmult_assoc, Rinv_l by lra. lra. }
    destruct (Rcase_abs _) as [K|K].
    - replace (- ((INR m - INR factor * INR n) / INR factor)) with ((INR factor * INR n - INR m) / INR factor) by (field; lra). rewrite Q by exact PF.
      assert (N : (INR m - INR factor * INR n) < 0).
      { apply (Rmult_lt_compat_r (INR factor)) in K; [|exact PF]. unfold Rdiv in K. rewrite Rmult_assoc, Rinv_l in K by lra. lra. }
      assert (0 <= INR order) by apply pos_INR. split; [intros; split; nra|intros [_ Z]; nra].
    - rewrite Q by exact PF.
      assert (N : 0 <= INR m - INR factor * INR n).
      { apply Rge_le in K. apply (Rmult_le_compat_r (INR factor)) in K; [|lra]. unfold Rdiv in K. rewrite Rmult_assoc, Rinv_l in K by lra. lra. }
      assert (0 <= INR order) by apply pos_INR. split; [intros; split; nra|intros [Z _]; nra]. }
  destruct (Rle_dec _ _) as [D|D].
  - apply IFF in D. destruct D as [D1 D2]. destruct (Nat.leb_spec m (factor * (n + order))); [|lia]. destruct (Nat.ltb_spec (factor * (n + order)) (m + L)); [|lia]. cbn [andb].
    set (k := (L - 1 - (factor * (n + order) - m))%nat). assert (K : (k < L)%nat) by (unfold k; lia).
    rewrite (nth_indep _ 0 (h 0)) by (rewrite map_length, tap_grid_len; exact K). rewrite map_nth. f_equal. rewrite grid_nth by exact K.
    assert (E : INR k = 2 * INR order * INR factor + INR m - INR factor * (INR n + INR order)).
    { unfold k, L. replace (2 * order * factor + 1 - 1 - (factor * (n + order) - m))%nat with (2 * order * factor + m - factor * (n + order))%nat by (unfold L in *; lia).
      rewrite minus_INR by (unfold L in *; lia). rewrite plus_INR, !mult_INR, plus_INR. cbn. ring. }
    rewrite E. field. lra.
  - destruct (Nat.leb_spec m (factor * (n + order))); [|reflexivity]. destruct (Nat.ltb_spec (factor * (n + order)) (m + L)); [|reflexivity]. exfalso. apply D, IFF. auto.
Qed.
Hypothesis FE : fits_exactly polyfit.
(* beyond the ends a polynomial of degree two goes on *)
Theorem C65_extension a b c ys n : (3 <= n <= length ys)%nat -> (forall i, (i < length ys)%nat -> nth i ys 0 = a * INR i * INR i + b * INR i + c) ->
  exists e, polyextend polyfit ys n 2 = Ok e /\ length e = (length ys + 2 * n)%nat /\
  forall j, (j < length e)%nat -> nth j e 0 = let x := INR j - INR n in a * x * x + b * x + c.
Proof.
  intros O H. eexists. split; [exact (extend_quad polyfit a b c ys n FE O H)|]. rewrite map_length, seq_length. split; [reflexivity|]. intros j J.
  rewrite (nth_map_seq (fun j => quad a b c (INR j - INR n))) by exact J. reflexivity.
Qed.
(* constant samples give the constant, for every filter whose weights do not cancel *)
Theorem C65_constant filter c ys factor order out : keeps_length filter -> regular order factor -> (3 <= order)%nat -> (forall i, (i < length ys)%nat -> nth i ys 0 = c) ->
  interpolate filter ys factor order = Ok out -> forall m e, (m < length out)%nat -> length e = (length ys + 2 * order)%nat ->
  total_weight (filter (tap_grid order factor (2 * order * factor + 1))) factor e m <> 0 -> nth m out 0 = c.
Proof.
  intros KL RG O H R m e M LE W. destruct (proj1 (C65_raises filter ys factor order KL RG) (ex_intro _ out R)) as [F B].
  destruct (C65_mean filter ys factor order out KL RG R) as [L [e' [X [E N]]]]. rewrite N by exact M.
  rewrite (extend_quad polyfit 0 0 c ys order FE) in E by (try lia; intros i I; rewrite H by exact I; unfold quad; ring). injection E as <-.
  unfold weighted_mean. unfold total_weight in *. rewrite map_length, seq_length in *. rewrite LE in W.
  rewrite (rsum_ext _ _ (fun n => c * weight (filter (tap_grid order factor (2 * order * factor + 1))) factor m n)).
  - rewrite rsum_scale. field. exact W.
  - intros n I. apply in_seq in I. rewrite (nth_map_seq (fun j => quad 0 0 c (INR j - INR order))) by lia. unfold quad. ring.
Qed.
(* the default filter: a raised cosine over the taps times sin(pi f x)/(pi f x), which is one in the middle *)
Theorem C65_default_taps freq xs k : (k < length xs)%nat -> let x := freq * nth k xs 0 in
  nth k (default_filter freq xs) 0 = (1 - cos (2 * PI * INR k / INR (length xs))) * (if Req_EM_T x 0 then 1 else sin (PI * x) / (PI * x)).
Proof. intros K x. rewrite default_nth by exact K. unfold sinc, x. f_equal. do 2 f_equal. unfold Rdiv. ring. Qed.
(* the default filter: between the smallest and the largest of the extended samples *)
Theorem C65_default_between ys factor order out lo hi : regular order factor -> (order <= 4)%nat -> interpolate (default_filter (/ 4)) ys factor order = Ok out ->
  exists e, extended ys order e /\ polyextend polyfit ys order 2 = Ok e /\ (Forall (fun y => lo <= y <= hi) e -> Forall (fun y => lo <= y <= hi) out).
Proof.
  intros RG O R. destruct (proj1 (C65_raises _ ys factor order (default_len _) RG) (ex_intro _ out R)) as [F B].
  destruct (C65_mean _ ys factor order out (default_len _) RG R) as [L [e [X [E N]]]]. exists e. split; [exact X|]. split; [exact E|]. intros B2.
  apply Forall_forall. intros y I. apply (In_nth _ _ 0) in I. destruct I as [m [M <-]]. rewrite N by exact M.
  pose proof (extended_len _ _ _ X) as LE. assert (P : 0 < total_weight (default_filter (/ 4) (tap_grid order factor (2 * order * factor + 1))) factor e m) by (apply total_pos; nia).
  unfold weighted_mean. set (T := total_weight _ _ _ _) in *.
  assert (A : lo * T <= rsum (seq 0 (length e)) (fun n => weight (default_filter (/ 4) (tap_grid order factor (2 * order * factor + 1))) factor m n * nth n e 0) <= hi * T).
  { unfold T, total_weight. rewrite <- !rsum_scale. rewrite Forall_forall in B2. split; apply rsum_le; intros n I; apply in_seq in I;
      (assert (Q : lo <= nth n e 0 <= hi) by (apply B2, nth_In; lia)); pose proof (weight_nonneg factor order ltac:(lia) ltac:(lia) m n); nra. }
  split; apply (Rmult_le_reg_r T); try exact P; unfold Rdiv; rewrite Rmult_assoc, Rinv_l by lra; lra.
Qed.
Theorem C65_default_constant c ys factor order out : regular order factor -> (3 <= order <= 4)%nat -> (forall i, (i < length ys)%nat -> nth i ys 0 = c) ->
  interpolate (default_filter (/ 4)) ys factor order = Ok out -> Forall (fun y => y = c) out.
Proof.
  intros RG O H R. destruct (proj1 (C65_raises _ ys factor order (default_len _) RG) (ex_intro _ out R)) as [F B].
  destruct (C65_mean _ ys factor order out (default_len _) RG R) as [L [e [X [E N]]]]. pose proof (extended_len _ _ _ X) as LE.
  apply Forall_forall. intros y I. apply (In_nth _ _ 0) in I. destruct I as [m [M <-]].
  refine (C65_constant _ c ys factor order out (default_len _) RG ltac:(lia) H R m e M LE _). apply Rgt_not_eq, total_pos; nia.
Qed.
(* a filter that is a symmetric function of the distance keeps a straight line at the samples *)
Theorem C65_symmetric_line h a b ys factor order out i : (forall x, h (- x) = h x) -> regular order factor -> (3 <= order)%nat ->
  (forall i, (i < length ys)%nat -> nth i ys 0 = a + b * INR i) -> interpolate (map h) ys factor order = Ok out -> (i < length ys)%nat ->
  rsum (seq 0 (2 * order + 1)) (fun d => h (INR order - INR d)) <> 0 -> nth (factor * i) out 0 = a + b * INR i.
Proof.
  intros EV RG O H R I W. assert (KL : keeps_length (map h)) by (intros xs; apply map_length).
  destruct (proj1 (C65_raises _ ys factor order KL RG) (ex_intro _ out R)) as [F B].
  destruct (C65_mean _ ys factor order out KL RG R) as [L [e [X [E N]]]]. pose proof (extended_len _ _ _ X) as LE. rewrite N by (rewrite L; nia).
  rewrite (extend_quad polyfit 0 b a ys order FE) in E by (try lia; intros j J; rewrite H by exact J; unfold quad; ring). injection E as <-.
  set (e := map _ _) in *. set (fir := map h _). assert (LF : length fir = (2 * order * factor + 1)%nat) by (unfold fir; rewrite map_length, tap_grid_len; reflexivity).
  assert (FN : forall d, (d <= 2 * order)%nat -> nth (factor * (2 * order - d)) fir 0 = h (INR order - INR d)).
  { intros d D. unfold fir. rewrite (nth_indep _ 0 (h 0)) by (fold fir; rewrite LF; nia). rewrite map_nth, grid_nth by nia. f_equal. rewrite mult_INR, minus_INR, mult_INR by lia. cbn [INR].
    assert (0 < INR factor) by (apply lt_0_INR; lia). field. lra. }
  unfold weighted_mean, total_weight. rewrite (at_sample fir factor order e i (fun n => nth n e 0)) by (lia || exact LF).
  rewrite (rsum_ext (seq 0 (length e)) (weight fir factor (factor * i)) (fun n => weight fir factor (factor * i) n * (fun _ => 1) n)) by (intros; ring).
  rewrite (at_sample fir factor order e i (fun _ => 1)) by (lia || exact LF). replace (S (2 * order)) with (2 * order + 1)%nat by lia.
  rewrite (rsum_ext _ _ (fun d => (a + b * INR i) * h (INR order - INR d) + b * (h (INR order - INR d) * (INR d - INR order)))).
  - rewrite rsum_add, !rsum_scale. replace (2 * order + 1)%nat with (S (2 * order)) in * by lia.
    rewrite (odd_sum (2 * order) (fun d => h (INR order - INR d) * (INR d - INR order))).
    + rewrite (rsum_ext _ (fun d => nth (factor * (2 * order - d)) fir 0 * 1) (fun d => h (INR order - INR d))) by (intros d D; apply in_seq in D; rewrite FN by lia; ring). field. exact W.
    + intros d D. rewrite minus_INR, mult_INR by lia. cbn [INR]. replace (INR order - ((1 + 1) * INR order - INR d)) with (- (INR order - INR d)) by ring. rewrite EV. ring.
  - intros d D. apply in_seq in D. rewrite FN by lia. unfold e at 1. rewrite (nth_map_seq (fun j => quad 0 b a (INR j - INR order))) by lia. unfold quad. rewrite plus_INR. ring.
Qed.

(* ---- findings ---- *)
(* factor 6, 22, ...: one tap too many, and one output too few *)
Theorem C65_length_refuted ys : (4 <= length ys)%nat -> exists out, interpolate (default_filter (/ 4)) ys 6 4 = Ok out /\ length out = (6 * length ys - 1)%nat.
Proof.
  intros L. unfold InterpModel.interpolate. change (Z.to_nat (tap_count (Z.of_nat 4) (Z.of_nat 6))) with 50%nat || (replace (Z.to_nat (tap_count (Z.of_nat 4) (Z.of_nat 6))) with 50%nat by (vm_compute; reflexivity)).
  destruct (run_ok polyfit _ (default_len (/ 4)) 50 ys 6 4) as (e & out & _ & _ & E & N & _); try lia. exists out. split; [exact E|lia].
Qed.
(* the default window is not symmetric: a straight line is shifted, even with factor 1 *)
Lemma fir9 k : (k < 9)%nat -> nth k (default_filter (/ 4) (tap_grid 4 1 9)) 0 = (1 - cos (INR k / 9 * 2 * PI)) * sinc (/ 4 * (INR k - 4)).
Proof. intros K. rewrite default_nth, tap_grid_len by (rewrite tap_grid_len; exact K). rewrite grid_nth by exact K. replace (INR 9) with 9 by (cbn; ring). do 2 f_equal. cbn [INR]. field. Qed.
Theorem C65_line_refuted a b ys i : b <> 0 -> (forall i, (i < length ys)%nat -> nth i ys 0 = a + b * INR i) -> (i < length ys)%nat -> (4 <= length ys)%nat ->
  exists out, interpolate (default_filter (/ 4)) ys 1 4 = Ok out /\ nth i out 0 <> nth i ys 0.
Proof.
  intros NB H I LN. assert (RG : regular 4 1) by (apply (C65_regular_powers 0 4); lia).
  destruct (proj2 (C65_raises _ ys 1 4 (default_len (/ 4)) RG)) as [out RN]; [lia|]. exists out. split; [exact RN|].
  destruct (C65_mean _ ys 1 4 out (default_len _) RG RN) as [L [e [X [E N]]]]. pose proof (extended_len _ _ _ X) as LE. rewrite N by lia. rewrite H by exact I.
  rewrite (extend_quad polyfit 0 b a ys 4 FE) in E by (try lia; intros j J; rewrite H by exact J; unfold quad; ring). injection E as <-.
  set (e := map _ _) in *. change (2 * 4 * 1 + 1)%nat with 9%nat in *. pose proof fir9 as F9. pose proof (total_pos 1 4 ltac:(lia) ltac:(lia) e i ltac:(lia)) as TP. change (2 * 4 * 1 + 1)%nat with 9%nat in TP.
  set (fir := default_filter (/ 4) (tap_grid 4 1 9)) in *. assert (LF : length fir = (2 * 4 * 1 + 1)%nat) by (unfold fir; rewrite default_len, tap_grid_len; reflexivity).
  unfold weighted_mean in *. unfold total_weight in *. 
  assert (T1 : forall c : nat -> R, rsum (seq 0 (length e)) (fun n => weight fir 1 i n * c n) = rsum (seq 0 9) (fun d => nth (8 - d) fir 0 * c (i + d)%nat)).
  { intros c. pose proof (at_sample fir 1 4 e i c ltac:(lia) LF ltac:(lia)) as AS. rewrite Nat.mul_1_l in AS. rewrite AS. apply rsum_ext. intros d _. do 2 f_equal. lia. }
  assert (T2 : rsum (seq 0 (length e)) (weight fir 1 i) = rsum (seq 0 9) (fun d => nth (8 - d) fir 0)).
  { rewrite (rsum_ext _ (weight fir 1 i) (fun n => weight fir 1 i n * 1)) by (intros; ring). rewrite (T1 (fun _ => 1)). apply rsum_ext. intros. ring. }
  rewrite (T1 (fun n => nth n e 0)). rewrite T2 in *.
  rewrite (rsum_ext _ (fun d => nth (8 - d) fir 0 * nth (i + d) e 0) (fun d => (a + b * INR i) * nth (8 - d) fir 0 + b * (nth (8 - d) fir 0 * (INR d - 4)))).
  2:{ intros d D. apply in_seq in D. unfold e. rewrite (nth_map_seq (fun j => quad 0 b a (INR j - INR 4))) by lia. unfold quad. rewrite plus_INR. replace (INR 4) with 4 by (cbn; ring). ring. }
  rewrite rsum_add, !rsum_scale. set (S := rsum (seq 0 9) (fun d => nth (8 - d) fir 0)) in *. set (B := rsum (seq 0 9) (fun d => nth (8 - d) fir 0 * (INR d - 4))).
  assert (NEG : B < 0).
  { unfold B. cbn [seq rsum Nat.sub]. rewrite !F9 by lia. assert (I8 : INR 8 = 8 /\ INR 7 = 7 /\ INR 6 = 6 /\ INR 5 = 5 /\ INR 4 = 4 /\ INR 3 = 3 /\ INR 2 = 2 /\ INR 1 = 1 /\ INR 0 = 0) by (cbn; repeat split; ring).
    destruct I8 as (-> & -> & -> & -> & -> & -> & -> & -> & ->).
    set (s1 := sinc (/ 4 * 1)). set (s2 := sinc (/ 4 * 2)). set (s3 := sinc (/ 4 * 3)).
    assert (P1 : 0 < s1) by (apply sinc_pos; lra). assert (P2 : 0 < s2) by (apply sinc_pos; lra). assert (P3 : 0 < s3) by (apply sinc_pos; lra).
    assert (S4 : sinc (/ 4 * 4) = 0) by (replace (/ 4 * 4) with 1 by field; apply sinc_1).
    assert (SE : forall u v, u = - v -> sinc (/ 4 * u) = sinc (/ 4 * v)) by (intros u v ->; replace (/ 4 * - v) with (- (/ 4 * v)) by ring; apply sinc_even).
    pose proof PI_RGT_0 as PP.
    assert (C : forall x, cos ((9 - x) / 9 * 2 * PI) = cos (x / 9 * 2 * PI)).
    { intros x. replace ((9 - x) / 9 * 2 * PI) with (- (x / 9 * 2 * PI) + 2 * PI) by field. rewrite cos_plus, cos_2PI, sin_2PI, cos_neg. ring. }
    assert (D : forall x y, 0 <= x -> x < y -> y <= 4 -> cos (y / 9 * 2 * PI) < cos (x / 9 * 2 * PI)).
    { intros x y Hx Hy Hz. apply cos_decreasing_1; nra. }
    pose proof (D 3 4 ltac:(lra) ltac:(lra) ltac:(lra)) as D1. pose proof (D 2 3 ltac:(lra) ltac:(lra) ltac:(lra)) as D2. pose proof (D 1 2 ltac:(lra) ltac:(lra) ltac:(lra)) as D3.
    pose proof (C 4) as C5. pose proof (C 3) as C6. pose proof (C 2) as C7.
    replace (9 - 4) with 5 in C5 by ring. replace (9 - 3) with 6 in C6 by ring. replace (9 - 2) with 7 in C7 by ring.
    rewrite C5, C6, C7. replace (8 - 4) with 4 by ring. replace (7 - 4) with 3 by ring. replace (6 - 4) with 2 by ring. replace (5 - 4) with 1 by ring. replace (4 - 4) with 0 by ring.
    rewrite (SE (3 - 4) 1), (SE (2 - 4) 2), (SE (1 - 4) 3), (SE (0 - 4) 4) by ring. rewrite S4. fold s1 s2 s3.
    set (c1 := cos (1 / 9 * 2 * PI)) in *. set (c2 := cos (2 / 9 * 2 * PI)) in *. set (c3 := cos (3 / 9 * 2 * PI)) in *. set (c4 := cos (4 / 9 * 2 * PI)) in *. clearbody s1 s2 s3 c1 c2 c3 c4.
    assert (0 < s3 * (c1 - c2)) by (apply Rmult_lt_0_compat; lra). assert (0 < s2 * (c2 - c3)) by (apply Rmult_lt_0_compat; lra). assert (0 < s1 * (c3 - c4)) by (apply Rmult_lt_0_compat; lra).
    nra. }
  intros K. assert (Q : b * B = 0).
  { assert (Z : (a + b * INR i) * S + b * B = (a + b * INR i) * S).
    { rewrite <- K at 2. field. lra. }
    lra. }
  apply Rmult_integral in Q. lra.
Qed.
End C65.
(* a fit that keeps the contract: the parabola through the first three samples *)
Definition through_three (xs ys : list R) (degree : nat) : list R :=
  match xs, ys with
  | x0 :: x1 :: x2 :: _, y0 :: y1 :: y2 :: _ =>
      let k0 := y0 / ((x0 - x1) * (x0 - x2)) in let k1 := y1 / ((x1 - x0) * (x1 - x2)) in let k2 := y2 / ((x2 - x0) * (x2 - x1)) in
      [k0 + k1 + k2; - (k0 * (x1 + x2) + k1 * (x0 + x2) + k2 * (x0 + x1)); k0 * x1 * x2 + k1 * x0 * x2 + k2 * x0 * x1]
  | _, _ => []
  end.
Example C65_fit_exists : fits_exactly through_three.
Proof.
  intros xs q L N H x. destruct xs as [|x0 [|x1 [|x2 xs]]]; cbn in H; try lia. destruct q as [|a [|b [|c [|d q]]]]; try discriminate L.
  inversion N as [|? ? N0 M]. inversion M as [|? ? N1 _]. cbn in N0, N1. assert (x0 <> x1 /\ x0 <> x2 /\ x1 <> x2) as (D1 & D2 & D3) by (repeat split; intros E; subst; tauto).
  cbn. field. repeat split; lra.
Qed.
(* samples 1 2 3 4 5, factor 2: ten outputs, the first the mean of a stretch around the first sample *)
Example C65_ten_outputs : exists out, InterpModel.interpolate through_three (default_filter (/ 4)) [1; 2; 3; 4; 5] 2 4 = Ok out /\ length out = 10%nat /\ Forall (fun y => -3 <= y <= 9) out.
Proof.
  assert (RG : regular 4 2) by (apply (C65_regular_powers 1 4); lia).
  destruct (proj2 (C65_raises through_three _ [1; 2; 3; 4; 5] 2 4 (default_len (/ 4)) RG)) as [out R]; [cbn; lia|]. exists out. split; [exact R|].
  split; [exact (proj1 (C65_mean through_three _ _ 2 4 out (default_len _) RG R))|].
  destruct (C65_default_between through_three [1; 2; 3; 4; 5] 2 4 out (-3) 9 RG ltac:(lia) R) as [e [_ [E B]]]. apply B.
  rewrite (extend_quad through_three 0 1 1 _ 4 C65_fit_exists) in E; [injection E as <-|cbn; lia|].
  - repeat (apply Forall_cons; [unfold quad; lra|]). apply Forall_nil.
  - intros i I. cbn in I. unfold quad. do 5 (destruct i as [|i]; [cbn; ring|]). lia.
Qed.

Print Assumptions C65_regular_powers.
Print Assumptions C65_regular_default.
Print Assumptions C65_raises.
Print Assumptions C65_mean.
Print Assumptions C65_position.
Print Assumptions C65_extension.
Print Assumptions C65_constant.
Print Assumptions C65_default_taps. Print Assumptions C65_default_between.
Print Assumptions C65_default_constant.
Print Assumptions C65_symmetric_line.
Print Assumptions C65_length_refuted.
Print Assumptions C65_line_refuted.
