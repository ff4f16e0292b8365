(* C47: flagging only adds flags; which samples are flagged. *)
From Coq Require Import Reals Lra.
From Verif Require Import Base CleanModel RfiModel.
Ltac Zify.zify_post_hook ::= idtac.
Open Scope R_scope.
Definition flagged (mask : list bool) (i : nat) : Prop := nth i mask false = true.
Lemma put_true_length m : forall i, length (put_true m i) = length m.
Proof. induction m; intros [|i]; cbn; auto. Qed.
Lemma put_true_nth m : forall i j, nth j (put_true m i) false = if Nat.eqb j i then (j <? length m)%nat else nth j m false.
Proof.
  induction m as [|x m IH]; intros i j; [destruct i, j; cbn; auto; destruct (Nat.eqb _ _); auto|].
  destruct i, j; cbn [put_true nth Nat.eqb length]; auto. rewrite IH. destruct (Nat.eqb j i); auto.
Qed.
Lemma puts_length l : forall m, length (fold_left put_true l m) = length m.
Proof. induction l; intros m; cbn; auto. rewrite IHl, put_true_length. auto. Qed.
Lemma puts_nth l : forall m j, nth j (fold_left put_true l m) false = true <-> (In j l /\ (j < length m)%nat) \/ nth j m false = true.
Proof.
  induction l as [|i l IH]; intros m j; cbn [fold_left In]; [tauto|]. rewrite IH, put_true_length, put_true_nth. destruct (Nat.eqb_spec j i).
  - subst. rewrite Nat.ltb_lt. destruct (Nat.lt_ge_cases i (length m)); [tauto|]. rewrite (nth_overflow m) by auto. split; [lia|]. intros [[_ X]|X]; [lia|discriminate].
  - split; [tauto|]. intros [[[X|X] L]|X]; auto; congruence.
Qed.
Lemma where_in sig : forall res i, In i (where_above sig res) <-> exists r, nth_error res i = Some r /\ sig < r.
Proof.
  intros res i. unfold where_above. rewrite in_flat_map. split.
  - intros ([k r] & I & X). unfold Rltb in X. destruct (Rlt_dec sig r); [|contradiction]. destruct X as [<- | []]. exists r. split; auto.
    apply In_nth_error in I as (n & N). assert (G : forall (ys : list R) s n k r, nth_error (combine (seq s (length ys)) ys) n = Some (k, r) -> k = (s + n)%nat /\ nth_error ys n = Some r).
    { clear. induction ys as [|y ys IH]; intros s [|n] k r E; cbn in E; try discriminate; [injection E as <- <-; auto|]. apply IH in E as [-> E]. split; [lia|auto]. }
    apply G in N as [-> N]. auto.
  - intros (r & N & L). exists (i, r). split; [|unfold Rltb; destruct (Rlt_dec sig r); [cbn; auto|contradiction]].
    assert (G : forall (ys : list R) s n r, nth_error ys n = Some r -> In ((s + n)%nat, r) (combine (seq s (length ys)) ys)).
    { clear. induction ys as [|y ys IH]; intros s [|n] r E; cbn in *; try discriminate; [injection E as <-; left; f_equal; lia|]. right. apply (IH (S s)) in E. replace (s + S n)%nat with (S s + n)%nat by lia. auto. }
    apply (G _ 0%nat _ _ N).
Qed.
Lemma nth_error_Some_lt {A} (l : list A) i x : nth_error l i = Some x -> (i < length l)%nat.
Proof. intros H. apply nth_error_Some. congruence. Qed.
Lemma filter_length_le' {A} (f : A -> bool) l : (length (filter f l) <= length l)%nat.
Proof. induction l as [|x l IH]; cbn; [lia|]. destruct (f x); cbn; lia. Qed.
Section Rfi.
Variable fit : list (nat * R) -> nat -> R.

Lemma loop_adds data n : forall mask p m, remove_loop fit data mask n = (p, m) -> length m = length mask /\ (forall i, flagged mask i -> flagged m i) /\ p = poly_of fit data m.
Proof.
  induction n as [|n IH]; intros mask p m E; cbn [remove_loop] in E.
  - injection E as <- <-. auto.
  - apply IH in E as (L & F & P). rewrite puts_length in L. split; auto. split; auto. intros i I. apply F. apply puts_nth. auto.
Qed.
(* no flag is ever taken away, whatever the fit, the data and the number of passes *)
Theorem C47_only_adds data mask iter r m : remove_spikes fit data (Some mask) iter = (r, Some m) -> length m = length mask /\ forall i, flagged mask i -> flagged m i.
Proof.
  unfold remove_spikes. destruct (Nat.eqb _ _).
  - destruct (remove_loop fit data mask iter) as [p m'] eqn:E. intros [= <- <-]. apply loop_adds in E. tauto.
  - intros [= <- <-]. auto.
Qed.
Lemma kept_filter data (m : list bool) : length m = length data -> kept data m = filter (fun '(i, _) => negb (nth i m false)) (combine (seq 0 (length data)) data).
Proof.
  intros L'. unfold kept. assert (G : forall (data : list R) (m' : list bool) s full, length m' = length data -> (forall i, (i < length m')%nat -> nth (s + i) full false = nth i m' false) ->
    flat_map (fun '(x, (d, m)) => if negb m then [(x, d)] else []) (combine (seq s (length data)) (combine data m')) = filter (fun '(i, _) => negb (nth i full false)) (combine (seq s (length data)) data)).
  { clear. induction data as [|d data IH]; intros [|b m'] s full LL H; try discriminate; auto. cbn [length seq combine flat_map filter]. cbn in LL. injection LL as LL.
    assert (H0 := H 0%nat ltac:(cbn; lia)). rewrite Nat.add_0_r in H0. cbn [nth] in H0. rewrite H0. rewrite (IH m' (S s) full); auto.
    - destruct (negb b); auto.
    - intros i I. specialize (H (S i) ltac:(cbn; lia)). cbn [nth] in H. rewrite <- H. f_equal. lia. }
  apply (G data m 0%nat m); auto.
Qed.
(* the samples that are not flagged, and the curve fitted to them (to all when none is left) *)
Definition left (data : list R) (m : list bool) : list (nat * R) := filter (fun '(i, _) => negb (nth i m false)) (combine (seq 0 (length data)) data).
Definition curve (data : list R) (m : list bool) : nat -> R := fit (match left data m with [] => combine (seq 0 (length data)) data | l => l end).
Lemma curve_poly data m : length m = length data -> poly_of fit data m = curve data m.
Proof. intros L. unfold poly_of, curve, left. cbv zeta. rewrite kept_filter by auto. destruct (filter _ _); auto. Qed.
Definition sum (l : list R) : R := fold_right Rplus 0 l.
Lemma total_sum l : total l = sum l.
Proof. induction l as [|x l IH]; cbn [total sum fold_right]; [auto|rewrite IH; auto]. Qed.

(* the curve returned is the fit to the samples not flagged in the end (to all of them when
   none is left), evaluated at every sample *)
Theorem C47_curve data mask iter r m : length mask = length data -> remove_spikes fit data (Some mask) iter = (r, Some m) ->
  r = map (curve data m) (seq 0 (length data)).
Proof.
  intros L. unfold remove_spikes. rewrite L, Nat.eqb_refl. destruct (remove_loop fit data mask iter) as [p m'] eqn:E. intros [= <- <-].
  apply loop_adds in E as (L' & _ & ->). rewrite curve_poly by congruence. auto.
Qed.
(* no pass leaves the mask; n + 1 passes are one pass and then n *)
Theorem C47_passes data mask m1 n : length mask = length data -> snd (remove_spikes fit data (Some mask) 1) = Some m1 ->
  snd (remove_spikes fit data (Some mask) 0) = Some mask /\ remove_spikes fit data (Some mask) (S n) = remove_spikes fit data (Some m1) n.
Proof.
  intros L. unfold remove_spikes. rewrite L, Nat.eqb_refl. cbn [remove_loop snd]. intros [= <-]. split; auto. rewrite puts_length, L, Nat.eqb_refl. auto.
Qed.
(* one pass from any flags: flag i is added exactly if the i-th of the samples not flagged is
   further from the curve than the rms distance (see C47_wrong_sample_refuted) *)
Theorem C47_pass data mask r m : length mask = length data -> remove_spikes fit data (Some mask) 1 = (r, Some m) ->
  let dist := map (fun p => Rabs (snd p - curve data mask (fst p))) (left data mask) in
  let rms := sqrt (sum (map (fun d => d * d) dist) / INR (length dist)) in
  length m = length mask /\ forall i, flagged m i <-> flagged mask i \/ exists d, nth_error dist i = Some d /\ rms < d.
Proof.
  intros L. unfold remove_spikes. rewrite L, Nat.eqb_refl. cbn [remove_loop]. intros [= _ <-]. cbv zeta. split; [rewrite puts_length; auto|]. intros i. unfold flagged. rewrite puts_nth.
  unfold spikes. cbv zeta. rewrite curve_poly, kept_filter by auto. fold (left data mask). rewrite total_sum.
  assert (M : map (fun '(x, d) => Rabs (d - curve data mask x)) (left data mask) = map (fun p => Rabs (snd p - curve data mask (fst p))) (left data mask)) by (apply map_ext; intros []; auto).
  rewrite M. rewrite where_in. split; [tauto|]. intros [X|(d & N & X)]; [auto|]. left. split; [eauto|].
  apply nth_error_Some_lt in N. rewrite map_length in N. unfold left in N. rewrite L. eapply Nat.lt_le_trans; [exact N|].
  eapply Nat.le_trans; [apply filter_length_le'|]. rewrite combine_length, seq_length. lia.
Qed.
(* one pass from no flags: exactly the samples further from the fit than the rms distance *)
Theorem C47_first_pass data r m : remove_spikes fit data (Some (repeat false (length data))) 1 = (r, Some m) ->
  let curve := fit (combine (seq 0 (length data)) data) in
  let dist := map (fun i => Rabs (nth i data 0 - curve i)) (seq 0 (length data)) in
  let rms := sqrt (sum (map (fun d => d * d) dist) / INR (length data)) in
  forall i, flagged m i <-> (i < length data)%nat /\ rms < Rabs (nth i data 0 - curve i).
Proof.
  intros E. apply C47_pass in E; [|apply repeat_length]. cbv zeta in E |- *. destruct E as [_ E]. intros i. rewrite E. clear E.
  assert (F : forall j, nth j (repeat false (length data)) false = false). { clear. intros j. generalize (length data). intros n. revert j. induction n; intros [|j]; cbn; auto. }
  assert (LE : left data (repeat false (length data)) = combine (seq 0 (length data)) data).
  { unfold left. assert (G : forall l : list (nat * R), filter (fun '(i, _) => negb (nth i (repeat false (length data)) false)) l = l); [|apply G].
    induction l as [|[k x] l IH]; cbn [filter]; auto. rewrite F. cbn [negb]. rewrite IH. auto. }
  assert (CE : curve data (repeat false (length data)) = fit (combine (seq 0 (length data)) data)) by (unfold curve; rewrite LE; destruct (combine _ _); auto).
  rewrite LE, CE. set (c := fit _).
  assert (R0 : map (fun p => Rabs (snd p - c (fst p))) (combine (seq 0 (length data)) data) = map (fun i => Rabs (nth i data 0 - c i)) (seq 0 (length data))).
  { assert (G : forall (l : list R) s full, (forall i, (i < length l)%nat -> nth (s + i) full 0 = nth i l 0) -> map (fun p => Rabs (snd p - c (fst p))) (combine (seq s (length l)) l) = map (fun i => Rabs (nth i full 0 - c i)) (seq s (length l))).
    { clear. induction l as [|d l IH]; intros s full H; auto. cbn [length seq combine map fst snd]. f_equal.
      - specialize (H 0%nat ltac:(cbn; lia)). rewrite Nat.add_0_r in H. cbn in H. rewrite H. auto.
      - apply IH. intros i I. specialize (H (S i) ltac:(cbn; lia)). cbn [nth] in H. rewrite <- H. f_equal. lia. }
    apply (G data 0%nat data). auto. }
  rewrite R0. rewrite (map_length _ (seq 0 (length data))), seq_length. unfold flagged at 1. rewrite F. split.
  - intros [X|(d & N & X)]; [discriminate|]. pose proof (nth_error_Some_lt _ _ _ N) as L. rewrite map_length, seq_length in L. split; auto.
    rewrite nth_error_map in N. rewrite (nth_error_nth' _ 0%nat) in N by (rewrite seq_length; auto). rewrite seq_nth in N by auto. cbn [option_map Nat.add] in N. injection N as <-. auto.
  - intros [L LT]. right. exists (Rabs (nth i data 0 - c i)). split; auto. rewrite nth_error_map. rewrite (nth_error_nth' _ 0%nat) by (rewrite seq_length; auto). rewrite seq_nth by auto. reflexivity.
Qed.
(* a mask of another size is not used and not changed *)
Theorem C47_other_size data mask iter : length mask <> length data ->
  remove_spikes fit data (Some mask) iter = (fst (remove_spikes fit data (Some (repeat false (length data))) iter), Some mask).
Proof.
  intros L. unfold remove_spikes. rewrite repeat_length, Nat.eqb_refl. destruct (Nat.eqb_spec (length mask) (length data)); [contradiction|].
  destruct (remove_loop fit data (repeat false (length data)) iter). reflexivity.
Qed.
(* without a mask: as with no flags; there is no mask to change *)
Theorem C47_no_mask data iter : remove_spikes fit data None iter = (fst (remove_spikes fit data (Some (repeat false (length data))) iter), None).
Proof. unfold remove_spikes. rewrite repeat_length, Nat.eqb_refl. destruct (remove_loop fit data (repeat false (length data)) iter). reflexivity. Qed.

(* flag_by_int: an integration is flagged exactly when all its channels are masked or its
   average (its distance from the smooth curve, unless raw) reaches the threshold of the others *)
Variable thresh : list R -> option R.
Definition mean_abs (r : row) (v : R) : Prop :=
  let good := map (fun x => Rabs (fst x)) (filter (fun x => negb (snd x)) r) in good <> [] /\ v = sum good / INR (length good).
Lemma average_spec r : match average r with Some v => mean_abs r v | None => forall x, In x r -> snd x = true end.
Proof.
  unfold average, mean_abs. cbv zeta. assert (E : flat_map (fun '(v, m) => if negb m then [Rabs v] else []) r = map (fun x => Rabs (fst x)) (filter (fun x => negb (snd x)) r)).
  { induction r as [|[v m] r IH]; cbn [flat_map filter snd]; auto. destruct m; cbn [negb app map fst]; [auto|f_equal; auto]. }
  rewrite E. destruct (map _ _) eqn:M.
  - intros x X. destruct (snd x) eqn:S; auto. assert (I : In x (filter (fun x => negb (snd x)) r)) by (apply filter_In; rewrite S; auto). apply (in_map (fun x => Rabs (fst x))) in I. rewrite M in I. contradiction.
  - split; [discriminate|]. rewrite total_sum. auto.
Qed.
Theorem C47_flag_by_int (auto : list row) (raw : bool) : exists (data : list R) (mask : list bool), length data = length auto /\ length mask = length auto /\
  (forall i, (i < length auto)%nat -> if nth i mask false then forall x, In x (nth i auto []) -> snd x = true else mean_abs (nth i auto []) (nth i data 0)) /\
  let smooth := fst (remove_spikes fit data (Some mask) 3) in
  let height := fun i : nat => if raw then nth i data 0 else Rabs (nth i data 0 - nth i smooth 0) in
  flag_by_int fit thresh auto raw =
    match thresh (map height (filter (fun i => negb (nth i mask false)) (seq 0 (length auto)))) with
    | None => Err
    | Some hi => Ok (map (fun i => nth i mask false || if Rle_dec hi (height i) then true else false) (seq 0 (length auto)))
    end.
Proof.
  set (pwr := map average auto). exists (ma_data pwr), (ma_mask pwr).
  assert (LP : length pwr = length auto) by (unfold pwr; apply map_length).
  assert (LD : length (ma_data pwr) = length auto) by (unfold ma_data; rewrite map_length; auto).
  assert (LM : length (ma_mask pwr) = length auto) by (unfold ma_mask; rewrite map_length; auto).
  split; [exact LD|]. split; [exact LM|].
  assert (NP : forall i, (i < length auto)%nat -> nth i pwr None = average (nth i auto [])).
  { intros i I. unfold pwr. rewrite (nth_indep _ None (average [])) by (rewrite map_length; auto). apply map_nth. }
  assert (ND : forall i, (i < length auto)%nat -> nth i (ma_data pwr) 0 = match average (nth i auto []) with Some v => v | None => 0 end).
  { intros i I. unfold ma_data. rewrite <- NP by auto. apply (map_nth (fun o => match o with Some v => v | None => 0 end) pwr None i). }
  assert (NM : forall i, (i < length auto)%nat -> nth i (ma_mask pwr) false = match average (nth i auto []) with Some v => false | None => true end).
  { intros i I. unfold ma_mask. rewrite <- NP by auto. rewrite (nth_indep _ false true) by (rewrite map_length; lia). apply (map_nth (fun o : option R => match o with Some _ => false | None => true end) pwr None i). }
  split.
  { intros i I. rewrite NM, ND by auto. pose proof (average_spec (nth i auto [])). destruct (average (nth i auto [])); auto. }
  cbv zeta. set (smooth := fst (remove_spikes fit (ma_data pwr) (Some (ma_mask pwr)) 3)).
  assert (LS : length smooth = length auto).
  { unfold smooth, remove_spikes. rewrite LM, LD, Nat.eqb_refl. destruct (remove_loop _ _ _ _). cbn [fst]. rewrite map_length, seq_length. auto. }
  set (height := fun i => if raw then nth i (ma_data pwr) 0 else Rabs (nth i (ma_data pwr) 0 - nth i smooth 0)).
  set (spikey := if raw then pwr else map (fun '(p, s) => match p with Some v => Some (Rabs (v - s)) | None => None end) (combine pwr smooth)).
  assert (SE : spikey = map (fun i => if nth i (ma_mask pwr) false then None else Some (height i)) (seq 0 (length auto))).
  { assert (LL : length spikey = length auto) by (unfold spikey; destruct raw; [auto|rewrite map_length, combine_length; lia]).
    apply (nth_ext _ _ None None); [rewrite map_length, seq_length; auto|]. intros i I. rewrite LL in I.
    set (f := fun i => if nth i (ma_mask pwr) false then None else Some (height i)).
    transitivity (f i). 2: { rewrite (nth_indep _ None (f 0%nat)) by (rewrite map_length, seq_length; auto). rewrite (map_nth f). rewrite seq_nth by auto. auto. }
    unfold f, height. rewrite NM, ND by auto. unfold spikey. destruct raw.
    - rewrite NP by auto. destruct (average _); auto.
    - set (g := fun '(p, s) => match p with Some v => Some (Rabs (v - s)) | None => None end).
      etransitivity; [exact (map_nth g (combine pwr smooth) (None, 0) i)|]. rewrite combine_nth by lia. unfold g. rewrite NP by auto. destruct (average _); auto. }
  assert (TE : flat_map (fun o => match o with Some v => [v] | None => [] end) spikey = map height (filter (fun i => negb (nth i (ma_mask pwr) false)) (seq 0 (length auto)))).
  { rewrite SE. clear. induction (seq 0 (length auto)) as [|i l IH]; cbn [map flat_map filter]; auto. rewrite IH. destruct (nth i (ma_mask pwr) false); cbn [negb app map]; auto. }
  assert (FE : flag_by_int fit thresh auto raw = match thresh (flat_map (fun o => match o with Some v => [v] | None => [] end) spikey) with
     | None => Err | Some hi => Ok (map (fun o => match o with Some v => if Rle_dec hi v then true else false | None => if Rle_dec hi hi then true else false end) spikey) end).
  { unfold flag_by_int, spikey, smooth. fold pwr. cbv zeta. destruct raw; auto. destruct (remove_spikes _ _ _ _). auto. }
  rewrite FE, TE. clear FE. set (hs := map height _). destruct (thresh hs) as [hi|]; auto. apply f_equal. rewrite SE, map_map. apply map_ext. intros i. fold (height i). destruct (nth i (ma_mask pwr) false); cbn [orb]; auto. destruct (Rle_dec hi hi); [auto|lra].
Qed.
End Rfi.
(* a finding: once some samples are flagged, the wrong ones are. Here the last of four samples
   is the outlier, the first was flagged before; the third is flagged, the last is not *)
Theorem C47_wrong_sample_refuted : exists r, remove_spikes (fun _ _ => 0) [0; 0; 0; 100] (Some [true; false; false; false]) 1 = (r, Some [true; false; true; false]).
Proof.
  eexists. unfold remove_spikes. cbn [length Nat.eqb remove_loop]. set (sp := spikes _ _ _). assert (E : sp = [2%nat]).
  { unfold sp, spikes. cbn [kept poly_of length seq combine flat_map negb app map]. set (sig := sqrt _). unfold where_above. cbn [length seq combine flat_map map].
    assert (S : 0 <= sig /\ sig < 100).
    { split; [apply sqrt_pos|]. unfold sig. cbn [total map length]. rewrite Rminus_0_r, Rabs_R0, (Rminus_0_r 100), (Rabs_pos_eq 100) by lra.
      apply (Rlt_le_trans _ (sqrt (100 * 100))); [apply sqrt_lt_1; cbn [INR]; lra | rewrite sqrt_square; lra]. }
    rewrite Rminus_0_r, Rabs_R0, (Rminus_0_r 100), (Rabs_pos_eq 100) by lra. unfold Rltb. destruct (Rlt_dec sig 0); [lra|]. destruct (Rlt_dec sig 100); [|lra]. reflexivity. }
  rewrite E. reflexivity.
Qed.
Example C47_case : flag_by_int (fun _ _ => 0) (fun _ => Some 2) [[(1, false); (3, true)]; [(5, true)]; [(-3, false); (5, false)]] true = Ok [false; true; true].
Proof.
  unfold flag_by_int. cbn. f_equal. repeat rewrite ?(Rabs_pos_eq 1), ?(Rabs_pos_eq 5), ?(Rabs_left (-3)) by lra.
  destruct (Rle_dec 2 ((1 + 0) / 1)); [lra|]. destruct (Rle_dec 2 2); [|lra]. destruct (Rle_dec 2 ((- -3 + (5 + 0)) / (1 + 1))); [auto|lra].
Qed.
Print Assumptions C47_only_adds.
Print Assumptions C47_curve.
Print Assumptions C47_passes.
Print Assumptions C47_pass.
Print Assumptions C47_first_pass.
Print Assumptions C47_no_mask.
Print Assumptions C47_other_size.
Print Assumptions C47_flag_by_int.
Print Assumptions C47_wrong_sample_refuted.
