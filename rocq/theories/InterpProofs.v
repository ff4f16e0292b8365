(* Lemmas about interpolation. *)
From Coq Require Import Reals Lra.
From Verif Require Import Base CleanSpec CleanProofs InterpModel InterpSpec.
Open Scope R_scope.

Lemma dot_sum a : forall b, (length a <= length b)%nat -> dot a b = rsum (seq 0 (length a)) (fun k => nth k a 0 * nth k b 0).
Proof.
  induction a as [|x a IH]; intros [|y b] L; cbn in *; try reflexivity; [lia|]. rewrite IH by lia. rewrite <- seq_shift, rsum_map. reflexivity.
Qed.
Lemma seq_from m n : seq m n = map (fun k => (m + k)%nat) (seq 0 n).
Proof.
  revert m. induction n as [|n IH]; intros m; [reflexivity|]. cbn [seq map]. rewrite Nat.add_0_r. f_equal. rewrite IH, <- seq_shift, map_map.
  apply map_ext. intros k. lia.
Qed.
(* a sum over part of a range *)
Lemma window m L T (g : nat -> R) : (m + L <= T)%nat ->
  rsum (seq 0 T) (fun j => if ((m <=? j) && (j <? m + L))%nat then g j else 0) = rsum (seq 0 L) (fun k => g (m + k)%nat).
Proof.
  intros H. replace T with (m + (L + (T - m - L)))%nat by lia. rewrite !seq_app, !rsum_app. cbn [Nat.add].
  rewrite (rsum_const0 (seq 0 m)).
  2:{ intros x I. apply in_seq in I. destruct (Nat.leb_spec m x); [lia|]. reflexivity. }
  rewrite (rsum_const0 (seq (m + L) _)).
  2:{ intros x I. apply in_seq in I. destruct (Nat.ltb_spec x (m + L)); [lia|]. rewrite andb_false_r. reflexivity. }
  rewrite (seq_from m L), rsum_map, Rplus_0_l, Rplus_0_r. apply rsum_ext. intros k I. apply in_seq in I.
  destruct (Nat.leb_spec m (m + k)); [|lia]. destruct (Nat.ltb_spec (m + k) (m + L)); [|lia]. reflexivity.
Qed.
Lemma spread_len c f e : (0 < f)%nat -> length (flat_map (fun y : R => c y :: repeat 0 (f - 1)) e) = (f * length e)%nat.
Proof. intros F. induction e as [|y e IH]; cbn [flat_map length]; [lia|]. rewrite app_length, IH. cbn. rewrite repeat_length. lia. Qed.
Lemma spread_sum (c : R -> R) f e : (0 < f)%nat -> c 0 = c 0 -> forall g : nat -> R,
  rsum (seq 0 (f * length e)) (fun j => g j * nth j (flat_map (fun y => c y :: repeat 0 (f - 1)) e) 0) = rsum (seq 0 (length e)) (fun n => g (f * n)%nat * c (nth n e 0)).
Proof.
  intros F _. induction e as [|y e IH]; intros g; [cbn; rewrite Nat.mul_0_r; reflexivity|]. cbn [flat_map length].
  replace (f * S (length e))%nat with (f + f * length e)%nat by lia. rewrite seq_app, rsum_app. cbn [Nat.add].
  cbn [seq rsum nth]. rewrite <- seq_shift, rsum_map. f_equal.
  - destruct f as [|f]; [lia|]. cbn [seq rsum]. rewrite Nat.mul_0_r. cbn [app nth Nat.sub]. rewrite Nat.sub_0_r, rsum_const0; [lra|]. intros x I. apply in_seq in I.
    destruct x as [|x]; [lia|]. cbn [nth app]. rewrite app_nth1 by (rewrite repeat_length; lia). rewrite (nth_indep _ 0 (nth 0 (repeat 0 1) 0)) by (rewrite repeat_length; lia).
    replace (nth x (repeat 0 f) _) with 0; [ring|]. assert (Q : In (nth x (repeat 0 f) (nth 0 (repeat 0 1) 0)) (repeat 0 f)) by (apply nth_In; rewrite repeat_length; lia). apply repeat_spec in Q. congruence.
  - rewrite (seq_from f), rsum_map. rewrite (rsum_ext _ _ (fun j => (fun j => g (f + j)%nat) j * nth j (flat_map (fun y => c y :: repeat 0 (f - 1)) e) 0)).
    + rewrite (IH (fun j => g (f + j)%nat)). apply rsum_ext. intros n _. cbn. do 2 f_equal. lia.
    + intros j _. cbn beta. f_equal. change (c y :: repeat 0 (f - 1) ++ flat_map (fun y0 => c y0 :: repeat 0 (f - 1)) e) with ((c y :: repeat 0 (f - 1)) ++ flat_map (fun y0 => c y0 :: repeat 0 (f - 1)) e).
      rewrite app_nth2 by (cbn; rewrite repeat_length; lia). f_equal. cbn. rewrite repeat_length. lia.
Qed.
Lemma slide_at (c : R -> R) fir f e m : (0 < f)%nat -> (m + length fir <= f * length e)%nat ->
  dot (rev fir) (skipn m (flat_map (fun y => c y :: repeat 0 (f - 1)) e)) = rsum (seq 0 (length e)) (fun n => weight fir f m n * c (nth n e 0)).
Proof.
  intros F H. set (ss := flat_map _ e). assert (LS : length ss = (f * length e)%nat) by (apply spread_len, F).
  rewrite dot_sum by (rewrite rev_length, skipn_length; lia). rewrite rev_length.
  set (g := fun j => if ((m <=? j) && (j <? m + length fir))%nat then nth (length fir - 1 - (j - m)) fir 0 else 0).
  transitivity (rsum (seq 0 (f * length e)) (fun j => g j * nth j ss 0)).
  - rewrite (rsum_ext _ (fun j => g j * nth j ss 0) (fun j => if ((m <=? j) && (j <? m + length fir))%nat then nth (length fir - 1 - (j - m)) fir 0 * nth j ss 0 else 0)).
    + rewrite window by exact H. apply rsum_ext. intros k I. apply in_seq in I. rewrite rev_nth by lia. f_equal; [f_equal; lia|].
      clear - LS. revert ss LS. generalize (f * length e)%nat. intros T ss _. revert m. induction ss as [|y ss IH]; intros [|m]; cbn; try reflexivity; [destruct k; reflexivity|]. apply IH.
    + intros j _. unfold g. destruct (_ && _); [reflexivity|ring].
  - unfold ss. rewrite spread_sum by auto. reflexivity.
Qed.
Lemma ext_shape polyfit ys o d e : polyextend polyfit ys o d = Ok e -> extended ys o e /\ (0 < o <= length ys)%nat.
Proof.
  unfold polyextend. destruct (Nat.eqb_spec o 0); [discriminate|]. destruct (Nat.ltb_spec (length ys) o); [discriminate|]. cbn [orb]. intros [= <-].
  split; [|lia]. eexists. eexists. split; [|split; [|reflexivity]]; unfold grid; rewrite !map_length, seq_length; reflexivity.
Qed.
Lemma extended_len ys o e : extended ys o e -> length e = (length ys + 2 * o)%nat.
Proof. intros (b & a & B & A & ->). rewrite !app_length. lia. Qed.
Lemma nth_divide a : forall b m, length a = length b -> (m < length a)%nat -> nth m (divide a b) 0 = nth m a 0 / nth m b 0.
Proof.
  induction a as [|x a IH]; intros [|y b] [|m] L H; cbn in *; try lia; try reflexivity. apply IH; lia.
Qed.
Lemma tap_grid_len o f t : length (tap_grid o f t) = t.
Proof. unfold tap_grid. rewrite map_length, seq_length. reflexivity. Qed.

Lemma nth_map_seq (g : nat -> R) n m : (m < n)%nat -> nth m (map g (seq 0 n)) 0 = g m.
Proof.
  intros H. rewrite (nth_indep _ 0 (g 0%nat)) by (rewrite map_length, seq_length; exact H). rewrite map_nth, seq_nth by exact H. reflexivity.
Qed.
Section Run.
Variable polyfit : list R -> list R -> nat -> list R.
Variable filter : list R -> list R.
Hypothesis KL : keeps_length filter.
Lemma run_ok taps ys f o : (0 < f)%nat -> (0 < o <= length ys)%nat -> (0 < taps)%nat -> (taps <= f * (length ys + 2 * o))%nat ->
  exists e out, polyextend polyfit ys o 2 = Ok e /\ extended ys o e /\ interpolate_with polyfit filter taps ys f o = Ok out /\
  length out = (f * (length ys + 2 * o) - taps + 1)%nat /\
  forall m, (m < length out)%nat -> nth m out 0 = weighted_mean (filter (tap_grid o f taps)) f e m.
Proof.
  intros F O T1 T2. assert (X : exists e, polyextend polyfit ys o 2 = Ok e).
  { unfold polyextend. destruct (Nat.eqb_spec o 0); [lia|]. destruct (Nat.ltb_spec (length ys) o); [lia|]. cbn [orb]. eauto. }
  destruct X as [e E]. destruct (ext_shape _ _ _ _ _ E) as [SH _]. pose proof (extended_len _ _ _ SH) as LE.
  set (fir := filter (tap_grid o f taps)). assert (LF : length fir = taps) by (unfold fir; rewrite KL, tap_grid_len; reflexivity).
  assert (CV : forall c : R -> R, convolve (flat_map (fun y => c y :: repeat 0 (f - 1)) e) fir = Ok (slide (flat_map (fun y => c y :: repeat 0 (f - 1)) e) fir)).
  { intros c. pose proof (spread_len c f e F) as LS. unfold convolve. destruct (flat_map _ e) as [|x ss] eqn:Q; [cbn in LS; nia|]. destruct fir as [|y fr]; [cbn in LF; lia|].
    destruct (Nat.leb_spec (length (y :: fr)) (length (x :: ss))) as [_|L]; [reflexivity|]. rewrite LF, LS, LE in L. lia. }
  exists e. unfold interpolate_with. destruct (Nat.eqb_spec f 0); [lia|]. rewrite E. cbn [bind subsample]. fold fir.
  rewrite (CV (fun y => y)), (CV (fun _ => 1)). cbn [bind]. eexists. split; [reflexivity|]. split; [exact SH|]. split; [reflexivity|].
  assert (LSl : forall c : R -> R, length (slide (flat_map (fun y => c y :: repeat 0 (f - 1)) e) fir) = (f * (length ys + 2 * o) - taps + 1)%nat).
  { intros c. unfold slide. rewrite map_length, seq_length, spread_len, LE, LF by exact F. reflexivity. }
  assert (LD : length (divide (slide (flat_map (fun y => y :: repeat 0 (f - 1)) e) fir) (slide (flat_map (fun _ => 1 :: repeat 0 (f - 1)) e) fir)) = (f * (length ys + 2 * o) - taps + 1)%nat).
  { unfold divide. rewrite map_length, combine_length, (LSl (fun y => y)), (LSl (fun _ => 1)). lia. }
  split; [exact LD|]. rewrite LD. intros m M.
  rewrite nth_divide by (rewrite (LSl (fun y => y)), ?(LSl (fun _ => 1)); auto).
  assert (NS : forall c : R -> R, nth m (slide (flat_map (fun y => c y :: repeat 0 (f - 1)) e) fir) 0 = rsum (seq 0 (length e)) (fun n => weight fir f m n * c (nth n e 0))).
  { intros c. unfold slide. rewrite spread_len by exact F. rewrite nth_map_seq by (rewrite LE, LF; exact M). apply slide_at; [exact F|]. rewrite LE, LF. lia. }
  rewrite (NS (fun y => y)), (NS (fun _ => 1)). unfold weighted_mean, total_weight. cbn beta.
  assert (Q : rsum (seq 0 (length e)) (fun n => weight fir f m n * 1) = rsum (seq 0 (length e)) (weight fir f m)) by (apply rsum_ext; intros; ring). rewrite Q. reflexivity.
Qed.
End Run.
