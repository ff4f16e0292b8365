From Verif Require Import Base BaselineModel.

Definition ant_ok (i : Z) : Prop := 0 <= i <= 2046.

Lemma bl2ij_ij2bl_le i j : 0 <= i -> i <= j -> j <= 2046 -> bl2ij (ij2bl i j) = (i, j).
Proof.
  intros Hi Hij Hj. unfold bl2ij, ij2bl.
  destruct (i >? j) eqn:E; [lia|].
  destruct (j + 1 <? 256) eqn:E1.
  - destruct (256 * (i + 1) + (j + 1) >? 65536) eqn:E2; [lia|]. f_equal; lia.
  - destruct (2048 * (i + 1) + (j + 1) + 65536 >? 65536) eqn:E2; [|lia]. f_equal; lia.
Qed.

Lemma ij2bl_sym i j : ij2bl i j = ij2bl j i.
Proof.
  unfold ij2bl. destruct (i >? j) eqn:E1; destruct (j >? i) eqn:E2; try reflexivity; try lia.
  assert (i = j) by lia. subst. reflexivity.
Qed.

Lemma bl2ij_ij2bl i j : ant_ok i -> ant_ok j -> bl2ij (ij2bl i j) = (Z.min i j, Z.max i j).
Proof.
  unfold ant_ok; intros Hi Hj. destruct (Z.le_ge_cases i j).
  - rewrite bl2ij_ij2bl_le by lia. f_equal; lia.
  - rewrite ij2bl_sym, bl2ij_ij2bl_le by lia. f_equal; lia.
Qed.

Lemma ij2bl_inj i j i' j' :
  ant_ok i -> ant_ok j -> ant_ok i' -> ant_ok j' -> ij2bl i j = ij2bl i' j' ->
  (i = i' /\ j = j') \/ (i = j' /\ j = i').
Proof.
  intros Hi Hj Hi' Hj' E.
  pose proof (bl2ij_ij2bl i j Hi Hj) as A. pose proof (bl2ij_ij2bl i' j' Hi' Hj') as B.
  rewrite E, B in A. injection A as A1 A2. lia.
Qed.

Lemma f32_exact n : Z.abs n < 2 ^ 24 -> f32_of_int n = n.
Proof.
  intros H. unfold f32_of_int.
  assert (L : Z.max 0 (Z.log2 (Z.abs n) - 23) = 0).
  { assert (Z.log2 (Z.abs n) <= 23); [|lia].
    destruct (Z.eq_dec n 0); [subst; simpl; lia|].
    apply Z.lt_succ_r. apply Z.log2_lt_pow2; [lia|exact H]. }
  rewrite L. change (2 ^ 0) with 1. rewrite Z.div_1_r, Z.mod_1_r.
  replace (2 * 0 >? 1) with false by reflexivity.
  replace (2 * 0 =? 1) with false by reflexivity.
  rewrite Z.mul_1_r. rewrite Z.mul_comm. apply Z.abs_sgn.
Qed.

Lemma lor_shiftl_add a b : 0 <= b < 256 -> Z.lor (Z.shiftl a 8) b = a * 256 + b.
Proof.
  intros Hb.
  assert (D : Z.land (Z.shiftl a 8) b = 0).
  { apply Z.bits_inj'. intros n Hn. rewrite Z.land_spec, Z.bits_0.
    destruct (Z.lt_ge_cases n 8).
    - rewrite Z.shiftl_spec_low by lia. reflexivity.
    - destruct (Z.eq_dec b 0); [subst; rewrite Z.bits_0; apply andb_false_r|].
      rewrite (Z.bits_above_log2 b n); [apply andb_false_r|lia|].
      apply Z.log2_lt_pow2; [lia|].
      apply Z.lt_le_trans with (2 ^ 8); [lia|]. apply Z.pow_le_mono_r; lia. }
  rewrite <- Z.lxor_lor by exact D. rewrite <- Z.add_nocarry_lxor by exact D.
  rewrite Z.shiftl_mul_pow2 by lia. lia.
Qed.

Lemma mkbl_value i j : ant_ok i -> ant_ok j ->
  mkbl i j = if (i <? 255) && (j <? 255) then 256 * (i + 1) + (j + 1)
             else 2048 * (i + 1) + (j + 1) + 65536.
Proof.
  unfold ant_ok; intros Hi Hj. unfold mkbl.
  destruct ((i + 1 <? 256) && (j + 1 <? 256)) eqn:E.
  - replace ((i <? 255) && (j <? 255)) with true by lia.
    rewrite lor_shiftl_add by lia. rewrite f32_exact by lia. lia.
  - replace ((i <? 255) && (j <? 255)) with false by lia.
    rewrite f32_exact by lia. lia.
Qed.

Lemma land255 n : Z.land n 255 = n mod 256.
Proof. change 255 with (Z.ones 8). rewrite Z.land_ones by lia. reflexivity. Qed.

Lemma shiftr8 n : Z.shiftr n 8 = n / 256.
Proof. rewrite Z.shiftr_div_pow2 by lia. reflexivity. Qed.

Lemma get_mkbl i j : ant_ok i -> ant_ok j ->
  geti (mkbl i j) = i /\ getj (mkbl i j) = j.
Proof.
  intros Hi Hj. rewrite mkbl_value by assumption. unfold ant_ok in *.
  unfold geti, getj. rewrite land255, shiftr8.
  destruct ((i <? 255) && (j <? 255)) eqn:E.
  - destruct (256 * (i + 1) + (j + 1) >? 65536) eqn:E2; [lia|]. lia.
  - destruct (2048 * (i + 1) + (j + 1) + 65536 >? 65536) eqn:E2; [|lia].
    rewrite Z.quot_div_nonneg, Z.rem_mod_nonneg by lia. lia.
Qed.

Lemma uvbasant_mkbl i j : ant_ok i -> ant_ok j ->
  uvbasant (mkbl i j) = (i + 1, j + 1).
Proof.
  intros Hi Hj. rewrite mkbl_value by assumption. unfold ant_ok in *.
  unfold uvbasant.
  destruct ((i <? 255) && (j <? 255)) eqn:E.
  - destruct (256 * (i + 1) + (j + 1) >? 65536) eqn:E2; [lia|].
    rewrite Z.quot_div_nonneg, Z.rem_mod_nonneg by lia. f_equal; lia.
  - destruct (2048 * (i + 1) + (j + 1) + 65536 >? 65536) eqn:E2; [|lia].
    rewrite Z.quot_div_nonneg, Z.rem_mod_nonneg by lia. f_equal; lia.
Qed.

Lemma bl2ij_mkbl i j : ant_ok i -> ant_ok j -> bl2ij (mkbl i j) = (i, j).
Proof.
  intros Hi Hj. rewrite mkbl_value by assumption. unfold ant_ok in *.
  unfold bl2ij.
  destruct ((i <? 255) && (j <? 255)) eqn:E.
  - destruct (256 * (i + 1) + (j + 1) >? 65536) eqn:E2; [lia|]. f_equal; lia.
  - destruct (2048 * (i + 1) + (j + 1) + 65536 >? 65536) eqn:E2; [|lia]. f_equal; lia.
Qed.

Lemma mkbl_ij2bl i j : ant_ok i -> ant_ok j -> i <= j -> mkbl i j = ij2bl i j.
Proof.
  intros Hi Hj H. rewrite mkbl_value by assumption. unfold ant_ok, ij2bl in *.
  destruct (i >? j) eqn:E; [lia|].
  destruct ((i <? 255) && (j <? 255)) eqn:E1; destruct (j + 1 <? 256) eqn:E2; lia.
Qed.

Lemma blp2ijp_ijp2blp i j pol : ant_ok i -> ant_ok j -> -9 <= pol <= 6 ->
  blp2ijp (ijp2blp i j pol) = (Z.min i j, Z.max i j, pol).
Proof.
  intros Hi Hj Hp. unfold blp2ijp, ijp2blp.
  replace ((ij2bl i j * 16 + (pol + 9)) / 16) with (ij2bl i j) by lia.
  replace ((ij2bl i j * 16 + (pol + 9)) mod 16 - 9) with pol by lia.
  rewrite bl2ij_ij2bl by assumption. reflexivity.
Qed.

(* bl_indices *)
Lemma in_zrange a b x : In x (zrange a b) <-> a <= x < b.
Proof.
  unfold zrange. rewrite in_map_iff. split.
  - intros [k [E H]]. apply in_seq in H. lia.
  - intros H. exists (Z.to_nat (x - a)). split; [lia|]. apply in_seq. lia.
Qed.

Lemma NoDup_map_inj {A B} (f : A -> B) l :
  (forall x y, In x l -> In y l -> f x = f y -> x = y) -> NoDup l -> NoDup (map f l).
Proof.
  induction l as [|x l IH]; intros Hf Hn; simpl; [constructor|].
  inversion Hn as [|? ? Hx Hl]; subst. constructor.
  - intros Hin. apply in_map_iff in Hin. destruct Hin as [y [E Hy]].
    assert (y = x) by (apply Hf; simpl; auto). subst. contradiction.
  - apply IH; [|assumption]. intros; apply Hf; simpl; auto.
Qed.

Lemma NoDup_zrange a b : NoDup (zrange a b).
Proof. apply NoDup_map_inj; [intros; lia | apply seq_NoDup]. Qed.

Lemma NoDup_flat_map {A B} (f : A -> list B) l :
  NoDup l -> (forall x, In x l -> NoDup (f x)) ->
  (forall x y b, In x l -> In y l -> In b (f x) -> In b (f y) -> x = y) ->
  NoDup (flat_map f l).
Proof.
  induction l as [|x l IH]; intros Hn Hf Hd; simpl; [constructor|].
  inversion Hn as [|? ? Hx Hl]; subst.
  assert (Hrest : NoDup (flat_map f l)).
  { apply IH; [assumption| |]; intros; [apply Hf|eapply Hd]; simpl; eauto. }
  assert (Hdisj : forall b, In b (f x) -> ~ In b (flat_map f l)).
  { intros b Hb Hin. apply in_flat_map in Hin. destruct Hin as [y [Hy Hby]].
    assert (x = y) by (eapply Hd; simpl; eauto). subst. contradiction. }
  specialize (Hf x (or_introl eq_refl)).
  induction (f x) as [|b bs IHb]; simpl; [assumption|].
  inversion Hf as [|? ? Hb1 Hb2]; subst. constructor.
  - intros Hin. apply in_app_or in Hin. destruct Hin as [Hin|Hin]; [contradiction|].
    apply (Hdisj b); simpl; auto.
  - apply IHb; try assumption; intros b' Hb'; apply Hdisj; simpl; auto.
Qed.

Lemma in_bl_indices n auto cross bl :
  In bl (bl_indices n auto cross) <->
  exists i j, 0 <= i /\ i <= j /\ j < n /\ bl = ij2bl i j /\
    ((i = j /\ auto = true) \/ (i < j /\ cross = true)).
Proof.
  unfold bl_indices.
  destruct auto, cross; try rewrite in_flat_map; try rewrite in_map_iff.
  - split.
    + intros [i [Hi H]]. apply in_map_iff in H. destruct H as [j [E Hj]].
      rewrite in_zrange in Hi, Hj. exists i, j.
      repeat split; try lia.
    + intros [i [j [H1 [H2 [H3 [E _]]]]]]. exists i. rewrite in_zrange. split; [lia|].
      apply in_map_iff. exists j. rewrite in_zrange. split; [auto|lia].
  - split.
    + intros [i [E Hi]]. rewrite in_zrange in Hi. exists i, i. repeat split; try lia.
    + intros [i [j [H1 [H2 [H3 [E [[H4 _]|[_ H4]]]]]]]]; [|discriminate].
      exists i. rewrite in_zrange. subst. split; [reflexivity|lia].
  - split.
    + intros [i [Hi H]]. apply in_map_iff in H. destruct H as [j [E Hj]].
      rewrite in_zrange in Hi, Hj. exists i, j. repeat split; try lia.
    + intros [i [j [H1 [H2 [H3 [E [[_ H4]|[H4 _]]]]]]]]; [discriminate|].
      exists i. rewrite in_zrange. split; [lia|].
      apply in_map_iff. exists j. rewrite in_zrange. split; [auto|lia].
  - split; [intros []|].
    intros [i [j [H1 [H2 [H3 [E [[_ H4]|[_ H4]]]]]]]]; discriminate.
Qed.

Lemma nodup_bl_indices n auto cross : n <= 2047 -> NoDup (bl_indices n auto cross).
Proof.
  intros Hn. unfold bl_indices.
  destruct auto, cross; try constructor.
  - apply NoDup_flat_map.
    + apply NoDup_zrange.
    + intros i Hi. rewrite in_zrange in Hi. apply NoDup_map_inj; [|apply NoDup_zrange].
      intros x y Hx Hy E. rewrite in_zrange in Hx, Hy.
      apply ij2bl_inj in E; unfold ant_ok; lia.
    + intros x y b Hx Hy H1 H2. rewrite in_zrange in Hx, Hy.
      apply in_map_iff in H1. apply in_map_iff in H2.
      destruct H1 as [j1 [E1 J1]]. destruct H2 as [j2 [E2 J2]]. rewrite in_zrange in J1, J2.
      subst b. apply ij2bl_inj in E2; unfold ant_ok; lia.
  - apply NoDup_map_inj; [|apply NoDup_zrange].
    intros x y Hx Hy E. rewrite in_zrange in Hx, Hy. apply ij2bl_inj in E; unfold ant_ok; lia.
  - apply NoDup_flat_map.
    + apply NoDup_zrange.
    + intros i Hi. rewrite in_zrange in Hi. apply NoDup_map_inj; [|apply NoDup_zrange].
      intros x y Hx Hy E. rewrite in_zrange in Hx, Hy.
      apply ij2bl_inj in E; unfold ant_ok; lia.
    + intros x y b Hx Hy H1 H2. rewrite in_zrange in Hx, Hy.
      apply in_map_iff in H1. apply in_map_iff in H2.
      destruct H1 as [j1 [E1 J1]]. destruct H2 as [j2 [E2 J2]]. rewrite in_zrange in J1, J2.
      subst b. apply ij2bl_inj in E2; unfold ant_ok; lia.
Qed.
