(* Bit-level lemmas and the inner loops of maskio. *)
From Verif Require Import Base MaskModel MaskSpec.
Ltac Zify.zify_post_hook ::= Z.to_euclidean_division_equations.

Definition bbit (f : Z -> Z) (p : Z) : bool := Z.testbit (f (p / 31)) (p mod 31).

Lemma testbit_bits i k : 0 <= i -> Z.testbit (bits i) k = (k =? i).
Proof.
  intros Hi. unfold bits. rewrite Z.shiftl_1_l. rewrite Z.pow2_bits_eqb by lia.
  apply Z.eqb_sym.
Qed.

Lemma land_bits_zero i w : 0 <= i -> (Z.land (bits i) w =? 0) = negb (Z.testbit w i).
Proof.
  intros Hi. destruct (Z.testbit w i) eqn:E; simpl.
  - apply Z.eqb_neq. intros H. assert (Z.testbit (Z.land (bits i) w) i = false) by (rewrite H; apply Z.bits_0).
    rewrite Z.land_spec, testbit_bits, Z.eqb_refl, E in * by lia. discriminate.
  - apply Z.eqb_eq. apply Z.bits_inj'. intros n Hn.
    rewrite Z.land_spec, testbit_bits, Z.bits_0 by lia.
    destruct (n =? i) eqn:E2; [|reflexivity]. apply Z.eqb_eq in E2. subst. rewrite E. reflexivity.
Qed.

Lemma testbit_masks i k : 0 <= i -> 0 <= k -> Z.testbit (masks i) k = (k <? i).
Proof.
  intros Hi Hk. unfold masks.
  destruct (k <? i) eqn:E.
  - apply Z.ones_spec_low. lia.
  - apply Z.ones_spec_high. lia.
Qed.

Lemma bbit_upd f w v p : 0 <= p ->
  bbit (upd f w v) p = if p / 31 =? w then Z.testbit v (p mod 31) else bbit f p.
Proof.
  intros Hp. unfold bbit, upd. destruct (p / 31 =? w) eqn:E; reflexivity.
Qed.

(* ---- set_bits ---- *)
Lemma set_bits_spec fl : forall w i k, 0 <= i -> 0 <= k ->
  Z.testbit (set_bits w i fl) k =
  if (i <=? k) && (k <? i + Z.of_nat (length fl)) then nth (Z.to_nat (k - i)) fl false
  else Z.testbit w k.
Proof.
  induction fl as [|b fl IH]; intros w i k Hi Hk; cbn [set_bits length].
  - replace ((i <=? k) && (k <? i + Z.of_nat 0)) with false by lia. reflexivity.
  - rewrite IH by lia.
    destruct (Z.eq_dec k i) as [->|Hne].
    + replace ((i + 1 <=? i) && (i <? i + 1 + Z.of_nat (length fl))) with false by lia.
      replace ((i <=? i) && (i <? i + Z.of_nat (S (length fl)))) with true by lia.
      replace (Z.to_nat (i - i)) with 0%nat by lia. cbn [nth].
      destruct b.
      * rewrite Z.lor_spec, testbit_bits, Z.eqb_refl by lia. apply orb_true_r.
      * rewrite Z.land_spec, Z.lnot_spec, testbit_bits, Z.eqb_refl by lia. apply andb_false_r.
    + assert (T : Z.testbit (if b then Z.lor w (bits i) else Z.land w (Z.lnot (bits i))) k
                  = Z.testbit w k).
      { destruct b.
        - rewrite Z.lor_spec, testbit_bits by lia. replace (k =? i) with false by lia. apply orb_false_r.
        - rewrite Z.land_spec, Z.lnot_spec, testbit_bits by lia. replace (k =? i) with false by lia.
          apply andb_true_r. }
      rewrite T.
      destruct ((i + 1 <=? k) && (k <? i + 1 + Z.of_nat (length fl))) eqn:E.
      * replace ((i <=? k) && (k <? i + Z.of_nat (S (length fl)))) with true by lia.
        replace (Z.to_nat (k - i)) with (S (Z.to_nat (k - (i + 1)))) by lia. reflexivity.
      * replace ((i <=? k) && (k <? i + Z.of_nat (S (length fl)))) with false by lia. reflexivity.
Qed.

Lemma nth_firstn_lt {A} (d : A) : forall n k l, (k < n)%nat -> nth k (firstn n l) d = nth k l d.
Proof.
  induction n as [|n IH]; intros k l H; [lia|].
  destruct l as [|x l]; [reflexivity|]. destruct k as [|k]; [reflexivity|].
  simpl. apply IH. lia.
Qed.

Lemma nth_skipn_add {A} (d : A) : forall n k l, nth k (skipn n l) d = nth (n + k) l d.
Proof.
  induction n as [|n IH]; intros k l; [reflexivity|].
  destruct l as [|x l]; [destruct k; reflexivity|]. simpl. apply IH.
Qed.

Lemma firstn_length_min {A} (l : list A) n : (n <= length l)%nat -> length (firstn n l) = n.
Proof. intros; rewrite firstn_length; lia. Qed.

Lemma wr_flags_spec : forall fuel buf w boff len fl,
  0 <= boff < 31 -> 0 <= w -> 0 <= len -> w * 31 + boff + len <= 3968 ->
  Z.of_nat (length fl) = len -> (Z.to_nat len <= fuel)%nat ->
  exists buf', wr_flags fuel buf w boff len fl = Some buf' /\
    forall p, 0 <= p ->
      bbit buf' p = if (w * 31 + boff <=? p) && (p <? w * 31 + boff + len)
                    then nth (Z.to_nat (p - (w * 31 + boff))) fl false else bbit buf p.
Proof.
  induction fuel as [|fuel IH]; intros buf w boff len fl Hb Hw Hl Hmax Hfl Hf.
  - exists buf. cbn [wr_flags]. replace (len <=? 0) with true by lia. split; [reflexivity|].
    intros p Hp. replace ((w * 31 + boff <=? p) && (p <? w * 31 + boff + len)) with false by lia. reflexivity.
  - cbn [wr_flags]. destruct (len <=? 0) eqn:E0.
    + exists buf. split; [reflexivity|]. intros p Hp.
      replace ((w * 31 + boff <=? p) && (p <? w * 31 + boff + len)) with false by lia. reflexivity.
    + unfold BUFFERSIZE, BPI.
      replace ((w <? 0) || (w >=? 128)) with false by lia.
      set (bl := Z.min (31 - boff) len).
      set (buf1 := upd buf w (set_bits (buf w) boff (firstn (Z.to_nat bl) fl))).
      destruct (IH buf1 (w + 1) 0 (len - bl) (skipn (Z.to_nat bl) fl)) as [buf' [E1 E2]];
        try (unfold bl; lia).
      { rewrite skipn_length. unfold bl. lia. }
      exists buf'. split; [exact E1|]. intros p Hp. rewrite E2 by lia.
      unfold buf1. rewrite bbit_upd by lia.
      destruct (((w + 1) * 31 + 0 <=? p) && (p <? (w + 1) * 31 + 0 + (len - bl))) eqn:EA.
      * replace ((w * 31 + boff <=? p) && (p <? w * 31 + boff + len)) with true by (unfold bl in *; lia).
        rewrite nth_skipn_add. f_equal. unfold bl in *. lia.
      * destruct (p / 31 =? w) eqn:EW.
        -- rewrite set_bits_spec by lia.
           rewrite firstn_length_min by (unfold bl; lia).
           destruct ((boff <=? p mod 31) && (p mod 31 <? boff + Z.of_nat (Z.to_nat bl))) eqn:EB.
           ++ replace ((w * 31 + boff <=? p) && (p <? w * 31 + boff + len)) with true by (unfold bl in *; lia).
              rewrite nth_firstn_lt by lia. f_equal. lia.
           ++ replace ((w * 31 + boff <=? p) && (p <? w * 31 + boff + len)) with false by (unfold bl in *; lia).
              apply Z.eqb_eq in EW. unfold bbit. rewrite EW. reflexivity.
        -- replace ((w * 31 + boff <=? p) && (p <? w * 31 + boff + len)) with false by (unfold bl in *; lia).
           reflexivity.
Qed.

(* ---- reading flags ---- *)
Definition bit_list (g : Z -> bool) (a : Z) (n : nat) : list bool :=
  map (fun k => g (a + Z.of_nat k)) (seq 0 n).

Lemma bit_list_S g a n : bit_list g a (S n) = g a :: bit_list g (a + 1) n.
Proof.
  unfold bit_list. cbn [seq map]. f_equal; [f_equal; lia|].
  rewrite <- seq_shift, map_map. apply map_ext. intros k. f_equal. lia.
Qed.

Lemma bit_list_app g a n m : bit_list g a (n + m) = bit_list g a n ++ bit_list g (a + Z.of_nat n) m.
Proof.
  revert a; induction n as [|n IH]; intros a.
  - cbn [Nat.add]. replace (a + Z.of_nat 0) with a by lia. reflexivity.
  - cbn [Nat.add]. rewrite !bit_list_S, IH. cbn [app]. do 3 f_equal. lia.
Qed.

Lemma bit_list_ext g h a n : (forall k, 0 <= k < Z.of_nat n -> g (a + k) = h (a + k)) ->
  bit_list g a n = bit_list h a n.
Proof.
  intros H. unfold bit_list. apply map_ext_in. intros k Hk. apply in_seq in Hk. apply H. lia.
Qed.

Lemma bit_list_length g a n : length (bit_list g a n) = n.
Proof. unfold bit_list. rewrite map_length, seq_length. reflexivity. Qed.

Lemma bit_list_nth g a n k d : (k < n)%nat -> nth k (bit_list g a n) d = g (a + Z.of_nat k).
Proof.
  intros H. unfold bit_list.
  rewrite nth_indep with (d' := g (a + Z.of_nat 0)) by (rewrite map_length, seq_length; lia).
  rewrite (map_nth (fun k => g (a + Z.of_nat k)) (seq 0 n) 0%nat k). rewrite seq_nth by lia.
  f_equal.
Qed.

Lemma bit_list_const g a n b : (forall k, 0 <= k < Z.of_nat n -> g (a + k) = b) ->
  bit_list g a n = repeat b n.
Proof.
  revert a; induction n as [|n IH]; intros a H; [reflexivity|].
  rewrite bit_list_S. cbn [repeat]. f_equal.
  - rewrite <- (H 0) by lia. f_equal. lia.
  - apply IH. intros k Hk. rewrite <- (H (k + 1)) by lia. f_equal. lia.
Qed.

Lemma testbit_ones31 k : 0 <= k < 31 -> Z.testbit 2147483647 k = true.
Proof. intros H. change 2147483647 with (Z.ones 31). apply Z.ones_spec_low. lia. Qed.

Lemma word_flags_spec buf w boff n : 0 <= boff -> boff + Z.of_nat n <= 31 ->
  word_flags (buf w) boff n = bit_list (bbit buf) (w * 31 + boff) n.
Proof.
  intros H1 H2. unfold word_flags, bit_list. apply map_ext_in. intros k Hk. apply in_seq in Hk.
  rewrite land_bits_zero by lia. rewrite negb_involutive. unfold bbit.
  replace ((w * 31 + boff + Z.of_nat k) / 31) with w by lia.
  f_equal. lia.
Qed.

Lemma bbit_word buf w k : 0 <= k < 31 -> bbit buf (w * 31 + k) = Z.testbit (buf w) k.
Proof.
  intros H. unfold bbit. replace ((w * 31 + k) / 31) with w by lia. f_equal. lia.
Qed.

Lemma rd_flags_spec : forall fuel buf w boff len,
  0 <= boff < 31 -> 0 <= w -> 0 <= len -> w * 31 + boff + len <= 3968 ->
  (Z.to_nat len <= fuel)%nat ->
  rd_flags fuel buf w boff len = Some (bit_list (bbit buf) (w * 31 + boff) (Z.to_nat len)).
Proof.
  induction fuel as [|fuel IH]; intros buf w boff len Hb Hw Hl Hmax Hf.
  - cbn [rd_flags]. replace (len <=? 0) with true by lia.
    replace (Z.to_nat len) with 0%nat by lia. reflexivity.
  - cbn [rd_flags]. destruct (len <=? 0) eqn:E0.
    + replace (Z.to_nat len) with 0%nat by lia. reflexivity.
    + unfold BUFFERSIZE, BPI. replace ((w <? 0) || (w >=? 128)) with false by lia.
      set (bl := Z.min (31 - boff) len).
      rewrite IH by (unfold bl; lia).
      replace (Z.to_nat len) with (Z.to_nat bl + Z.to_nat (len - bl))%nat by (unfold bl; lia).
      rewrite bit_list_app. do 2 f_equal.
      * destruct (buf w =? 2147483647) eqn:E1.
        -- symmetry. apply bit_list_const. intros k Hk.
           replace (w * 31 + boff + k) with (w * 31 + (boff + k)) by lia.
           rewrite bbit_word by (unfold bl in *; lia).
           apply Z.eqb_eq in E1. rewrite E1. apply testbit_ones31. unfold bl in *; lia.
        -- destruct (buf w =? 0) eqn:E2.
           ++ symmetry. apply bit_list_const. intros k Hk.
              replace (w * 31 + boff + k) with (w * 31 + (boff + k)) by lia.
              rewrite bbit_word by (unfold bl in *; lia).
              apply Z.eqb_eq in E2. rewrite E2. apply Z.bits_0.
           ++ apply word_flags_spec; unfold bl; lia.
      * destruct (Z.le_gt_cases len (31 - boff)).
        -- replace (Z.to_nat (len - bl)) with 0%nat by (unfold bl; lia). reflexivity.
        -- f_equal. unfold bl. lia.
Qed.

(* ---- reading runs ---- *)
Definition bit_step (s : rstate) (b : bool) : rstate :=
  add_runs 1 (if Bool.eqb b (r_state s) then s else switch_state s).

Lemma state_word_bit b i : 0 <= i < 31 -> Z.testbit (state_word b) i = b.
Proof. intros H. destruct b; simpl state_word; [apply testbit_ones31; lia|apply Z.bits_0]. Qed.

Lemma land_bits_eq i u v : 0 <= i ->
  (Z.land (bits i) u =? Z.land (bits i) v) = Bool.eqb (Z.testbit u i) (Z.testbit v i).
Proof.
  intros Hi.
  assert (H : forall x, Z.land (bits i) x = if Z.testbit x i then bits i else 0).
  { intros x. apply Z.bits_inj'. intros n Hn. rewrite Z.land_spec, testbit_bits by lia.
    destruct (Z.testbit x i) eqn:E.
    - rewrite testbit_bits by lia. destruct (n =? i) eqn:E2; [|reflexivity].
      apply Z.eqb_eq in E2. subst. rewrite E. reflexivity.
    - rewrite Z.bits_0. destruct (n =? i) eqn:E2; [|reflexivity].
      apply Z.eqb_eq in E2. subst. rewrite E. reflexivity. }
  rewrite !H.
  assert (bits i <> 0).
  { intros E. pose proof (testbit_bits i i Hi) as T. rewrite E, Z.bits_0, Z.eqb_refl in T. discriminate. }
  destruct (Z.testbit u i), (Z.testbit v i); cbn [Bool.eqb]; try (apply Z.eqb_refl); apply Z.eqb_neq; auto.
Qed.

Lemma run_bit_step w s i : 0 <= i < 31 -> run_bit w s i = bit_step s (Z.testbit w i).
Proof.
  intros Hi. unfold run_bit, bit_step. rewrite land_bits_eq, state_word_bit by lia.
  destruct (Bool.eqb (Z.testbit w i) (r_state s)); reflexivity.
Qed.

Lemma add_runs_0 s : add_runs 0 s = s.
Proof. destruct s. unfold add_runs. simpl. f_equal. lia. Qed.

Lemma fold_const_same b : forall n s, r_state s = b ->
  fold_left bit_step (repeat b n) s = add_runs (Z.of_nat n) s.
Proof.
  induction n as [|n IH]; intros s Hs.
  - simpl. rewrite add_runs_0. reflexivity.
  - cbn [repeat fold_left]. rewrite IH.
    + unfold bit_step. rewrite Hs, Bool.eqb_reflx. unfold add_runs. simpl. f_equal. lia.
    + unfold bit_step. rewrite Hs, Bool.eqb_reflx. simpl. exact Hs.
Qed.

Lemma fold_const_switch b n s : r_state s = negb b -> (0 < n)%nat ->
  fold_left bit_step (repeat b n) s = add_runs (Z.of_nat n) (switch_state s).
Proof.
  intros Hs Hn. destruct n as [|n]; [lia|]. cbn [repeat fold_left].
  assert (E : bit_step s b = add_runs 1 (switch_state s)).
  { unfold bit_step. rewrite Hs. destruct b; reflexivity. }
  rewrite E, fold_const_same.
  - unfold add_runs. simpl. f_equal. lia.
  - unfold add_runs, switch_state. simpl. rewrite Hs. apply negb_involutive.
Qed.

Lemma rd_runs_spec : forall fuel buf w boff len s,
  0 <= boff < 31 -> 0 <= w -> 0 <= len -> w * 31 + boff + len <= 3968 ->
  (Z.to_nat len <= fuel)%nat ->
  rd_runs fuel buf w boff len s =
  Some (fold_left bit_step (bit_list (bbit buf) (w * 31 + boff) (Z.to_nat len)) s).
Proof.
  induction fuel as [|fuel IH]; intros buf w boff len s Hb Hw Hl Hmax Hf.
  - cbn [rd_runs]. replace (len <=? 0) with true by lia.
    replace (Z.to_nat len) with 0%nat by lia. reflexivity.
  - cbn [rd_runs]. destruct (len <=? 0) eqn:E0.
    + replace (Z.to_nat len) with 0%nat by lia. reflexivity.
    + unfold BUFFERSIZE, BPI. replace ((w <? 0) || (w >=? 128)) with false by lia.
      set (bl := Z.min (31 - boff) len).
      rewrite IH by (unfold bl; lia).
      replace (Z.to_nat len) with (Z.to_nat bl + Z.to_nat (len - bl))%nat by (unfold bl; lia).
      rewrite bit_list_app, fold_left_app. do 2 f_equal.
      * destruct (Z.le_gt_cases len (31 - boff)).
        -- replace (Z.to_nat (len - bl)) with 0%nat by (unfold bl; lia). reflexivity.
        -- f_equal. unfold bl. lia.
      * destruct (buf w =? state_word (r_state s)) eqn:E1.
        -- apply Z.eqb_eq in E1.
           rewrite (bit_list_const _ _ _ (r_state s)).
           ++ rewrite fold_const_same by reflexivity. f_equal. unfold bl; lia.
           ++ intros k Hk. replace (w * 31 + boff + k) with (w * 31 + (boff + k)) by lia.
              rewrite bbit_word by (unfold bl in *; lia). rewrite E1. apply state_word_bit. unfold bl in *; lia.
        -- destruct (buf w =? state_word (negb (r_state s))) eqn:E2.
           ++ apply Z.eqb_eq in E2.
              rewrite (bit_list_const _ _ _ (negb (r_state s))).
              ** rewrite fold_const_switch; [f_equal; unfold bl; lia|symmetry; apply negb_involutive|unfold bl; lia].
              ** intros k Hk. replace (w * 31 + boff + k) with (w * 31 + (boff + k)) by lia.
                 rewrite bbit_word by (unfold bl in *; lia). rewrite E2. apply state_word_bit. unfold bl in *; lia.
           ++ unfold bit_list.
              assert (G : forall ks, Forall (fun k => boff + Z.of_nat k < 31) ks -> forall s0,
                 fold_left (run_bit (buf w)) (map (fun k => boff + Z.of_nat k) ks) s0 =
                 fold_left bit_step (map (fun k => bbit buf (w * 31 + boff + Z.of_nat k)) ks) s0).
              { induction ks as [|k ks IHk]; intros HF s0; [reflexivity|].
                inversion HF; subst. cbn [map fold_left].
                rewrite run_bit_step by lia. rewrite <- bbit_word by lia.
                replace (w * 31 + (boff + Z.of_nat k)) with (w * 31 + boff + Z.of_nat k) by lia.
                apply IHk. assumption. }
              apply G. apply Forall_forall. intros k Hk. apply in_seq in Hk. unfold bl in *. lia.
Qed.
