From Coq Require Import Reals Lra Ascii Permutation Sorted.
From Verif Require Import Base CleanModel CleanSpec CleanProofs CleanProofs2 GridModel GridSpec GridProofs GridProofs2 ImgModel ImgSpec.
Ltac Zify.zify_post_hook ::= idtac.
Open Scope nat_scope.

(* ---------------- word_wrap ---------------- *)
Lemma split_words s : words_of s (split_blank s).
Proof.
  induction s as [|c s (NE & I & F)]; cbn [split_blank].
  - repeat split; try discriminate. repeat constructor. auto.
  - revert NE I F. generalize (split_blank s). intros l NE I F. destruct (Ascii.eqb_spec c blank) as [->|N].
    + split; [discriminate|]. split; [|constructor; auto]. destruct l; [destruct NE; reflexivity|]. cbn in *. rewrite I. auto.
    + destruct l as [|w ws]; [destruct NE; reflexivity|]. split; [discriminate|]. inversion F as [|? ? F1 F2]; subst. split.
      * destruct ws; cbn in *; subst; auto.
      * constructor; auto. intros [->|H]; [apply N; reflexivity | auto].
Qed.
Lemma skipn_skipn {A} a b (l : list A) : skipn a (skipn b l) = skipn (b + a) l.
Proof. revert l; induction b as [|b IH]; intros [|x l]; cbn; auto. apply skipn_nil. Qed.
Lemma chunk_spec v l : 0 < l -> cut l v (chunk v l).
Proof.
  intros L. unfold cut, chunk. set (k := (length v + l - 1) / l).
  assert (K1 : length v <= k * l). { unfold k. pose proof (Nat.div_mod_eq (length v + l - 1) l). pose proof (Nat.mod_upper_bound (length v + l - 1) l). nia. }
  assert (K2 : 0 < k -> (k - 1) * l < length v). { unfold k. pose proof (Nat.div_mod_eq (length v + l - 1) l). pose proof (Nat.mod_upper_bound (length v + l - 1) l). nia. }
  assert (G : forall m i, concat (map (fun i => firstn l (skipn (i * l) v)) (seq i m)) = firstn (m * l) (skipn (i * l) v)).
  { induction m as [|m IH]; intros i; [reflexivity|]. cbn [seq map concat]. rewrite IH. replace (S m * l) with (l + m * l) by lia.
    rewrite <- (firstn_skipn l (firstn (l + m * l) (skipn (i * l) v))). rewrite firstn_firstn, Nat.min_l by lia. f_equal.
    rewrite skipn_firstn_comm. replace (l + m * l - l) with (m * l) by lia. f_equal. rewrite skipn_skipn. f_equal. lia. }
  split; [|split].
  - rewrite G. cbn. apply firstn_all2. auto.
  - apply Forall_forall. intros p. rewrite in_map_iff. intros (i & <- & I). apply in_seq in I. rewrite firstn_length, skipn_length.
    assert (i * l < length v). { assert (i <= k - 1) by lia. specialize (K2 ltac:(lia)). nia. } lia.
  - intros V. assert (k = 1) by nia. rewrite H. cbn. rewrite firstn_all2; auto. lia.
Qed.
Lemma wrap_laid width lead2 : forall words l, Forall (fun w => (Z.of_nat (length (lead2 ++ w)) < width)%Z) words -> (Z.of_nat (length l) < width)%Z ->
  laid_out (Z.to_nat width) l lead2 words (wrap_words width lead2 l words) /\ Forall (fun x => (Z.of_nat (length x) < width)%Z) (wrap_words width lead2 l words).
Proof.
  induction words as [|w ws IH]; intros l F L; cbn [wrap_words].
  - split; [|repeat constructor; auto]. exists [], []. split; [auto|]. split; [constructor|]. split; [cbn; rewrite app_nil_r; auto|]. cbn. constructor.
  - inversion F as [|? ? F1 F2]; subst. destruct (Z.ltb_spec (Z.of_nat (length (l ++ blank :: w))) width) as [H|H].
    + destruct (IH _ F2 H) as [(first & rest & A & B & D & E) G]. split; auto. exists (w :: first), rest. split; [cbn; rewrite A; auto|]. split; auto. split; auto.
      rewrite D. cbn [spaced flat_map]. rewrite <- app_assoc. auto.
    + destruct (IH _ F2 F1) as [(first & rest & A & B & D & E) G]. split; [|constructor; auto].
      exists [], ((w :: first) :: rest). split; [cbn; rewrite A; auto|]. split; [constructor; auto; discriminate|]. split.
      * cbn. rewrite app_nil_r. f_equal. rewrite D. unfold later_line at 2. cbn. rewrite app_assoc. auto.
      * remember (wrap_words width lead2 (lead2 ++ w) ws) as lines eqn:EL. clear EL. destruct lines as [|x lines]; [discriminate D|].
        change (removelast (l :: x :: lines)) with (l :: removelast (x :: lines)). constructor; auto. cbn [hd]. change sp with blank. lia.
Qed.
(* ---------------- recenter ---------------- *)
Lemma rotate_length {A} c (l : list A) : c <= length l -> length (rotate c l) = length l.
Proof. intros H. unfold rotate. rewrite app_length, skipn_length, firstn_length. lia. Qed.
Lemma nth_error_skipn {A} c (l : list A) i : nth_error (skipn c l) i = nth_error l (c + i).
Proof. revert l; induction c as [|c IH]; intros [|x l]; cbn; auto. destruct i; auto. Qed.
Lemma nth_error_firstn {A} c (l : list A) i : i < c -> nth_error (firstn c l) i = nth_error l i.
Proof. revert l i; induction c as [|c IH]; intros [|x l] [|i] H; cbn; auto; try lia. apply IH. lia. Qed.
Lemma rotate_nth {A} c (l : list A) i : c < length l -> i < length l -> nth_error (rotate c l) i = nth_error l ((i + c) mod length l).
Proof.
  intros H I. unfold rotate. destruct (Nat.lt_ge_cases i (length l - c)).
  - rewrite nth_error_app1 by (rewrite skipn_length; lia). rewrite nth_error_skipn. f_equal. rewrite Nat.mod_small; lia.
  - rewrite nth_error_app2 by (rewrite skipn_length; lia). rewrite skipn_length, nth_error_firstn by lia. f_equal.
    replace (i + c) with ((i - (length l - c)) + 1 * length l) by lia. rewrite Nat.mod_add by lia. rewrite Nat.mod_small; lia.
Qed.
Lemma rotate_perm {A} c (l : list A) : Permutation (rotate c l) l.
Proof. unfold rotate. rewrite Permutation_app_comm. rewrite firstn_skipn. auto. Qed.
Lemma nth_error_eq {A} (l m : list A) : length l = length m -> (forall i, i < length l -> nth_error l i = nth_error m i) -> l = m.
Proof.
  revert m. induction l as [|x l IH]; intros [|y m] L H; try discriminate; auto.
  f_equal. { specialize (H 0 ltac:(cbn; lia)). cbn in H. congruence. } apply IH; [injection L; auto|]. intros i I. apply (H (S i)). cbn. lia.
Qed.
Lemma rotate_inv {A} (l : list A) c : l <> [] ->
  rotate (Z.to_nat ((- c) mod Z.of_nat (length l))) (rotate (Z.to_nat (c mod Z.of_nat (length l))) l) = l.
Proof.
  intros NE. assert (LP : 0 < length l) by (destruct l; [congruence | cbn; lia]).
  pose proof (Z.mod_pos_bound c (Z.of_nat (length l)) ltac:(lia)) as B1. pose proof (Z.mod_pos_bound (- c) (Z.of_nat (length l)) ltac:(lia)) as B2.
  set (c1 := Z.to_nat (c mod Z.of_nat (length l))). set (c2 := Z.to_nat ((- c) mod Z.of_nat (length l))).
  assert (L1 : length (rotate c1 l) = length l) by (apply rotate_length; lia).
  apply nth_error_eq. { rewrite rotate_length; lia. }
  intros i I. rewrite rotate_length in I by lia. rewrite rotate_nth by lia. rewrite L1 in *. rewrite rotate_nth; [|lia|apply Nat.mod_upper_bound; lia].
  f_equal. rewrite Nat.add_mod_idemp_l by lia. apply Nat2Z.inj. rewrite Nat2Z.inj_mod. replace (Z.of_nat (i + c2 + c1)) with (Z.of_nat i + ((- c) mod Z.of_nat (length l) + c mod Z.of_nat (length l)))%Z by lia.
  rewrite Z.add_mod by lia. rewrite (Z.add_mod ((- c) mod _)) by lia. rewrite !Z.mod_mod by lia. rewrite <- (Z.add_mod (- c)) by lia.
  replace (- c + c)%Z with 0%Z by lia. rewrite Z.mod_0_l by lia. rewrite Z.add_0_r, Z.mod_mod by lia. apply Z.mod_small. lia.
Qed.
