(* Windows and outer loops of maskio. *)
From Verif Require Import Base MaskModel MaskSpec MaskProofs1 MaskProofs2.
Ltac Zify.zify_post_hook ::= idtac.

Lemma cur_clean m p : Invw m -> m_mod m = false -> cur m p = bbit (m_item m) p.
Proof.
  intros H Hm. unfold cur. destruct ((m_off m <=? p) && (p <? m_off m + m_len m)) eqn:E; [|reflexivity].
  symmetry. apply (i_same m H Hm). lia.
Qed.

(* a clean window anywhere over the same item shows the same bits *)
Lemma pres_clean m m' : Invw m -> m_mod m = false -> Invw m' -> m_mod m' = false ->
  m_item m' = m_item m -> ext m <= ext m' -> pres m m'.
Proof.
  intros H1 H2 H3 H4 E HE. split; [exact HE|]. intros p Hp.
  rewrite !cur_clean by assumption. rewrite E. reflexivity.
Qed.

(* the state after the optional flush *)
Lemma flushed m : Inv m -> exists m1,
  (if m_mod m then mkflush m else (m, Ret tt)) = (m1, Ret tt) /\
  Inv m1 /\ pres m m1 /\ m_mod m1 = false /\ ext m1 = m_size m1.
Proof.
  intros H. destruct (m_mod m) eqn:E.
  - destruct (flush_spec m H) as [m1 [F1 [F2 [F3 [F4 _]]]]]. exists m1.
    refine (conj F1 (conj F2 (conj F3 (conj F4 _)))).
    unfold ext. destruct F2 as [_ F2]. specialize (F2 F4). lia.
  - exists m. refine (conj eq_refl (conj H (conj (pres_refl m) (conj E _)))).
    unfold ext. destruct H as [_ H]. specialize (H E). lia.
Qed.

Definition covers (m : mask) (offset : Z) : Prop := m_off m <= offset < m_off m + m_len m.

Lemma rd_window_spec m offset : Inv m -> 31 <= offset ->
  (exists m', rd_window m offset = (m', Ret tt) /\ Inv m' /\ pres m m' /\ covers m' offset) \/
  (ext m <= offset /\ exists m', rd_window m offset = (m', Bug) /\ Inv m' /\ pres m m') \/
  (ext m <= offset /\ exists m2 m', rd_window m offset = (m2, Ret tt) /\ m_len m2 < 0 /\ m_off m2 <= offset /\
     rd_window m2 (offset + (m_len m2 - (offset - m_off m2))) = (m', Bug) /\ Inv m' /\ pres m m').
Proof.
  intros H Hoff. unfold rd_window at 1 2 3.
  destruct ((offset <? m_off m) || (offset >=? m_off m + m_len m)) eqn:Ew.
  2:{ left. exists m. refine (conj eq_refl (conj H (conj (pres_refl m) _))). unfold covers. lia. }
  destruct (flushed m H) as [m1 [F1 [F2 [F3 [F4 F5]]]]]. rewrite F1.
  destruct F2 as [Fw Fc]. pose proof (proj1 F3) as Fext.
  destruct (i_size m1 Fw) as [Hs Hn].
  destruct (split31 offset) as [x [y [Exy [Hx Hy]]]]; [lia|].
  assert (Qo : Z.quot offset BPI = x) by (unfold BPI; rewrite Exy; apply quot31; lia).
  assert (Qx : Z.quot (x * BPI) BPI = x) by (unfold BPI; apply Z.quot_mul; lia).
  cbv zeta. rewrite Qo, Qx. clear Qo Qx F1. unfold BUFFERSIZE.
  set (l := Z.min (m_size m1 - x * BPI) (128 * BPI)).
  assert (Ql : exists q, l = 31 * q /\ q = Z.min (m_nw m1 - x) 128) by (eexists; split; [|reflexivity]; unfold l, BPI; rewrite Hs; clear; lia).
  destruct Ql as [q [El Eq]].
  assert (Qq : Z.quot l BPI = q) by (unfold BPI; rewrite El; apply quot31_exact).
  rewrite Qq. clear Qq. clearbody l.
  assert (Hlz : (l =? 0) = (q =? 0)) by lia. rewrite Hlz.
  destruct (q =? 0) eqn:Eq0.
  - right. left. split; [unfold BPI in *; lia|]. eexists. split; [reflexivity|].
    assert (I : Invw (Mk (m_item m1) (m_nw m1) (m_buf m1) false (x * BPI) l (m_size m1))).
    { constructor; msimp.
      - exists x. unfold BPI; split; [lia|left; lia].
      - lia.
      - exact (conj Hs Hn).
      - intros _. left. lia.
      - intros _ p Hp. lia.
      - discriminate.
      - apply (i_hdr m1 Fw). }
    split; [split; [exact I|msimp; intros _; unfold BPI in *; lia]|].
    apply (pres_trans m m1); [exact F3|].
    apply pres_clean; try assumption; try reflexivity. unfold ext at 2. msimp. lia.
  - unfold item_read. msimp. unfold BUFFERSIZE.
    replace (x + q >? m_nw m1) with false by lia.
    replace ((0 <? q) && ((0 <? 0) || (0 + q >? 128))) with false by lia.
    set (b := fun k : Z => if (0 <=? k) && (k <? 0 + q) then m_item m1 (x + (k - 0)) else m_buf m1 k).
    destruct (Z_lt_le_dec 0 q) as [Hq|Hq].
    + left. eexists. split; [reflexivity|].
      assert (I : Invw (Mk (m_item m1) (m_nw m1) b false (x * BPI) l (m_size m1))).
      { constructor; msimp.
        - exists x. unfold BPI; split; [lia|left; lia].
        - lia.
        - exact (conj Hs Hn).
        - intros _. right. unfold BPI. lia.
        - intros _ p Hp. unfold b. rewrite bbit_read. unfold BPI in *.
          replace ((31 * 0 <=? p - x * 31) && (p - x * 31 <? 31 * (0 + q))) with true by lia.
          f_equal. lia.
        - discriminate.
        - apply (i_hdr m1 Fw). }
      split; [split; [exact I|msimp; intros _; unfold BPI in *; lia]|]. split.
      * apply (pres_trans m m1); [exact F3|].
        apply pres_clean; try assumption; try reflexivity. unfold ext at 2. msimp. lia.
      * unfold covers. msimp. unfold BPI. split; [lia|].
        assert (m_size m1 - x * 31 > y) by (unfold BPI in *; lia). lia.
    + right. right. split; [unfold BPI in *; lia|]. eexists. eexists. split; [reflexivity|]. msimp.
      split; [lia|]. split; [unfold BPI; lia|].
      replace (offset + (l - (offset - x * BPI))) with (31 * m_nw m1) by (unfold BPI in *; lia).
      unfold rd_window. msimp.
      replace ((31 * m_nw m1 <? x * BPI) || (31 * m_nw m1 >=? x * BPI + l)) with true by (unfold BPI in *; lia).
      cbv zeta. msimp. replace (Z.quot (31 * m_nw m1) BPI * BPI) with (m_nw m1 * 31) by (unfold BPI; rewrite quot31_exact; reflexivity).
      replace (Z.min (m_size m1 - m_nw m1 * 31) (BUFFERSIZE * BPI)) with 0 by (unfold BUFFERSIZE, BPI; lia).
      rewrite Z.eqb_refl. split; [reflexivity|].
      assert (I : Invw (Mk (m_item m1) (m_nw m1) b false (m_nw m1 * 31) 0 (m_size m1))).
      { constructor; msimp.
        - exists (m_nw m1). split; [lia|left; lia].
        - lia.
        - exact (conj Hs Hn).
        - intros _. left. lia.
        - intros _ p Hp. lia.
        - discriminate.
        - apply (i_hdr m1 Fw). }
      split; [split; [exact I|msimp; intros _; lia]|].
      apply (pres_trans m m1); [exact F3|].
      apply pres_clean; try assumption; try reflexivity. unfold ext at 2. msimp. lia.
Qed.

Lemma bit_list_shift g h a b n : (forall k, 0 <= k < Z.of_nat n -> g (a + k) = h (b + k)) ->
  bit_list g a n = bit_list h b n.
Proof.
  intros H. unfold bit_list. apply map_ext_in. intros k Hk. apply in_seq in Hk. apply H. lia.
Qed.

Lemma window_bits m offset len : Inv m -> 31 <= offset -> covers m offset -> 0 < len -> offset + len <= m_off m + m_len m ->
  exists t, Z.quot (offset - m_off m) BPI = t /\ 0 <= t /\ 0 <= (offset - m_off m) - t * BPI < 31 /\
    t * 31 + ((offset - m_off m) - t * BPI) + len <= 3968 /\
    bit_list (bbit (m_buf m)) (t * 31 + ((offset - m_off m) - t * BPI)) (Z.to_nat len) =
    bit_list (cur m) offset (Z.to_nat len).
Proof.
  intros H Hoff [C1 C2] Hl Hle. destruct H as [Hw _]. pose proof (i_len m Hw) as HL.
  destruct (split31 (offset - m_off m)) as [t [r [E [Ht Hr]]]]; [lia|].
  exists t. unfold BPI. split; [rewrite E; apply quot31; lia|]. split; [lia|]. split; [lia|]. split; [lia|].
  apply bit_list_shift. intros k Hk. unfold cur.
  replace ((m_off m <=? offset + k) && (offset + k <? m_off m + m_len m)) with true by lia. f_equal. lia.
Qed.

Lemma bit_list_pres m m' a n : pres m m' -> 0 <= a -> a + Z.of_nat n <= ext m ->
  bit_list (cur m') a n = bit_list (cur m) a n.
Proof. intros [_ H] Ha Hn. apply bit_list_ext. intros k Hk. apply H. lia. Qed.

Lemma rd_flags_nonpos f buf w b len : len <= 0 -> rd_flags f buf w b len = Some [].
Proof. intros H. destruct f; cbn [rd_flags]; replace (len <=? 0) with true by lia; reflexivity. Qed.
Lemma rd_runs_nonpos f buf w b len s : len <= 0 -> rd_runs f buf w b len s = Some s.
Proof. intros H. destruct f; cbn [rd_runs]; replace (len <=? 0) with true by lia; reflexivity. Qed.

Lemma mkread_loop_spec : forall fuel m offset n acc, Inv m -> 31 <= offset -> (Z.to_nat n + 2 <= fuel)%nat ->
  exists m' r, mkread_loop fuel m offset n acc = (m', r) /\ Inv m' /\ pres m m' /\
   ((r = Bug /\ ext m < offset + n) \/
    exists fl, r = Ret (acc ++ fl) /\ (offset + n <= ext m -> fl = bit_list (cur m) offset (Z.to_nat n))).
Proof.
  induction fuel as [|fuel IH]; intros m offset n acc H Hoff Hf; [lia|].
  cbn [mkread_loop]. destruct (n <=? 0) eqn:En.
  { exists m, (Ret acc). refine (conj eq_refl (conj H (conj (pres_refl m) (or_intror _)))).
    exists []. rewrite app_nil_r. split; [reflexivity|]. intros _. replace (Z.to_nat n) with 0%nat by lia. reflexivity. }
  destruct (rd_window_spec m offset H Hoff) as [[m1 [W1 [W2 [W3 W4]]]]|[[We [m1 [W1 [W2 W3]]]]|[We [m2 [m1 [W1 [W2 [W2b [W3 [W4 W5]]]]]]]]]];
    rewrite W1.
  - cbv zeta. set (len := Z.min (m_len m1 - (offset - m_off m1)) n).
    assert (Hlen : 0 < len <= n) by (unfold len, covers in *; lia).
    destruct (window_bits m1 offset len W2 Hoff W4 ltac:(lia) ltac:(unfold len; lia)) as [t [T1 [T2 [T3 [T4 T5]]]]].
    rewrite T1. rewrite rd_flags_spec by lia. rewrite T5.
    destruct (IH m1 (offset + len) (n - len) (acc ++ bit_list (cur m1) offset (Z.to_nat len)) W2 ltac:(lia) ltac:(lia))
      as [m' [r [R1 [R2 [R3 R4]]]]].
    exists m', r. refine (conj R1 (conj R2 (conj (pres_trans _ _ _ W3 R3) _))).
    pose proof (proj1 W3) as Hext.
    destruct R4 as [[R4 R5]|[fl [R4 R5]]].
    + left. split; [exact R4|lia].
    + right. exists (bit_list (cur m1) offset (Z.to_nat len) ++ fl). split; [rewrite R4, app_assoc; reflexivity|].
      intros Hle. rewrite R5 by lia.
      replace (Z.to_nat n) with (Z.to_nat len + Z.to_nat (n - len))%nat by lia.
      rewrite bit_list_app. replace (offset + Z.of_nat (Z.to_nat len)) with (offset + len) by lia.
      f_equal; apply bit_list_pres; auto; lia.
  - exists m1, Bug. refine (conj eq_refl (conj W2 (conj W3 (or_introl (conj eq_refl _))))). lia.
  - cbv zeta. rewrite rd_flags_nonpos by lia. rewrite app_nil_r.
    destruct fuel as [|fuel]; [lia|]. cbn [mkread_loop].
    replace (Z.min (m_len m2 - (offset - m_off m2)) n) with (m_len m2 - (offset - m_off m2)) by lia.
    replace (n - (m_len m2 - (offset - m_off m2)) <=? 0) with false by lia.
    rewrite W3. exists m1, Bug. refine (conj eq_refl (conj W4 (conj W5 (or_introl (conj eq_refl _))))). lia.
Qed.

(* what the RUNS reader returns for a list of flags *)
Definition runs_of (fl : list bool) (s : rstate) : list Z :=
  let s := fold_left bit_step fl s in if r_state s then r_out s ++ [r_runs s] else r_out s.

Lemma mkread_runs_loop_spec : forall fuel m offset n s, Inv m -> 31 <= offset -> (Z.to_nat n + 2 <= fuel)%nat ->
  exists m' r, mkread_runs_loop fuel m offset n s = (m', r) /\ Inv m' /\ pres m m' /\
   ((r = Bug /\ ext m < offset + n) \/
    exists fl, r = Ret (runs_of fl s) /\ (offset + n <= ext m -> fl = bit_list (cur m) offset (Z.to_nat n))).
Proof.
  induction fuel as [|fuel IH]; intros m offset n s H Hoff Hf; [lia|].
  cbn [mkread_runs_loop]. destruct (n <=? 0) eqn:En.
  { eexists m, _. refine (conj eq_refl (conj H (conj (pres_refl m) (or_intror _)))).
    exists []. split; [reflexivity|]. intros _. replace (Z.to_nat n) with 0%nat by lia. reflexivity. }
  destruct (rd_window_spec m offset H Hoff) as [[m1 [W1 [W2 [W3 W4]]]]|[[We [m1 [W1 [W2 W3]]]]|[We [m2 [m1 [W1 [W2 [W2b [W3 [W4 W5]]]]]]]]]];
    rewrite W1.
  - cbv zeta. set (len := Z.min (m_len m1 - (offset - m_off m1)) n).
    assert (Hlen : 0 < len <= n) by (unfold len, covers in *; lia).
    destruct (window_bits m1 offset len W2 Hoff W4 ltac:(lia) ltac:(unfold len; lia)) as [t [T1 [T2 [T3 [T4 T5]]]]].
    rewrite T1. rewrite rd_runs_spec by lia. rewrite T5.
    destruct (IH m1 (offset + len) (n - len) (fold_left bit_step (bit_list (cur m1) offset (Z.to_nat len)) s) W2 ltac:(lia) ltac:(lia))
      as [m' [r [R1 [R2 [R3 R4]]]]].
    exists m', r. refine (conj R1 (conj R2 (conj (pres_trans _ _ _ W3 R3) _))).
    pose proof (proj1 W3) as Hext.
    destruct R4 as [[R4 R5]|[fl [R4 R5]]].
    + left. split; [exact R4|lia].
    + right. exists (bit_list (cur m1) offset (Z.to_nat len) ++ fl).
      split; [rewrite R4; unfold runs_of; rewrite fold_left_app; reflexivity|].
      intros Hle. rewrite R5 by lia.
      replace (Z.to_nat n) with (Z.to_nat len + Z.to_nat (n - len))%nat by lia.
      rewrite bit_list_app. replace (offset + Z.of_nat (Z.to_nat len)) with (offset + len) by lia.
      f_equal; apply bit_list_pres; auto; lia.
  - exists m1, Bug. refine (conj eq_refl (conj W2 (conj W3 (or_introl (conj eq_refl _))))). lia.
  - cbv zeta. rewrite rd_runs_nonpos by lia.
    destruct fuel as [|fuel]; [lia|]. cbn [mkread_runs_loop].
    replace (Z.min (m_len m2 - (offset - m_off m2)) n) with (m_len m2 - (offset - m_off m2)) by lia.
    replace (n - (m_len m2 - (offset - m_off m2)) <=? 0) with false by lia.
    rewrite W3. exists m1, Bug. refine (conj eq_refl (conj W4 (conj W5 (or_introl (conj eq_refl _))))). lia.
Qed.

(* ---- writing ---- *)
Lemma wr_window_spec m offset : Inv m -> 31 <= offset ->
  exists m', wr_window m offset = (m', Ret tt) /\ Invw m' /\ pres m m' /\ 31 <= m_off m' /\
    m_off m' <= offset < m_off m' + 3968 /\
    (offset <= m_off m' + m_len m' \/ m_size m' <= m_off m' + m_len m').
Proof.
  intros H Hoff. unfold wr_window.
  assert (P : exists m1, (if (offset <? m_off m) || (offset >=? m_off m + BUFFERSIZE * BPI)
      then match (if m_mod m then mkflush m else (m, Ret tt)) with
           | (m1, Ret _) => (Mk (m_item m1) (m_nw m1) (m_buf m1) false (Z.quot offset BPI * BPI) 0 (m_size m1), Ret tt)
           | (m1, Bug) => (m1, Bug)
           | (m1, NoFuel) => (m1, NoFuel)
           end else (m, Ret tt)) = (m1, Ret tt) /\ Invw m1 /\ pres m m1 /\ 31 <= m_off m1 /\ m_off m1 <= offset < m_off m1 + 3968).
  { unfold BUFFERSIZE, BPI.
    destruct ((offset <? m_off m) || (offset >=? m_off m + 128 * 31)) eqn:Ew.
    - destruct (flushed m H) as [m1 [F1 [F2 [F3 [F4 F5]]]]]. rewrite F1.
      destruct F2 as [Fw Fc].
      destruct (split31 offset) as [x [y [Exy [Hx Hy]]]]; [lia|].
      replace (Z.quot offset 31) with x by (symmetry; rewrite Exy; apply quot31; lia).
      eexists. split; [reflexivity|].
      assert (I : Invw (Mk (m_item m1) (m_nw m1) (m_buf m1) false (x * 31) 0 (m_size m1))).
      { constructor; msimp.
        - exists x. split; [lia|left; lia].
        - lia.
        - apply (i_size m1 Fw).
        - intros _. left. lia.
        - intros _ p Hp. lia.
        - discriminate.
        - apply (i_hdr m1 Fw). }
      split; [exact I|]. split; [|msimp; lia].
      apply (pres_trans m m1); [exact F3|].
      apply pres_clean; try assumption; try reflexivity. unfold ext at 2. msimp. lia.
    - exists m. refine (conj eq_refl (conj (proj1 H) (conj (pres_refl m) _))).
      destruct (i_off m (proj1 H)) as [ow [Ho How]]. lia. }
  destruct P as [m1 [P1 [P2 [P3 [P4 P5]]]]]. rewrite P1.
  destruct (offset >? m_off m1 + m_len m1) eqn:Eg.
  - destruct (mkfill_spec m1 offset P2 Hoff ltac:(lia) P4) as [m2 [G1 [G2 [G3 [G4 [G5 G6]]]]]].
    rewrite G1. exists m2. refine (conj eq_refl (conj G2 (conj (pres_trans _ _ _ P3 G3) _))). lia.
  - exists m1. refine (conj eq_refl (conj P2 (conj P3 _))). lia.
Qed.

(* m' is m with the flags fl stored at raw position a *)
Definition wrote (m m' : mask) (a : Z) (fl : list bool) : Prop :=
  ext m <= ext m' /\ (fl <> [] -> a + Z.of_nat (length fl) <= ext m') /\
  forall p, 0 <= p -> p < ext m \/ a <= p < a + Z.of_nat (length fl) ->
    cur m' p = if (a <=? p) && (p <? a + Z.of_nat (length fl)) then nth (Z.to_nat (p - a)) fl false else cur m p.

Lemma wrote_nil m a : wrote m m a [].
Proof.
  split; [lia|]. split; [congruence|]. intros p Hp _.
  replace ((a <=? p) && (p <? a + Z.of_nat (length (@nil bool)))) with false by (cbn [length]; lia). reflexivity.
Qed.

Lemma wrote_app m m1 m2 a fl1 fl2 : wrote m m1 a fl1 ->
  wrote m1 m2 (a + Z.of_nat (length fl1)) fl2 -> wrote m m2 a (fl1 ++ fl2).
Proof.
  intros [A1 [A2 A3]] [B1 [B2 B3]].
  assert (HL : fl1 <> [] \/ length fl1 = 0%nat) by (destruct fl1; [right; reflexivity|left; discriminate]).
  split; [lia|]. rewrite app_length. split.
  - intros Hne. destruct fl2 as [|x fl2].
    + rewrite app_nil_r in Hne. specialize (A2 Hne). cbn [length]. lia.
    + specialize (B2 ltac:(discriminate)). lia.
  - intros p Hp Hr.
    destruct ((a + Z.of_nat (length fl1) <=? p) && (p <? a + Z.of_nat (length fl1) + Z.of_nat (length fl2))) eqn:E.
    + rewrite B3 by lia. rewrite E.
      replace ((a <=? p) && (p <? a + Z.of_nat (length fl1 + length fl2))) with true by lia.
      rewrite app_nth2 by lia. f_equal. lia.
    + assert (p < ext m1) as Hpe by (destruct HL as [HL|HL]; [specialize (A2 HL)|]; lia).
      rewrite B3 by lia. rewrite E. rewrite A3 by lia.
      destruct ((a <=? p) && (p <? a + Z.of_nat (length fl1))) eqn:E2.
      * replace ((a <=? p) && (p <? a + Z.of_nat (length fl1 + length fl2))) with true by lia.
        rewrite app_nth1 by lia. reflexivity.
      * replace ((a <=? p) && (p <? a + Z.of_nat (length fl1 + length fl2))) with false by lia. reflexivity.
Qed.

Lemma store_window m m1 offset b fl :
  Inv m -> 31 <= offset -> Invw m1 -> pres m m1 -> 31 <= m_off m1 ->
  m_off m1 <= offset -> (offset <= m_off m1 + m_len m1 \/ m_size m1 <= m_off m1 + m_len m1) ->
  0 < Z.of_nat (length fl) <= 3968 - (offset - m_off m1) ->
  (forall p, 0 <= p -> bbit b p = if (offset - m_off m1 <=? p) && (p <? offset - m_off m1 + Z.of_nat (length fl))
     then nth (Z.to_nat (p - (offset - m_off m1))) fl false else bbit (m_buf m1) p) ->
  let m2 := Mk (m_item m1) (m_nw m1) b true (m_off m1)
               (Z.max (m_len m1) (offset - m_off m1 + Z.of_nat (length fl))) (m_size m1) in
  Inv m2 /\ wrote m m2 offset fl.
Proof.
  intros H Hoff Hw [Px Pc] H31 Hle Hg Hn Hb m2.
  pose proof (i_len m1 Hw) as HL. pose proof (i_size m1 Hw) as HS.
  split; [split|].
  - constructor; unfold m2; msimp.
    + destruct (i_off m1 Hw) as [ow [Ho How]]. exists ow. split; [exact Ho|]. left. lia.
    + lia.
    + exact HS.
    + discriminate.
    + discriminate.
    + intros _. lia.
    + apply (i_hdr m1 Hw).
  - discriminate.
  - assert (X2 : ext m2 = Z.max (m_size m1) (m_off m1 + Z.max (m_len m1) (offset - m_off m1 + Z.of_nat (length fl)))) by reflexivity.
    assert (X1 : ext m1 = Z.max (m_size m1) (m_off m1 + m_len m1)) by reflexivity.
    split; [lia|]. split; [intros _; lia|]. intros p Hp Hr.
    unfold cur at 1. unfold m2; msimp.
    destruct ((m_off m1 <=? p) && (p <? m_off m1 + Z.max (m_len m1) (offset - m_off m1 + Z.of_nat (length fl)))) eqn:E.
    + rewrite Hb by lia.
      destruct ((offset <=? p) && (p <? offset + Z.of_nat (length fl))) eqn:E2.
      * replace ((offset - m_off m1 <=? p - m_off m1) && (p - m_off m1 <? offset - m_off m1 + Z.of_nat (length fl))) with true by lia.
        f_equal. lia.
      * replace ((offset - m_off m1 <=? p - m_off m1) && (p - m_off m1 <? offset - m_off m1 + Z.of_nat (length fl))) with false by lia.
        rewrite <- Pc by lia. unfold cur.
        replace ((m_off m1 <=? p) && (p <? m_off m1 + m_len m1)) with true by lia. reflexivity.
    + replace ((offset <=? p) && (p <? offset + Z.of_nat (length fl))) with false by lia.
      rewrite <- Pc by lia. unfold cur.
      replace ((m_off m1 <=? p) && (p <? m_off m1 + m_len m1)) with false by lia. reflexivity.
Qed.

Lemma mkwrite_loop_spec : forall fuel m offset n fl, Inv m -> 31 <= offset ->
  n = Z.of_nat (length fl) -> (Z.to_nat n <= fuel)%nat ->
  exists m', mkwrite_loop fuel m offset n fl = (m', Ret tt) /\ Inv m' /\ wrote m m' offset fl.
Proof.
  induction fuel as [|fuel IH]; intros m offset n fl H Hoff En Hf.
  { destruct fl; [|cbn [length] in *; lia]. exists m. cbn [mkwrite_loop].
    replace (n <=? 0) with true by (cbn [length] in *; lia).
    refine (conj eq_refl (conj H (wrote_nil m offset))). }
  cbn [mkwrite_loop]. destruct (n <=? 0) eqn:E0.
  { destruct fl; [|cbn [length] in *; lia]. exists m. refine (conj eq_refl (conj H (wrote_nil m offset))). }
  destruct (wr_window_spec m offset H Hoff) as [m1 [W1 [W2 [W3 [W4 [W5 W6]]]]]].
  rewrite W1. cbv zeta. unfold BPI, BUFFERSIZE.
  destruct (split31 (offset - m_off m1)) as [t [r [E [Ht Hr]]]]; [lia|].
  replace (Z.quot (offset - m_off m1) 31) with t by (symmetry; rewrite E; apply quot31; lia).
  set (len := Z.min (31 * 128 - (offset - m_off m1)) n).
  assert (Hlen : 0 < len <= n /\ len <= 3968 - (offset - m_off m1)) by (unfold len; lia).
  assert (L1 : length (firstn (Z.to_nat len) fl) = Z.to_nat len) by (apply firstn_length_min; lia).
  destruct (wr_flags_spec (Z.to_nat len) (m_buf m1) t (offset - m_off m1 - t * 31) len (firstn (Z.to_nat len) fl))
    as [b [B1 B2]]; try lia.
  rewrite B1. replace (t * 31 + (offset - m_off m1 - t * 31)) with (offset - m_off m1) in B2 by lia.
  assert (B2' : forall p, 0 <= p -> bbit b p = if (offset - m_off m1 <=? p) && (p <? offset - m_off m1 + Z.of_nat (length (firstn (Z.to_nat len) fl)))
     then nth (Z.to_nat (p - (offset - m_off m1))) (firstn (Z.to_nat len) fl) false else bbit (m_buf m1) p).
  { intros p Hp. rewrite B2 by lia. rewrite L1. replace (Z.of_nat (Z.to_nat len)) with len by lia. reflexivity. }
  destruct (store_window m m1 offset b (firstn (Z.to_nat len) fl) H Hoff W2 W3 W4 ltac:(lia) W6 ltac:(lia) B2') as [S1 S2].
  rewrite L1 in S1, S2. replace (Z.of_nat (Z.to_nat len)) with len in S1, S2 by lia.
  match goal with |- context [mkwrite_loop fuel ?mm _ _ _] => set (m2 := mm) in * end.
  destruct (IH m2 (offset + len) (n - len) (skipn (Z.to_nat len) fl) S1 ltac:(lia)) as [m' [R1 [R2 R3]]].
  { rewrite skipn_length. lia. }
  { lia. }
  exists m'. refine (conj R1 (conj R2 _)).
  rewrite <- (firstn_skipn (Z.to_nat len) fl). apply (wrote_app m m2 m'); [exact S2|].
  rewrite L1. replace (Z.of_nat (Z.to_nat len)) with len by lia. exact R3.
Qed.
