(* Window invariant of maskio, flushing, filling. *)
From Verif Require Import Base MaskModel MaskSpec MaskProofs1.

(* From here on division is eliminated by hand: the context is too large for
   the euclidean preprocessing of lia. *)
Ltac Zify.zify_post_hook ::= idtac.

Lemma div31 p w : 31 * w <= p < 31 * w + 31 -> p / 31 = w.
Proof. intros H. symmetry. apply Z.div_unique with (r := p - 31 * w); lia. Qed.
Lemma mod31 p w : 31 * w <= p < 31 * w + 31 -> p mod 31 = p - 31 * w.
Proof. intros H. symmetry. apply Z.mod_unique with (q := w); lia. Qed.
Lemma div31_bounds p : 31 * (p / 31) <= p < 31 * (p / 31) + 31.
Proof. pose proof (Z.div_mod p 31 ltac:(lia)). pose proof (Z.mod_pos_bound p 31 ltac:(lia)). lia. Qed.
Lemma quot31 q r : 0 <= q -> 0 <= r < 31 -> Z.quot (31 * q + r) 31 = q.
Proof. intros. rewrite Z.quot_div_nonneg by lia. apply div31. lia. Qed.
Lemma rem31 q r : 0 <= q -> 0 <= r < 31 -> Z.rem (31 * q + r) 31 = r.
Proof. intros. rewrite Z.rem_mod_nonneg by lia. rewrite (mod31 _ q); lia. Qed.
Lemma quot31_exact q : Z.quot (31 * q) 31 = q.
Proof. rewrite Z.mul_comm. apply Z.quot_mul. lia. Qed.
Lemma split31 n : 0 <= n -> exists q r, n = 31 * q + r /\ 0 <= q /\ 0 <= r < 31.
Proof.
  intros H. exists (n / 31), (n mod 31). pose proof (div31_bounds n).
  pose proof (Z.div_mod n 31 ltac:(lia)). pose proof (Z.mod_pos_bound n 31 ltac:(lia)). lia.
Qed.

(* rounding up to whole words, as the C code computes it *)
Lemma roundup31 q r : 0 <= q -> 0 <= r < 31 ->
  exists q1, (Z.quot (31 * q + r - 1) 31 + 1) * 31 = 31 * q1 /\
    31 * q + r <= 31 * q1 /\ (0 < 31 * q + r -> 31 * q1 < 31 * q + r + 31) /\
    (31 * q + r = 0 -> q1 = 1).
Proof.
  intros Hq Hr. destruct (Z.eq_dec r 0) as [->|].
  - destruct (Z.eq_dec q 0) as [->|].
    + exists 1. change (Z.quot (31 * 0 + 0 - 1) 31) with 0. lia.
    + exists q. replace (31 * q + 0 - 1) with (31 * (q - 1) + 30) by lia. rewrite quot31 by lia. lia.
  - exists (q + 1). replace (31 * q + r - 1) with (31 * q + (r - 1)) by lia. rewrite quot31 by lia. lia.
Qed.


(* The bit currently seen at raw position p (header word = positions 0..30). *)
Definition cur (m : mask) (p : Z) : bool :=
  if (m_off m <=? p) && (p <? m_off m + m_len m) then bbit (m_buf m) (p - m_off m)
  else bbit (m_item m) p.

Definition ext (m : mask) : Z := Z.max (m_size m) (m_off m + m_len m).

Record Invw (m : mask) : Prop := {
  i_off : exists ow, m_off m = 31 * ow /\
          (1 <= ow \/ (ow = -128 /\ m_len m = 0 /\ m_mod m = false));
  i_len : 0 <= m_len m <= 3968;
  i_size : m_size m = 31 * m_nw m /\ 1 <= m_nw m;
  i_clean : m_mod m = false -> m_len m = 0 \/ m_off m + m_len m <= m_size m;
  i_same : m_mod m = false -> forall p, m_off m <= p < m_off m + m_len m ->
           bbit (m_item m) p = bbit (m_buf m) (p - m_off m);
  i_dirty : m_mod m = true -> 0 < m_len m;
  i_hdr : m_item m 0 = int_item_word }.

Definition Inv (m : mask) : Prop :=
  Invw m /\ (m_mod m = false -> m_off m + m_len m <= m_size m).

Definition pres (m m' : mask) : Prop :=
  ext m <= ext m' /\ forall p, 0 <= p < ext m -> cur m' p = cur m p.

Lemma pres_refl m : pres m m.
Proof. split; [lia|reflexivity]. Qed.

Lemma pres_trans a b c : pres a b -> pres b c -> pres a c.
Proof.
  intros [E1 H1] [E2 H2]. split; [lia|]. intros p Hp. rewrite H2 by lia. apply H1. exact Hp.
Qed.

Lemma bbit_write f g a len p :
  bbit (fun k => if (a <=? k) && (k <? a + len) then g (k - a) else f k) p =
  if (31 * a <=? p) && (p <? 31 * (a + len)) then bbit g (p - 31 * a) else bbit f p.
Proof.
  unfold bbit. pose proof (div31_bounds p) as B. set (w := p / 31) in *.
  destruct ((a <=? w) && (w <? a + len)) eqn:E.
  - replace ((31 * a <=? p) && (p <? 31 * (a + len))) with true by lia.
    rewrite (div31 (p - 31 * a) (w - a)), (mod31 (p - 31 * a) (w - a)), (mod31 p w) by lia.
    f_equal. lia.
  - replace ((31 * a <=? p) && (p <? 31 * (a + len))) with false by lia. reflexivity.
Qed.

Lemma bbit_read f g a t len p :
  bbit (fun k => if (t <=? k) && (k <? t + len) then f (a + (k - t)) else g k) p =
  if (31 * t <=? p) && (p <? 31 * (t + len)) then bbit f (p + 31 * (a - t)) else bbit g p.
Proof.
  unfold bbit. pose proof (div31_bounds p) as B. set (w := p / 31) in *.
  destruct ((t <=? w) && (w <? t + len)) eqn:E.
  - replace ((31 * t <=? p) && (p <? 31 * (t + len))) with true by lia.
    rewrite (div31 (p + 31 * (a - t)) (a + (w - t))), (mod31 (p + 31 * (a - t)) (a + (w - t))), (mod31 p w) by lia.
    f_equal. lia.
  - replace ((31 * t <=? p) && (p <? 31 * (t + len))) with false by lia. reflexivity.
Qed.

Lemma bbit_upd' f w v p : bbit (upd f w v) p =
  if (31 * w <=? p) && (p <? 31 * w + 31) then Z.testbit v (p - 31 * w) else bbit f p.
Proof.
  unfold bbit, upd. pose proof (div31_bounds p) as B.
  destruct (p / 31 =? w) eqn:E.
  - apply Z.eqb_eq in E. rewrite E in B. replace ((31 * w <=? p) && (p <? 31 * w + 31)) with true by lia.
    rewrite (mod31 p w) by lia. reflexivity.
  - apply Z.eqb_neq in E.
    destruct ((31 * w <=? p) && (p <? 31 * w + 31)) eqn:E2; [|reflexivity].
    exfalso. apply E. apply div31. lia.
Qed.

Lemma bbit_at f w p : 31 * w <= p < 31 * w + 31 -> bbit f p = Z.testbit (f w) (p - 31 * w).
Proof. intros H. unfold bbit. rewrite (div31 p w), (mod31 p w) by lia. reflexivity. Qed.

Ltac msimp := cbn [m_item m_nw m_buf m_mod m_off m_len m_size] in *.

(* mkflush from the final write on: buffer b1, length 31*q1, size s1 *)
Lemma flush_tail m b1 q1 s1 ow :
  m_off m = 31 * ow -> (1 <= ow \/ (ow = -128 /\ q1 = 0)) ->
  m_item m 0 = int_item_word -> m_size m = 31 * m_nw m -> 1 <= m_nw m ->
  0 <= m_len m <= 31 * q1 -> q1 <= 128 -> (q1 = 0 -> m_off m <= m_size m) ->
  s1 = Z.max (m_size m) (m_off m + 31 * q1) ->
  (forall p, m_off m <= p < m_off m + m_len m -> bbit b1 (p - m_off m) = bbit (m_buf m) (p - m_off m)) ->
  (forall p, m_off m + m_len m <= p < m_off m + 31 * q1 -> p < m_size m -> bbit b1 (p - m_off m) = bbit (m_item m) p) ->
  exists m', 
    match item_write (Mk (m_item m) (m_nw m) b1 (m_mod m) (m_off m) (31 * q1) s1)
                     (Z.quot (m_off m) BPI) (Z.quot (31 * q1) BPI) with
    | None => (Mk (m_item m) (m_nw m) b1 (m_mod m) (m_off m) (31 * q1) s1, Bug)
    | Some (f, nw) => (Mk f nw b1 false (m_off m) (31 * q1) s1, Ret tt)
    end = (m', Ret tt) /\
    Inv m' /\ pres m m' /\ m_mod m' = false /\ m_off m' = m_off m /\ m_len m' = 31 * q1 /\ m_size m' = s1.
Proof.
  intros Ho How Hh Hs Hn Hl Hl1 Hz Hs1 Hb1 Hb2.
  unfold item_write, BPI, BUFFERSIZE. msimp.
  rewrite Ho, !quot31_exact, <- Ho.
  replace (q1 >? 128) with false by lia.
  eexists. split; [reflexivity|].
  assert (Hitem : forall p,
     bbit (fun k => if (ow <=? k) && (k <? ow + q1) then b1 (k - ow) else m_item m k) p =
     if (m_off m <=? p) && (p <? m_off m + 31 * q1) then bbit b1 (p - m_off m) else bbit (m_item m) p).
  { intros p. rewrite bbit_write. replace (31 * (ow + q1)) with (m_off m + 31 * q1) by lia.
    rewrite <- Ho. reflexivity. }
  split; [|split; [|repeat split; reflexivity]].
  - split.
    + constructor; msimp.
      * exists ow. split; [exact Ho|]. destruct How as [H|[H1 H2]]; [left; exact H|right]. repeat split; lia.
      * lia.
      * destruct (0 <? q1) eqn:E; lia.
      * intros _. right. lia.
      * intros _ p Hp. rewrite Hitem.
        replace ((m_off m <=? p) && (p <? m_off m + 31 * q1)) with true by lia. reflexivity.
      * discriminate.
      * destruct ((ow <=? 0) && (0 <? ow + q1)) eqn:E; [lia|exact Hh].
    + msimp. lia.
  - split.
    + unfold ext. msimp. lia.
    + unfold ext, cur. msimp. intros p Hp. rewrite Hitem.
      destruct ((m_off m <=? p) && (p <? m_off m + 31 * q1)) eqn:E1.
      * destruct ((m_off m <=? p) && (p <? m_off m + m_len m)) eqn:E2.
        -- apply Hb1. lia.
        -- apply Hb2; lia.
      * replace ((m_off m <=? p) && (p <? m_off m + m_len m)) with false by lia. reflexivity.
Qed.

Lemma flush_spec m : Inv m ->
  exists m', mkflush m = (m', Ret tt) /\ Inv m' /\ pres m m' /\ m_mod m' = false /\
    m_off m' = m_off m /\ m_len m <= m_len m' /\ m_size m <= m_size m'.
Proof.
  intros [Hw Hc]. destruct Hw as [[ow [Ho How]] Hl [Hs Hn] Hcl Hsame Hd Hh].
  destruct (split31 (m_len m)) as [q [r [Eqr [Hq Hr]]]]; [lia|].
  destruct (roundup31 q r Hq Hr) as [q1 [R1 [R2 [R3 R4]]]].
  unfold mkflush, BPI. rewrite Eqr, R1. rewrite quot31, rem31 by lia. rewrite <- Eqr.
  destruct (m_off m + m_len m >=? m_size m) eqn:E1.
  - cbv zeta.
    destruct (flush_tail m (m_buf m) q1 (m_off m + 31 * q1) ow Ho ltac:(lia) Hh Hs Hn ltac:(lia) ltac:(lia) ltac:(lia) ltac:(lia))
      as [m' [F1 [F2 [F3 [F4 [F5 [F6 F7]]]]]]].
    { intros; reflexivity. }
    { intros; exfalso; lia. }
    exists m'. msimp. unfold BPI in F1. rewrite F1.
    refine (conj eq_refl (conj F2 (conj F3 (conj F4 (conj F5 (conj _ _)))))); lia.
  - destruct (negb (r =? 0)) eqn:E2.
    + assert (How1 : 1 <= ow) by lia.
      unfold BUFFERSIZE. cbv zeta.
      replace (m_off m + m_len m) with (31 * (ow + q) + r) by lia. rewrite quot31 by lia.
      replace (ow + q + 1 >? m_nw m) with false by lia.
      replace ((q <? 0) || (q >=? 128)) with false by lia.
      set (w := ow + q).
      set (v := Z.lor (Z.land (m_item m w) (Z.lnot (masks r))) (Z.land (m_buf m q) (masks r))).
      assert (Hv : forall k, 0 <= k -> Z.testbit v k =
                 if k <? r then Z.testbit (m_buf m q) k else Z.testbit (m_item m w) k).
      { intros k Hk. unfold v. rewrite Z.lor_spec, !Z.land_spec, Z.lnot_spec, testbit_masks by lia.
        destruct (k <? r); cbn [negb]; rewrite ?andb_true_r, ?andb_false_r, ?orb_false_r, ?orb_false_l; reflexivity. }
      destruct (flush_tail m (upd (m_buf m) q v) q1 (m_size m) ow Ho ltac:(lia) Hh Hs Hn ltac:(lia) ltac:(lia) ltac:(lia) ltac:(lia))
        as [m' [F1 [F2 [F3 [F4 [F5 [F6 F7]]]]]]].
      { intros p Hp. rewrite bbit_upd'.
        destruct ((31 * q <=? p - m_off m) && (p - m_off m <? 31 * q + 31)) eqn:E3; [|reflexivity].
        rewrite Hv by lia. replace (p - m_off m - 31 * q <? r) with true by lia.
        symmetry. apply bbit_at. lia. }
      { intros p Hp Hps. rewrite bbit_upd'.
        replace ((31 * q <=? p - m_off m) && (p - m_off m <? 31 * q + 31)) with true by lia.
        rewrite Hv by lia.
        replace (p - m_off m - 31 * q <? r) with false by lia.
        rewrite (bbit_at (m_item m) w) by (unfold w; lia). f_equal. unfold w. lia. }
      exists m'. msimp. unfold BPI in F1. rewrite F1.
      refine (conj eq_refl (conj F2 (conj F3 (conj F4 (conj F5 (conj _ _)))))); lia.
    + assert (Elen : m_len m = 31 * q) by lia.
      destruct (flush_tail m (m_buf m) q (m_size m) ow Ho ltac:(lia) Hh Hs Hn ltac:(lia) ltac:(lia) ltac:(lia) ltac:(lia))
        as [m' [F1 [F2 [F3 [F4 [F5 [F6 F7]]]]]]].
      { intros; reflexivity. }
      { intros; exfalso; lia. }
      exists m'. rewrite <- Elen in F1.
      destruct m. msimp. unfold BPI in F1. rewrite F1.
      refine (conj eq_refl (conj F2 (conj F3 (conj F4 (conj F5 (conj _ _)))))); lia.
Qed.

(* ---- filling ---- *)
Lemma mkfill_spec m offset : Invw m -> 31 <= offset ->
  m_off m + m_len m < offset < m_off m + 3968 -> 31 <= m_off m ->
  exists m', mkfill m offset = Some m' /\ Invw m' /\ pres m m' /\ m_off m' = m_off m /\
    m_size m' = m_size m /\ (offset <= m_off m' + m_len m' \/ m_size m' <= m_off m' + m_len m').
Proof.
  intros [[ow [Ho How]] Hl [Hs Hn] Hcl Hsame Hd Hh] Hoff Hwin Hpos.
  unfold mkfill.
  destruct (m_off m + m_len m <? m_size m) eqn:E1.
  - destruct (split31 (m_len m)) as [b [i [Eqr [Hb Hi]]]]; [lia|].
    destruct (split31 offset) as [x [y [Exy [Hx Hy]]]]; [lia|].
    unfold BPI. cbv zeta.
    assert (Q1 : Z.quot (m_len m) 31 = b) by (rewrite Eqr; apply quot31; lia).
    assert (Q2 : Z.rem (m_len m) 31 = i) by (rewrite Eqr; apply rem31; lia).
    assert (Q3 : Z.quot offset 31 = x) by (rewrite Exy; apply quot31; lia).
    assert (Q4 : Z.quot (m_off m + m_len m) 31 = ow + b).
    { replace (m_off m + m_len m) with (31 * (ow + b) + i) by lia. apply quot31; lia. }
    assert (Q5 : Z.quot (m_size m) 31 = m_nw m) by (rewrite Hs; apply quot31_exact).
    rewrite Q1, Q2, Q3, Q4, Q5.
    set (off := ow + b). set (len := Z.min (x + 1) (m_nw m) - off).
    unfold item_read, BUFFERSIZE.
    assert (Hlen : 1 <= len /\ b + len <= 128 /\ off + len <= m_nw m) by (unfold len, off; lia).
    replace (off + len >? m_nw m) with false by lia.
    replace ((0 <? len) && ((b <? 0) || (b + len >? 128))) with false by lia.
    set (buf1 := fun k => if (b <=? k) && (k <? b + len) then m_item m (off + (k - b)) else m_buf m k).
    set (v := Z.lor (Z.land (m_buf m b) (masks i)) (Z.land (buf1 b) (Z.lnot (masks i)))).
    assert (Hv : forall k, 0 <= k -> Z.testbit v k =
                 if k <? i then Z.testbit (m_buf m b) k else Z.testbit (m_item m off) k).
    { intros k Hk. unfold v. rewrite Z.lor_spec, !Z.land_spec, Z.lnot_spec, testbit_masks by lia.
      unfold buf1. replace ((b <=? b) && (b <? b + len)) with true by lia. replace (off + (b - b)) with off by lia.
      destruct (k <? i); cbn [negb]; rewrite ?andb_true_r, ?andb_false_r, ?orb_false_r, ?orb_false_l; reflexivity. }
    set (l1 := (off + len) * 31 - m_off m).
    assert (HL1 : l1 = 31 * (b + len)) by (unfold l1, off; lia).
    (* bits of the new buffer *)
    assert (HB : forall q, 0 <= q -> bbit (upd buf1 b v) q =
              if q <? m_len m then bbit (m_buf m) q
              else if q <? l1 then bbit (m_item m) (q + m_off m)
              else bbit (m_buf m) q).
    { intros q Hq. rewrite bbit_upd'.
      destruct ((31 * b <=? q) && (q <? 31 * b + 31)) eqn:E3.
      - rewrite Hv by lia. destruct (q - 31 * b <? i) eqn:E4.
        + replace (q <? m_len m) with true by lia. symmetry. apply bbit_at. lia.
        + replace (q <? m_len m) with false by lia. replace (q <? l1) with true by lia.
          rewrite (bbit_at (m_item m) off) by (unfold off; lia). f_equal. unfold off. lia.
      - unfold buf1. rewrite bbit_read.
        destruct ((31 * b <=? q) && (q <? 31 * (b + len))) eqn:E4.
        + replace (q <? m_len m) with false by lia. replace (q <? l1) with true by lia.
          f_equal. unfold off; lia.
        + destruct (q <? m_len m) eqn:E5; [reflexivity|].
          replace (q <? l1) with false by lia. reflexivity. }
    assert (HL : m_len m < l1 <= 3968) by (unfold len, off in *; lia).
    eexists. split; [reflexivity|].
    split; [|split; [|msimp; split; [reflexivity|split; [auto|]]]].
    + constructor; msimp.
      * exists ow. split; [exact Ho|]. left. lia.
      * lia.
      * lia.
      * intros _. right. unfold off in *; lia.
      * intros Hm p Hp. rewrite HB by lia. destruct (p - m_off m <? m_len m) eqn:E5.
        -- apply Hsame; [exact Hm|lia].
        -- replace (p - m_off m <? l1) with true by lia. f_equal. lia.
      * intros Hm. lia.
      * exact Hh.
    + split; unfold ext; msimp; [lia|].
      intros p Hp. unfold cur. msimp.
      destruct ((m_off m <=? p) && (p <? m_off m + l1)) eqn:E5.
      * rewrite HB by lia. destruct ((m_off m <=? p) && (p <? m_off m + m_len m)) eqn:E6.
        -- replace (p - m_off m <? m_len m) with true by lia. reflexivity.
        -- replace (p - m_off m <? m_len m) with false by lia.
           replace (p - m_off m <? l1) with true by lia. f_equal. lia.
      * replace ((m_off m <=? p) && (p <? m_off m + m_len m)) with false by lia. reflexivity.
    + unfold len, off in *. lia.
  - exists m. split; [reflexivity|]. split; [constructor; auto; eauto|].
    split; [apply pres_refl|]. repeat split; auto. right. lia.
Qed.
