(* Proofs about HioModel: loops and histories. *)
From Verif Require Import Base HioModel HioSpec HioProofs.
Ltac Zify.zify_post_hook ::= idtac.

Ltac isimp := cbn [i_fd i_file i_fsize i_size i_bsize i_ioff i_ilen i_buf i_mod].

Lemma nth_skipn (A : Type) (l : list A) d k n : nth k (skipn n l) d = nth (n + k) l d.
Proof.
  revert l. induction n; intros l; [reflexivity|]. destruct l; [destruct k; reflexivity|].
  cbn [skipn Nat.add nth]. apply IHn.
Qed.

Lemma write_loop_spec s junk sz : SZ s -> (sz | s) -> 0 < sz ->
  forall fuel it off bs, (length bs <= fuel)%nat ->
  StW s it off (Z.of_nat (length bs)) -> 0 <= off -> (s | off) ->
  (sz | Z.of_nat (length bs)) -> (s | Z.of_nat (length bs)) \/ lsize it <= off + Z.of_nat (length bs) ->
  bs <> [] -> off + Z.of_nat (length bs) <= LIM ->
  exists it', write_loop fuel junk it sz off bs = Some it' /\
    (StF s it' \/ StC it') /\ (StF s it -> StF s it') /\
    i_size it' = Z.max (lsize it) (off + Z.of_nat (length bs)) /\
    (forall p, off <= p < off + Z.of_nat (length bs) -> cur it' p = nth (Z.to_nat (p - off)) bs 0) /\
    (forall p, 0 <= p < lsize it -> p < off \/ off + Z.of_nat (length bs) <= p -> cur it' p = cur it p).
Proof.
  intros HS Hd Hd0. induction fuel as [|f IH]; intros it off bs Hf HW H0 Hso Hszl Hsl Hne Hlim.
  { destruct bs; [congruence|cbn [length] in Hf; lia]. }
  destruct (write_iter_spec s junk it sz off bs HS HW H0 Hso Hd Hd0 Hszl Hsl Hne Hlim)
    as [it1 [len [E [Hl [Hs2 [HF [HFF [Hsz [K1 K2]]]]]]]]].
  destruct bs as [|b0 bs0]; [congruence|]. cbn [write_loop].
  set (bs := b0 :: bs0) in *. rewrite E.
  replace (len <=? 0) with false by lia.
  set (n := Z.of_nat (length bs)) in *.
  assert (HLs : Z.of_nat (length (skipn (Z.to_nat len) bs)) = n - len) by (rewrite skipn_length; lia).
  destruct (Z.eq_dec len n) as [En|En].
  - assert (Es : skipn (Z.to_nat len) bs = []).
    { apply length_zero_iff_nil. lia. }
    rewrite Es. exists it1. split; [destruct f; reflexivity|].
    subst len. split; [destruct HF as [|[? _]]; auto|]. split; [assumption|]. split; [assumption|].
    split; assumption.
  - destruct HF as [HF|[_ X]]; [|lia]. destruct Hs2 as [X|Hs2]; [lia|].
    destruct (IH it1 (off + len) (skipn (Z.to_nat len) bs)) as [it2 [E2 [G1 [G2 [G3 [G4 G5]]]]]].
    + cbn [length] in Hf. assert (Z.of_nat (length bs) = Z.of_nat (S (length bs0))) by reflexivity. lia.
    + apply W_file. assumption.
    + lia.
    + apply Z.divide_add_r; assumption.
    + rewrite HLs. apply Z.divide_sub_r; [assumption|]. apply Z.divide_trans with s; assumption.
    + rewrite HLs, (lsize_F s it1 HF). destruct Hsl as [Hsl|Hsl]; [left; apply Z.divide_sub_r; assumption|right; lia].
    + intro X. rewrite X in HLs. cbn [length Z.of_nat] in HLs. lia.
    + lia.
    + rewrite HLs in *. rewrite (lsize_F s it1 HF) in *.
      replace (off + len + (n - len)) with (off + n) in * by lia.
      exists it2. split; [exact E2|]. split; [assumption|]. split; [auto|]. split; [lia|].
      split.
      * intros p Hp. destruct (Z_lt_dec p (off + len)) as [Hlt|Hge].
        -- rewrite G5 by lia. apply K1. lia.
        -- rewrite G4 by lia. rewrite nth_skipn. f_equal. lia.
      * intros p Hp Hq. rewrite G5 by lia. apply K2; lia.
Qed.

(* Relation between an item and the array it represents *)
Definition R (it : item) (A : array) : Prop :=
  i_size it = a_size A /\
  forall p b, a_bytes A p = Some b -> 0 <= p < a_size A /\ cur it p = b.

Definition Inv (s : Z) (plain : bool) (it : item) : Prop :=
  StF s it \/ (plain = false /\ StC it).

Lemma check_buffer_F s junk it next : StF s it -> check_buffer junk it next = it.
Proof. intros HF. unfold check_buffer, BUFSIZE. rewrite (F_bs s it HF). reflexivity. Qed.

Lemma check_buffer_small junk it next : next <= i_bsize it -> check_buffer junk it next = it.
Proof.
  intros. unfold check_buffer. replace (i_bsize it <? next) with false by lia.
  rewrite andb_false_r. reflexivity.
Qed.

Lemma hio_write_spec s plain junk it A sz off bs :
  SZ s -> Inv s plain it -> R it A -> 
  valid_op s plain A (HWrite sz off bs) ->
  exists it', hio_write junk it sz off bs = Some it' /\ Inv s plain it' /\ R it' (spec_put A off bs).
Proof.
  intros HS HI [HR1 HR2] [H0 [Hlim [Hd [Hd0 [Hso [Hszl [Hsl Hst]]]]]]].
  unfold hio_write.
  destruct bs as [|b0 bs0].
  { cbn [length Z.of_nat write_loop spec_put]. rewrite Z.add_0_r.
    exists it. assert (check_buffer junk it off = it).
    { destruct HI as [HF|[_ HC]]; [eapply check_buffer_F; eassumption|].
      apply check_buffer_small. destruct HC. destruct Hst as [?|[X _]]; [lia|congruence]. }
    rewrite H. split; [reflexivity|]. split; [assumption|]. split; assumption. }
  set (bs := b0 :: bs0) in *.
  assert (Hn : 0 < Z.of_nat (length bs)) by (cbn [length bs]; lia).
  assert (HW : exists it1, check_buffer junk it (off + Z.of_nat (length bs)) = it1 /\
             StW s it1 off (Z.of_nat (length bs)) /\ lsize it1 = i_size it /\
             (StF s it -> StF s it1) /\
             forall p, 0 <= p < i_size it -> cur it1 p = cur it p).
  { eexists. split; [reflexivity|].
    destruct HI as [HF|[Hp HC]].
    - rewrite (check_buffer_F s) by assumption.
      split; [apply W_file; assumption|]. split; [apply (lsize_F s); assumption|]. split; auto.
    - pose proof (lsize_C it HC) as HL. pose proof HC as HC0.
      destruct HC as [Cfd Cbs Csize Clen Coff Cd].
      assert (Hst2 : 0 < i_size it \/ off = 0).
      { destruct Hst as [?|[_ [?|[?|?]]]]; [lia|congruence|lia|lia]. }
      set (next := off + Z.of_nat (length bs)) in *.
      destruct (Z_le_dec next (i_bsize it)) as [Hle|Hgt].
      + rewrite check_buffer_small by assumption.
        split; [apply W_cached; assumption|]. split; [assumption|]. split; [auto|auto].
      + unfold check_buffer, hcheckbuf, BUFSIZE, CACHESIZE.
        replace (i_bsize it <? 16384) with true by lia.
        replace (i_bsize it <? next) with true by lia. cbn [andb].
        destruct (next <=? 64) eqn:En; cbn [andb].
        * cbn [i_fd i_bsize]. rewrite Cfd. cbn [negb andb]. change (64 >? 64) with false. cbn iota.
          split.
          { apply W_cached; [|isimp; lia|isimp; assumption].
            constructor; isimp; try assumption; try reflexivity; lia. }
          split; [unfold lsize; isimp; rewrite Clen, Coff; destruct (0 <? i_size it); lia|].
          split; [intros []; congruence|].
          intros p Hq. unfold cur; isimp. rewrite Coff, Clen. rewrite Z.add_0_l, Z.sub_0_r.
          replace (p <? i_size it) with true by lia. replace (0 <=? p) with true by lia. reflexivity.
        * replace (i_bsize it <=? 64) with true by lia.
          replace (next >? 64) with true by (rewrite Z.gtb_ltb; lia). cbn [andb i_fd i_bsize].
          rewrite Cfd. change (16384 >? 64) with true. cbn [negb andb].
          destruct (Z.eq_dec (i_size it) 0) as [Ez|Ez].
          -- split.
             { apply W_file. constructor; isimp; rewrite ?Coff, ?Clen, ?Ez; try reflexivity; try lia.
               all: try (apply Z.divide_0_r); try (unfold LIM; lia); try (left; apply Z.divide_0_r).
               all: intros; congruence || (repeat split; intros; lia). }
             split; [unfold lsize; isimp; rewrite Clen, Coff, Ez; reflexivity|].
             split; [intros []; congruence|]. intros; lia.
          -- split.
             { apply W_trans; [constructor; isimp; try reflexivity; lia|].
               destruct Hst as [?|[_ [?|[?|?]]]]; [lia|congruence|lia|lia]. }
             split; [unfold lsize; isimp; rewrite Clen, Coff; destruct (0 <? i_size it) eqn:E0; lia|].
             split; [intros []; congruence|].
             intros p Hq. unfold cur; isimp. rewrite Coff, Clen. rewrite Z.add_0_l, Z.sub_0_r.
             replace (p <? i_size it) with true by lia. replace (0 <=? p) with true by lia. reflexivity. }
  destruct HW as [it1 [E1 [HW [HL [HFF HK]]]]]. rewrite E1.
  destruct (write_loop_spec s junk sz HS Hd Hd0 (length bs) it1 off bs) as [it2 [E2 [G1 [G2 [G3 [G4 G5]]]]]];
    try assumption; try lia; try discriminate.
  { rewrite HL, HR1. exact Hsl. }
  exists it2. split; [exact E2|]. split.
  - destruct G1 as [?|HC]; [left; assumption|].
    destruct HI as [HF|[Hp _]]; [left; auto|right; auto].
  - unfold spec_put. subst bs. cbn iota. set (bs := b0 :: bs0) in *. split; cbn [a_size a_bytes].
    + rewrite G3, HL, HR1. reflexivity.
    + intros p b. unfold put.
      destruct ((off <=? p) && (p <? off + Z.of_nat (length bs))) eqn:Ep.
      * intro X. injection X as <-. split; [lia|]. apply G4. lia.
      * intro X. destruct (HR2 p b X) as [Y1 Y2]. split; [lia|].
        rewrite G5 by lia. rewrite HK by lia. assumption.
Qed.

(* Reading *)
Lemma read_iter_spec s junk it sz off n :
  SZ s -> (StF s it \/ StC it) -> 0 <= off -> (s | off) -> (sz | s) -> 0 < sz -> (sz | n) -> 0 < n ->
  off + n <= i_size it ->
  exists it' l, read_iter junk it sz off n = Some (it', l) /\
    (StF s it' \/ StC it') /\ (StF s it -> StF s it') /\ i_size it' = i_size it /\
    0 < Z.of_nat (length l) <= n /\ (Z.of_nat (length l) = n \/ (s | Z.of_nat (length l))) /\
    (forall p, 0 <= p < i_size it -> cur it' p = cur it p) /\
    (forall k, 0 <= k < Z.of_nat (length l) -> nth (Z.to_nat k) l 0 = cur it (off + k)).
Proof.
  intros HS HI H0 Hso Hd Hd0 Hsn Hn Hle.
  assert (HP : exists it1,
    (if within false it off then Some it
     else match miss it off with None => None | Some i => refill i end) = Some it1 /\
    (StF s it1 \/ StC it1) /\ (StF s it -> StF s it1) /\ i_size it1 = i_size it /\
    (i_ioff it1 <= off < i_ioff it1 + i_ilen it1) /\
    (Z.min n (i_ilen it1 - (off - i_ioff it1)) = n \/ (s | Z.min n (i_ilen it1 - (off - i_ioff it1)))) /\
    (forall p, 0 <= p < i_size it -> cur it1 p = cur it p)).
  { destruct HI as [HF|HC].
    - destruct (within false it off) eqn:Ew.
      + exists it. split; [reflexivity|]. split; [auto|]. split; [auto|]. split; [reflexivity|].
        unfold within in Ew. split; [lia|]. split; [|auto].
        destruct HF as [Ffd Fbs Foff Fev Fs Flen Ffs Flim Fcl Fdi Fal].
        destruct (Z.min_spec n (i_ilen it - (off - i_ioff it))) as [[_ ->]|[Hc ->]]; [left; reflexivity|].
        destruct Fal as [Fal|Fal].
        * right. apply Z.divide_sub_r; [assumption|]. apply Z.divide_sub_r; assumption.
        * left. lia.
      + destruct (miss_spec s it off HS HF H0 Hso) as [it1 [E [F1 [G1 [G2 [G3 [G4 [G5 G6]]]]]]]].
        rewrite E. destruct F1 as [Ffd Fbs Foff Fev Fs Flen Ffs Flim Fcl Fdi Fal].
        destruct (div2 off) as [r [R1 R2]].
        unfold refill, dread. rewrite Ffd, Fbs, G1, G5.
        set (l := Z.min 16384 (i_size it - i_ioff it1)).
        assert (Hl : 0 < l <= 16384) by lia.
        assert (Hl2 : i_ioff it1 + l <= i_size it) by lia.
        assert (Hl3 : l = 16384 \/ i_ioff it1 + l = i_size it) by lia.
        clearbody l.
        replace (0 <=? i_ioff it1) with true by lia. replace (0 <=? l) with true by lia.
        replace (i_ioff it1 + l <=? i_size it) with true by lia. cbn [andb].
        eexists. split; [reflexivity|].
        match goal with |- (StF s ?x \/ _) /\ _ => assert (HX : StF s x) end.
        { constructor; isimp; try assumption; try reflexivity; try lia.
          - intros _. split; [reflexivity|]. split; [right; lia|].
            intros k Hk. replace ((0 <=? k) && (k <? l)) with true by lia. reflexivity.
          - destruct Hl3 as [->|]; [left; apply div16384; assumption|right; lia]. }
        isimp.
        split; [auto|]. split; [auto|]. split; [reflexivity|].
        assert (r = 0 \/ r = 1) by lia.
        assert (Hin : off < i_ioff it1 + l).
        { destruct Hl3; lia. }
        split; [lia|]. split.
        * destruct (Z.min_spec n (l - (off - i_ioff it1))) as [[_ ->]|[Hc ->]]; [left; reflexivity|].
          destruct Hl3 as [->|Hl3].
          -- right. apply Z.divide_sub_r; [apply div16384; assumption|]. apply Z.divide_sub_r; assumption.
          -- left. lia.
        * intros p Hp. unfold cur at 1; isimp.
          destruct ((i_ioff it1 <=? p) && (p <? i_ioff it1 + l)) eqn:Ep.
          -- replace ((0 <=? p - i_ioff it1) && (p - i_ioff it1 <? l)) with true by lia.
             rewrite <- G6. f_equal. lia.
          -- apply G6.
    - pose proof HC as [Cfd Cbs Csize Clen Coff Cd].
      assert (Ew : within false it off = true).
      { unfold within. rewrite Coff, Clen. lia. }
      rewrite Ew. exists it. split; [reflexivity|]. split; [auto|]. split; [auto|]. split; [reflexivity|].
      split; [lia|]. split; [|auto].
      left. lia. }
  destruct HP as [it1 [E [HI1 [HFF [Hsz [Hin [Hs2 HK]]]]]]].
  unfold read_iter. rewrite E.
  set (o := off - i_ioff it1). set (len := Z.min n (i_ilen it1 - o)) in *.
  assert (Hlen : 0 < len <= n) by lia.
  assert (Hol : o + len <= i_ilen it1) by lia.
  fold o in Hs2. fold len in Hs2.
  assert (Hfl : len / sz * sz = len).
  { destruct Hs2 as [->|Hs2]; [|apply (full_eq s); assumption].
    destruct Hsn as [k Hk]. rewrite Hk, Z.div_mul by lia. reflexivity. }
  rewrite Hfl. clear Hfl.
  eexists. eexists. split; [reflexivity|].
  split; [assumption|]. split; [assumption|]. split; [assumption|].
  rewrite map_length, seq_length. rewrite Z2Nat.id by lia.
  split; [assumption|]. split; [assumption|]. split; [assumption|].
  clearbody len.
  intros k Hk.
  rewrite (nth_indep _ 0 ((fun k0 : nat => if Z.of_nat k0 <? len then i_buf it1 (o + Z.of_nat k0) else junk (Z.of_nat k0)) 0%nat))
    by (rewrite map_length, seq_length; lia).
  rewrite (map_nth (fun k0 : nat => if Z.of_nat k0 <? len then i_buf it1 (o + Z.of_nat k0) else junk (Z.of_nat k0))).
  rewrite seq_nth by lia. replace (Z.of_nat (0 + Z.to_nat k)) with k by lia.
  replace (k <? len) with true by lia.
  rewrite <- HK.
  - unfold cur. replace ((i_ioff it1 <=? off + k) && (off + k <? i_ioff it1 + i_ilen it1)) with true by lia.
    f_equal. lia.
  - destruct HI1 as [X|X]; destruct X; try lia.
Qed.

Lemma read_loop_spec s junk sz : SZ s -> (sz | s) -> 0 < sz ->
  forall fuel it off n, n <= Z.of_nat fuel ->
  (StF s it \/ StC it) -> 0 <= off -> (s | off) -> (sz | n) -> 0 <= n -> off + n <= i_size it ->
  exists it' l, read_loop fuel junk it sz off n = Some (it', l) /\
    (StF s it' \/ StC it') /\ (StF s it -> StF s it') /\ i_size it' = i_size it /\
    Z.of_nat (length l) = n /\
    (forall p, 0 <= p < i_size it -> cur it' p = cur it p) /\
    (forall k, 0 <= k < n -> nth (Z.to_nat k) l 0 = cur it (off + k)).
Proof.
  intros HS Hd Hd0. induction fuel as [|f IH]; intros it off n Hf HI H0 Hso Hsn Hn Hle.
  - cbn [read_loop]. replace (n <=? 0) with true by lia.
    exists it, []. cbn [length Z.of_nat]. split; [reflexivity|]. split; [assumption|].
      split; [auto|]. split; [reflexivity|]. split; [lia|]. split; [auto|intros; lia].
  - cbn [read_loop]. destruct (n <=? 0) eqn:En.
    + exists it, []. cbn [length Z.of_nat]. split; [reflexivity|]. split; [assumption|].
      split; [auto|]. split; [reflexivity|]. split; [lia|]. split; [auto|intros; lia].
    + destruct (read_iter_spec s junk it sz off n) as [it1 [l [E [G1 [G2 [G3 [G4 [G5 [G6 G7]]]]]]]]];
        try assumption; try lia.
      rewrite E. replace (Z.of_nat (length l) <=? 0) with false by lia.
      assert (X2 : exists it2 l2, read_loop f junk it1 sz (off + Z.of_nat (length l)) (n - Z.of_nat (length l)) = Some (it2, l2) /\
        (StF s it2 \/ StC it2) /\ (StF s it1 -> StF s it2) /\ i_size it2 = i_size it1 /\ Z.of_nat (length l2) = n - Z.of_nat (length l) /\
        (forall p, 0 <= p < i_size it1 -> cur it2 p = cur it1 p) /\
        (forall k, 0 <= k < n - Z.of_nat (length l) -> nth (Z.to_nat k) l2 0 = cur it1 (off + Z.of_nat (length l) + k))).
      { destruct G5 as [G5|G5].
        - exists it1, []. rewrite G5, Z.sub_diag. split; [destruct f; reflexivity|]. cbn [length Z.of_nat].
          split; [assumption|]. split; [auto|]. split; [reflexivity|]. split; [reflexivity|]. split; [auto|intros; lia].
        - apply IH; try assumption; try lia.
          + apply Z.divide_add_r; assumption.
          + apply Z.divide_sub_r; [assumption|]. apply Z.divide_trans with s; assumption. }
      destruct X2 as [it2 [l2 [E2 [J1 [J2 [J3 [J4 [J5 J6]]]]]]]].
      rewrite E2. exists it2, (l ++ l2). split; [reflexivity|].
      split; [assumption|]. split; [auto|]. split; [lia|].
      split; [rewrite app_length; lia|]. split.
      * intros p Hp. rewrite J5 by lia. apply G6. assumption.
      * intros k Hk. destruct (Z_lt_dec k (Z.of_nat (length l))).
        -- rewrite app_nth1 by lia. apply G7. lia.
        -- rewrite app_nth2 by lia. replace (Z.to_nat k - length l)%nat with (Z.to_nat (k - Z.of_nat (length l))) by lia.
           rewrite J6 by lia. rewrite G6 by lia. f_equal. lia.
Qed.

Lemma hio_read_spec s plain junk it A sz off n :
  SZ s -> Inv s plain it -> R it A -> valid_op s plain A (HRead sz off n) ->
  exists it' x, hio_read junk it sz off n = (it', x) /\ Inv s plain it' /\ R it' A /\
    expected A (HRead sz off n) x.
Proof.
  intros HS HI [HR1 HR2] [H0 [Hn [Hd [Hd0 [Hso Hsn]]]]].
  unfold hio_read. cbn [expected]. rewrite HR1.
  destruct (off + n >? a_size A) eqn:En.
  - eexists. eexists. split; [reflexivity|]. split; [assumption|]. split; [split; assumption|reflexivity].
  - assert (Hle : off + n <= i_size it).
    { rewrite Z.gtb_ltb in En. lia. }
    assert (check_buffer junk it (off + n) = it).
    { destruct HI as [HF|[_ HC]]; [eapply check_buffer_F; eassumption|].
      apply check_buffer_small. destruct HC. lia. }
    rewrite H.
    destruct (read_loop_spec s junk sz HS Hd Hd0 (Z.to_nat n) it off n) as [it2 [l2 [E2 [J1 [J2 [J3 [J4 [J5 J6]]]]]]]];
        try assumption; try lia.
    { destruct HI as [?|[_ ?]]; auto. }
    rewrite E2. eexists. eexists. split; [reflexivity|]. split.
    + destruct HI as [HF|[Hp HC]]; [left; auto|]. destruct J1; [left; assumption|right; auto].
    + split; [split; [lia|]|].
      * intros p b X. destruct (HR2 p b X) as [Y1 Y2]. split; [assumption|]. rewrite J5 by lia. assumption.
      * exists l2. split; [reflexivity|]. split; [assumption|].
        intros k b Hk X. rewrite J6 by lia. apply (HR2 _ b X).
Qed.

Lemma hreopen_spec s plain junk it A : SZ s ->
  Inv s plain it -> R it A -> exists it', hreopen junk it = Some it' /\ Inv s plain it' /\ R it' A.
Proof.
  intros HS HI [HR1 HR2]. unfold hreopen.
  destruct HI as [HF|[Hp HC]].
  - destruct HF as [Ffd Fbs Foff Fev Fs Flen Ffs Flim Fcl Fdi Fal]. rewrite Ffd.
    assert (HX : exists i, (if i_mod it then dwrite it else Some it) = Some i /\
        i_fsize i = i_size it /\ forall p, i_file i p = cur it p).
    { destruct (i_mod it) eqn:Em.
      - destruct (Fdi eq_refl) as [Hpos Hsz].
        destruct (dwrite_spec it Ffd Foff Hpos) as [it1 [E1 [D1 [D2 [D3 [D4 [D5 [D6 D7]]]]]]]].
        exists it1. split; [exact E1|]. split; [lia|assumption].
      - destruct (Fcl eq_refl) as [Hsz [Hw Hb]]. exists it. split; [reflexivity|]. split; [lia|].
        intro p. unfold cur.
        destruct ((i_ioff it <=? p) && (p <? i_ioff it + i_ilen it)) eqn:P; [|reflexivity].
        rewrite Hb by lia. f_equal. lia. }
    destruct HX as [i [E [X1 X2]]]. rewrite E.
    assert (0 <= i_size it).
    { destruct (i_mod it); [destruct (Fdi eq_refl)|destruct (Fcl eq_refl) as [? [? _]]]; lia. }
    eexists. split; [reflexivity|]. split.
    + left. unfold file_item, BUFSIZE. rewrite X1. constructor; isimp; try reflexivity; try assumption; try lia.
      * apply Z.divide_0_r.
      * intros _. split; [reflexivity|]. split; [auto|]. intros; lia.
      * left. apply Z.divide_0_r.
    + unfold file_item. split; isimp; [lia|].
      intros p b X. destruct (HR2 p b X) as [Y1 Y2]. split; [assumption|].
      rewrite cur_empty by reflexivity. isimp. rewrite X2. assumption.
  - pose proof HC as [Cfd Cbs Csize Clen Coff Cd]. rewrite Cfd. eexists. split; [reflexivity|]. split.
    + right. split; [assumption|]. constructor; isimp; try assumption; congruence.
    + split; isimp; [lia|]. intros p b X. destruct (HR2 p b X) as [Y1 Y2]. split; [assumption|].
      unfold cur in *; isimp. assumption.
Qed.

Theorem history s plain junk : SZ s -> forall ops it A,
  Inv s plain it -> R it A -> valid_all s plain A ops -> expected_all A ops (hrun junk it ops).
Proof.
  intros HS. induction ops as [|o ops IH]; intros it A HI HR HV; [exact I|].
  destruct HV as [HV1 HV2]. cbn [hrun].
  assert (HX : exists it' x, hstep junk it o = (it', x) /\ Inv s plain it' /\ R it' (spec_step A o) /\ expected A o x).
  { destruct o as [sz a bs|sz a n| |j]; cbn [hstep spec_step].
    - destruct (hio_write_spec s plain junk it A sz a bs HS HI HR HV1) as [it' [E [I' R']]].
      rewrite E. eexists. eexists. split; [reflexivity|]. split; [assumption|]. split; [assumption|reflexivity].
    - destruct (hio_read_spec s plain junk it A sz a n HS HI HR HV1) as [it' [x [E [I' [R' Ex]]]]].
      exists it', x. auto.
    - eexists. eexists. split; [reflexivity|]. split; [assumption|]. split; [assumption|].
      cbn [expected]. destruct HR as [-> _]. reflexivity.
    - destruct (hreopen_spec s plain j it A HS HI HR) as [it' [E [I' R']]]. rewrite E.
      eexists. eexists. split; [reflexivity|]. split; [assumption|]. split; [assumption|reflexivity]. }
  destruct HX as [it' [x [E [I' [R' Ex]]]]]. rewrite E. cbn [expected_all].
  split; [assumption|]. apply IH; assumption.
Qed.
