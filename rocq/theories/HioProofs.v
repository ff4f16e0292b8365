(* Proofs about HioModel. *)
From Verif Require Import Base HioModel HioSpec.
Ltac Zify.zify_post_hook ::= idtac.

Lemma wrap32_id z : -2147483648 <= z < 2147483648 -> wrap32 z = z.
Proof. intros. unfold wrap32. rewrite Z.mod_small by lia. lia. Qed.

Lemma div2 z : exists r, z = 2 * (z / 2) + r /\ 0 <= r < 2.
Proof. exists (z mod 2). split. apply Z.div_mod; lia. apply Z.mod_pos_bound; lia. Qed.

Definition cur (it : item) (p : Z) : Z :=
  if (i_ioff it <=? p) && (p <? i_ioff it + i_ilen it) then i_buf it (p - i_ioff it) else i_file it p.

Definition LIM : Z := 2147483632.

Record StF (s : Z) (it : item) : Prop := {
  F_fd : i_fd it = true;
  F_bs : i_bsize it = 16384;
  F_off : 0 <= i_ioff it;
  F_even : i_ioff it mod 2 = 0;
  F_s : (s | i_ioff it);
  F_len : 0 <= i_ilen it <= 16384;
  F_fs : 0 <= i_fsize it;
  F_lim : i_size it <= LIM;
  F_clean : i_mod it = false ->
            i_size it = i_fsize it /\ (i_ilen it = 0 \/ i_ioff it + i_ilen it <= i_size it) /\
            forall k, 0 <= k < i_ilen it -> i_buf it k = i_file it (i_ioff it + k);
  F_dirty : i_mod it = true -> 0 < i_ilen it /\ i_size it = Z.max (i_fsize it) (i_ioff it + i_ilen it);
  F_al : (s | i_ilen it) \/ i_ioff it + i_ilen it = i_size it }.

Record StC (it : item) : Prop := {
  C_fd : i_fd it = false;
  C_bs : 0 <= i_bsize it <= 64;
  C_size : 0 <= i_size it <= i_bsize it;
  C_len : i_ilen it = i_size it;
  C_off : i_ioff it = 0;
  C_dirty : i_mod it = true -> 0 < i_size it }.

Record StT (it : item) : Prop := {
  T_fd : i_fd it = true;
  T_bs : i_bsize it = 16384;
  T_size : i_size it = 0;
  T_fs : i_fsize it = 0;
  T_off : i_ioff it = 0;
  T_len : 0 < i_ilen it <= 64 }.

(* hwrite_fill when everything missing is in the file *)
Lemma fill_spec it next :
  i_fd it = true -> 0 <= i_ioff it -> 0 <= i_ilen it ->
  i_ioff it mod 2 = 0 ->
  0 < next <= LIM -> i_ioff it + i_ilen it <= next -> next <= i_ioff it + 16384 ->
  i_ioff it + i_ilen it < i_size it -> i_size it <= i_fsize it -> i_size it <= LIM ->
  exists it' len, hwrite_fill it next = Some it' /\ 0 <= len /\
    i_ilen it' = i_ilen it + len /\
    i_ioff it + i_ilen it + len = Z.min (2 * ((next - 1) / 2 + 1)) (i_size it) /\
    i_fd it' = i_fd it /\ i_file it' = i_file it /\ i_fsize it' = i_fsize it /\ i_size it' = i_size it /\
    i_bsize it' = i_bsize it /\ i_ioff it' = i_ioff it /\ i_mod it' = i_mod it /\
    (forall k, k < i_ilen it -> i_buf it' k = i_buf it k) /\
    (forall k, i_ilen it <= k < i_ilen it + len -> i_buf it' k = i_file it (i_ioff it + k)).
Proof.
  intros Hfd Ho Hl Hev Hn Hle Hub Hlt Hfs Hlim. unfold LIM in *.
  destruct it as [fd file fsize size bsize ioff ilen buf md]. cbn [i_fd i_file i_fsize i_size i_bsize i_ioff i_ilen i_buf i_mod] in *.
  subst fd.
  unfold hwrite_fill. cbn [i_fd i_file i_fsize i_size i_bsize i_ioff i_ilen i_buf i_mod].
  unfold BUFALIGN, BUFSIZE, dread.
  cbn [i_fd i_file i_fsize i_size i_bsize i_ioff i_ilen i_buf i_mod].
  set (E := ioff + ilen) in *.
  destruct (div2 E) as [r [HE Hr]]. destruct (div2 (next - 1)) as [r' [HN Hr']].
  destruct (div2 ioff) as [r2 [HO Hr2]].
  assert (r2 = 0). { pose proof (Z.div_mod ioff 2). lia. } subst r2.
  set (e := E / 2) in *. set (m := (next - 1) / 2) in *. set (q := ioff / 2) in *.
  rewrite (wrap32_id next) by lia.
  rewrite Z.quot_div_nonneg by lia. fold m.
  rewrite (wrap32_id (2 * e)) by lia.
  rewrite (wrap32_id (2 * (m + 1) - 2 * e)) by lia.
  rewrite (wrap32_id (Z.min (2 * (m + 1) - 2 * e) (size - 2 * e))) by lia.
  rewrite (wrap32_id (E - 2 * e)) by lia.
  set (L := Z.min (2 * (m + 1) - 2 * e) (size - 2 * e)).
  assert (HL : L = 2 * (m + 1) - 2 * e \/ L = size - 2 * e) by lia.
  assert (HL1 : L <= 2 * (m + 1) - 2 * e) by lia.
  assert (HL2 : L <= size - 2 * e) by lia.
  assert (HL3 : 2 * e + L = Z.min (2 * (m + 1)) size) by lia.
  assert (HL4 : E <= 2 * e + L) by lia.
  assert (HL5 : E = ioff + ilen) by reflexivity.
  clearbody L E e m q.
  replace (L >? 16384) with false by (rewrite Z.gtb_ltb; lia).
  replace (0 <=? 2 * e) with true by lia. replace (0 <=? L) with true by lia.
  replace (2 * e + L <=? fsize) with true by lia.
  cbn [andb negb orb].
  replace (L - (E - 2 * e) <? 0) with false by lia.
  eexists. exists (L - (E - 2 * e)). split; [reflexivity|].
  cbn [i_fd i_file i_fsize i_size i_bsize i_ioff i_ilen i_buf i_mod].
  split; [lia|]. split; [lia|]. split; [lia|].
  repeat (split; [reflexivity|]). split.
  - intros k Hk. replace (ilen <=? k) with false by lia. reflexivity.
  - intros k Hk. replace (ilen <=? k) with true by lia.
    replace (k <? ilen + (L - (E - 2 * e))) with true by lia. cbn [andb].
    f_equal. lia.
Qed.

Lemma dwrite_spec it : i_fd it = true -> 0 <= i_ioff it -> 0 < i_ilen it ->
  exists it', dwrite it = Some it' /\ i_fd it' = true /\
    i_fsize it' = Z.max (i_fsize it) (i_ioff it + i_ilen it) /\
    i_size it' = i_size it /\ i_bsize it' = i_bsize it /\ i_ioff it' = i_ioff it /\ i_ilen it' = i_ilen it /\
    (forall p, i_file it' p = cur it p).
Proof.
  intros Hf Ho Hl. unfold dwrite. rewrite Hf. replace (0 <=? i_ioff it) with true by lia.
  cbn [andb]. eexists. split; [reflexivity|]. cbn [i_fd i_file i_fsize i_size i_bsize i_ioff i_ilen i_buf i_mod].
  replace (0 <? i_ilen it) with true by lia.
  repeat (split; [reflexivity|]). reflexivity.
Qed.

Definition SZ (s : Z) : Prop := s = 1 \/ s = 2 \/ s = 4 \/ s = 8.

Lemma align_off s off : SZ s -> (s | off) -> 0 <= off -> (s | off / 2 * 2).
Proof.
  intros Hs Hd H0. destruct (div2 off) as [r [H1 H2]].
  destruct Hs as [->|Hs]; [apply Z.divide_1_l|].
  destruct Hd as [k Hk].
  assert (r = 0).
  { destruct Hs as [-> | [-> | ->]]; lia. }
  exists k. lia.
Qed.

(* flush and move *)
Lemma miss_spec s it off : SZ s -> StF s it -> 0 <= off -> (s | off) ->
  exists it', miss it off = Some it' /\ StF s it' /\ i_size it' = i_size it /\ i_ilen it' = 0 /\
    i_ioff it' = off / 2 * 2 /\ i_mod it' = false /\ i_fsize it' = i_size it /\
    forall p, i_file it' p = cur it p.
Proof.
  intros HS [Ffd Fbs Foff Fev Fs Flen Ffs Flim Fcl Fdi Fal] H0 Hd.
  assert (Hal := align_off s off HS Hd H0).
  assert (Hev : (off / 2 * 2) mod 2 = 0) by (apply Z.mod_mul; lia).
  assert (Hof : 0 <= off / 2 * 2) by (assert (0 <= off / 2) by (apply Z.div_pos; lia); lia).
  unfold miss.
  destruct (i_mod it) eqn:Em.
  - destruct (Fdi eq_refl) as [Hpos Hsz]. clear Fcl Fdi.
    assert (HX : exists it0,
      (if negb (i_ilen it mod BUFALIGN =? 0) && (i_ioff it + i_ilen it <? i_size it)
       then hwrite_fill it (i_ioff it + i_ilen it) else Some it) = Some it0 /\
      i_fd it0 = true /\ i_bsize it0 = 16384 /\ i_ioff it0 = i_ioff it /\ 0 < i_ilen it0 /\
      i_fsize it0 = i_fsize it /\ i_size it0 = i_size it /\
      i_size it = Z.max (i_fsize it) (i_ioff it0 + i_ilen it0) /\
      forall p, cur it0 p = cur it p).
    { destruct (negb (i_ilen it mod BUFALIGN =? 0) && (i_ioff it + i_ilen it <? i_size it)) eqn:Eb.
      - apply andb_prop in Eb. destruct Eb as [Eb1 Eb2]. unfold BUFALIGN in Eb1.
        assert (Hl : i_ilen it < 16384).
        { destruct (Z.eq_dec (i_ilen it) 16384) as [e|]; [|lia]. rewrite e in Eb1. discriminate. }
        destruct (fill_spec it (i_ioff it + i_ilen it)) as [it' [len [E [L1 [L2 [L3 [A1 [A2 [A3 [A4 [A5 [A6 [A7 [B1 B2]]]]]]]]]]]]]];
          try assumption; try (unfold LIM in *; lia).
        exists it'. split; [exact E|]. rewrite A1, A5, A6, A3, A4, L2.
        repeat split; try assumption; try lia.
        intros p. unfold cur. rewrite A6, L2, A2.
        destruct (i_ioff it <=? p) eqn:P1; [|reflexivity]. cbn [andb].
        destruct (p <? i_ioff it + (i_ilen it + len)) eqn:P2; cbn [andb].
        + destruct (p <? i_ioff it + i_ilen it) eqn:P3.
          * apply B1. lia.
          * rewrite B2 by lia. f_equal. lia.
        + replace (p <? i_ioff it + i_ilen it) with false by lia. reflexivity.
      - exists it. split; [reflexivity|]. repeat split; try assumption; try reflexivity. }
    destruct HX as [it0 [E0 [X1 [X2 [X3 [X4 [X5 [X6 [X7 X8]]]]]]]]].
    rewrite E0.
    destruct (dwrite_spec it0 X1 ltac:(lia) X4) as [it1 [E1 [D1 [D2 [D3 [D4 [D5 [D6 D7]]]]]]]].
    rewrite E1. eexists. split; [reflexivity|].
    cbn [i_fd i_file i_fsize i_size i_bsize i_ioff i_ilen i_buf i_mod].
    split; [|split; [lia|split; [reflexivity|split; [reflexivity|split; [reflexivity|split; [lia|]]]]]].
    2:{ intro p. rewrite D7. apply X8. }
    unfold BUFALIGN.
    constructor; cbn [i_fd i_file i_fsize i_size i_bsize i_ioff i_ilen i_buf i_mod];
      try assumption; try congruence; try lia.
    + intros _. split; [lia|]. split; [left; reflexivity|]. intros; lia.
    + left. apply Z.divide_0_r.
  - destruct (Fcl eq_refl) as [Hsz [Hw Hb]].
    eexists. split; [reflexivity|].
    cbn [i_fd i_file i_fsize i_size i_bsize i_ioff i_ilen i_buf i_mod].
    split; [|split; [lia|split; [reflexivity|split; [reflexivity|split; [reflexivity|split; [lia|]]]]]].
    2:{ intro p. unfold cur.
        destruct ((i_ioff it <=? p) && (p <? i_ioff it + i_ilen it)) eqn:P; [|reflexivity].
        rewrite Hb by lia. f_equal. lia. }
    unfold BUFALIGN.
    constructor; cbn [i_fd i_file i_fsize i_size i_bsize i_ioff i_ilen i_buf i_mod];
      try assumption; try congruence; try lia.
    + intros _. split; [lia|]. split; [left; reflexivity|]. intros; lia.
    + left. apply Z.divide_0_r.
Qed.

Lemma cur_empty it p : i_ilen it = 0 -> cur it p = i_file it p.
Proof.
  intros. unfold cur. rewrite H.
  destruct ((i_ioff it <=? p) && (p <? i_ioff it + 0)) eqn:E; [lia|reflexivity].
Qed.


(* logical size: the same as i_size except between hcheckbuf opening a file and
   the first copy *)
Definition lsize (it : item) : Z :=
  if 0 <? i_ilen it then Z.max (i_size it) (i_ioff it + i_ilen it) else i_size it.

Lemma lsize_F s it : StF s it -> lsize it = i_size it.
Proof.
  intros [Ffd Fbs Foff Fev Fs Flen Ffs Flim Fcl Fdi Fal]. unfold lsize.
  destruct (0 <? i_ilen it) eqn:E; [|reflexivity].
  destruct (i_mod it); [destruct (Fdi eq_refl)|destruct (Fcl eq_refl) as [? [? _]]]; lia.
Qed.

Lemma lsize_C it : StC it -> lsize it = i_size it.
Proof. intros []. unfold lsize. rewrite C_len0, C_off0. destruct (0 <? i_size it); lia. Qed.

Lemma lsize_T it : StT it -> lsize it = i_ilen it.
Proof. intros []. unfold lsize. replace (0 <? i_ilen it) with true by lia. lia. Qed.

(* the state at the start of a write iteration *)
Inductive StW (s : Z) (it : item) (off len : Z) : Prop :=
| W_file : StF s it -> StW s it off len
| W_cached : StC it -> off + len <= i_bsize it -> (0 < i_size it \/ off = 0) -> StW s it off len
| W_trans : StT it -> off < 16384 -> StW s it off len.

Definition prep (it : item) (offset : Z) : option item :=
  match (if within true it offset then Some it else miss it offset) with
  | None => None
  | Some it1 => if (i_ioff it1 + i_ilen it1 <? offset) && (i_ioff it1 + i_ilen it1 <? i_size it1)
                then hwrite_fill it1 offset else Some it1
  end.

Record PreF (s : Z) (it : item) (off : Z) : Prop := {
  P_fd : i_fd it = true;
  P_bs : i_bsize it = 16384;
  P_off : 0 <= i_ioff it;
  P_even : i_ioff it mod 2 = 0;
  P_s : (s | i_ioff it);
  P_len : 0 <= i_ilen it <= 16384;
  P_fs : 0 <= i_fsize it;
  P_lim : i_size it <= LIM;
  P_lim2 : i_ilen it = 0 \/ i_ioff it + i_ilen it <= LIM;
  P_in : i_ioff it <= off < i_ioff it + 16384;
  P_sz : i_fsize it <= i_size it <= Z.max (i_fsize it) (i_ioff it + i_ilen it);
  P_gap : off <= i_ioff it + i_ilen it \/ i_size it <= i_ioff it + i_ilen it;
  P_al : (s | i_ilen it) \/ i_size it <= i_ioff it + i_ilen it }.

Record PreC (it : item) (off len : Z) : Prop := {
  Q_fd : i_fd it = false;
  Q_bs : 0 <= i_bsize it <= 64;
  Q_size : 0 <= i_size it <= i_bsize it;
  Q_len : i_ilen it = i_size it;
  Q_off : i_ioff it = 0;
  Q_in : off + len <= i_bsize it }.

(* the fill step *)
Lemma fill_step s it off : SZ s ->
  i_fd it = true -> i_bsize it = 16384 -> 0 <= i_ioff it -> i_ioff it mod 2 = 0 -> (s | i_ioff it) ->
  0 <= i_ilen it <= 16384 -> 0 <= i_fsize it -> i_size it <= LIM ->
  i_ilen it = 0 \/ i_ioff it + i_ilen it <= LIM -> off < LIM -> (s | off) ->
  i_ioff it <= off < i_ioff it + 16384 ->
  i_fsize it <= i_size it <= Z.max (i_fsize it) (i_ioff it + i_ilen it) ->
  (s | i_ilen it) \/ i_size it <= i_ioff it + i_ilen it ->
  exists it2,
    (if (i_ioff it + i_ilen it <? off) && (i_ioff it + i_ilen it <? i_size it)
     then hwrite_fill it off else Some it) = Some it2 /\
    PreF s it2 off /\ i_size it2 = i_size it /\ i_ioff it2 = i_ioff it /\
    i_ilen it <= i_ilen it2 /\
    (i_ioff it + i_ilen it < i_size it -> i_ioff it + i_ilen it2 <= i_size it) /\
    (i_size it <= i_ioff it + i_ilen it -> i_ilen it2 = i_ilen it) /\
    (forall p, cur it2 p = cur it p).
Proof.
  intros HS Ffd Fbs Foff Fev Fs Flen Ffs Flim Flim2 Hlim Hso Hin Hsz Hal.
  destruct ((i_ioff it + i_ilen it <? off) && (i_ioff it + i_ilen it <? i_size it)) eqn:Eb.
  - destruct (fill_spec it off) as [it' [len [E [L1 [L2 [L3 [A1 [A2 [A3 [A4 [A5 [A6 [A7 [B1 B2]]]]]]]]]]]]]];
      try assumption; try (unfold LIM in *; lia).
    exists it'. split; [exact E|]. clear E.
    destruct (div2 (off - 1)) as [r [R1 R2]]. destruct (div2 (i_ioff it)) as [r2 [R3 R4]].
    assert (r2 = 0). { pose proof (Z.div_mod (i_ioff it) 2). lia. } subst r2.
    set (m := (off - 1) / 2) in *. set (q := i_ioff it / 2) in *.
    split; [|rewrite A4, A6, L2; repeat split; try lia].
    + constructor; rewrite ?A1, ?A5, ?A6, ?A3, ?A4, ?L2; try assumption; try lia.
      assert (Hc : i_ioff it + (i_ilen it + len) = i_size it \/ i_ioff it + (i_ilen it + len) = 2 * (m + 1)) by lia.
      destruct Hc as [Hc|Hc]; [right; lia|].
      destruct HS as [->|HS]; [left; apply Z.divide_1_l|left].
      assert (2 * (m + 1) = off).
      { destruct Hso as [k Hk]. destruct HS as [-> | [-> | ->]]; lia. }
      replace (i_ilen it + len) with (off - i_ioff it) by lia.
      apply Z.divide_sub_r; assumption.
    + intros p. unfold cur. rewrite A6, L2, A2.
      destruct (i_ioff it <=? p) eqn:P1; [|reflexivity]. cbn [andb].
      destruct (p <? i_ioff it + (i_ilen it + len)) eqn:P2; cbn [andb].
      * destruct (p <? i_ioff it + i_ilen it) eqn:P3.
        -- apply B1. lia.
        -- rewrite B2 by lia. f_equal. lia.
      * replace (p <? i_ioff it + i_ilen it) with false by lia. reflexivity.
  - exists it. split; [reflexivity|]. split; [constructor; try assumption; lia|].
    repeat split; lia.
Qed.

Lemma prep_spec s it off len :
  SZ s -> StW s it off len -> 0 <= off -> 0 < len -> off + len <= LIM -> (s | off) ->
  exists it2, prep it off = Some it2 /\
    (PreF s it2 off \/ PreC it2 off len) /\ (StF s it -> PreF s it2 off) /\ lsize it2 = lsize it /\
    (forall p, 0 <= p < lsize it -> cur it2 p = cur it p).
Proof.
  intros HS HW H0 Hlen Hlim Hso. unfold prep.
  destruct HW as [HF|HC Hin Hsz|HT Hin].
  - destruct (within true it off) eqn:Ew.
    + pose proof (lsize_F s it HF) as HL.
      destruct HF as [Ffd Fbs Foff Fev Fs Flen Ffs Flim Fcl Fdi Fal].
      unfold within in Ew. rewrite Fbs in Ew.
      destruct (fill_step s it off) as [it2 [E [P [S1 [S2 [S3 [S4 [S5 S6]]]]]]]]; try assumption; try lia.
      { destruct (i_mod it); [destruct (Fdi eq_refl)|destruct (Fcl eq_refl) as [? [? _]]]; lia. }
      { destruct (i_mod it); [destruct (Fdi eq_refl)|destruct (Fcl eq_refl) as [? [? _]]]; lia. }
      { destruct Fal; [left; assumption|right; lia]. }
      exists it2. split; [exact E|]. split; [left; assumption|]. split; [intros; assumption|].
      split; [|intros; apply S6].
      rewrite HL. unfold lsize. rewrite S1, S2.
      replace (0 <? i_ilen it2) with true by lia.
      assert (i_ioff it + i_ilen it <= i_size it).
      { destruct (i_mod it); [destruct (Fdi eq_refl)|destruct (Fcl eq_refl) as [? [? _]]]; lia. }
      lia.
    + destruct (miss_spec s it off HS HF H0 Hso) as [it1 [E [F1 [G1 [G2 [G3 [G4 [G5 G6]]]]]]]].
      rewrite E. pose proof (lsize_F s it HF) as HL. clear HF.
      pose proof (lsize_F s it1 F1) as HL1.
      destruct F1 as [Ffd Fbs Foff Fev Fs Flen Ffs Flim Fcl Fdi Fal].
      destruct (Fcl G4) as [Hsz [Hw Hb]].
      destruct (div2 off) as [r [R1 R2]].
      destruct (fill_step s it1 off) as [it2 [E2 [P [S1 [S2 [S3 [S4 [S5 S6]]]]]]]]; try assumption; try lia.
      { left. rewrite G2. apply Z.divide_0_r. }
      exists it2. split; [exact E2|]. split; [left; assumption|]. split; [intros; assumption|].
      split.
      * rewrite HL. unfold lsize. rewrite S1, S2, G1. destruct (0 <? i_ilen it2) eqn:El; [|reflexivity].
        assert (i_ioff it1 + i_ilen it1 < i_size it1) by lia. lia.
      * intros p Hp. rewrite S6. rewrite cur_empty by assumption. apply G6.
  - pose proof (lsize_C it HC) as HL. destruct HC as [Cfd Cbs Csize Clen Coff Cd].
    assert (Hw : (if within true it off then Some it else miss it off) =
                 if 0 <? i_size it then Some it else miss it off).
    { unfold within. rewrite Coff, Clen. cbn [Z.add].
      replace (0 <=? off) with true by lia. replace (off <? i_bsize it) with true by lia.
      rewrite !andb_true_r. reflexivity. }
    rewrite Hw. clear Hw. destruct (0 <? i_size it) eqn:Ep.
    + replace (i_ioff it + i_ilen it <? i_size it) with false by lia. rewrite andb_false_r.
      exists it. split; [reflexivity|]. split; [right; constructor; try assumption|].
      split; [intro HF; destruct HF; congruence|].
      split; [reflexivity|reflexivity].
    + assert (off = 0) by lia. subst off.
      unfold miss. destruct (i_mod it) eqn:Em; [specialize (Cd eq_refl); lia|].
      cbn [i_ioff i_ilen i_size]. change (0 / BUFALIGN * BUFALIGN) with 0. change (0 + 0) with 0.
      cbn [Z.ltb andb Z.compare].
      eexists. split; [reflexivity|].
      split; [right; constructor; cbn [i_fd i_file i_fsize i_size i_bsize i_ioff i_ilen i_buf i_mod]; try assumption; try lia|].
      split; [intro HF; destruct HF; congruence|].
      split; [unfold lsize; cbn [i_fd i_file i_fsize i_size i_bsize i_ioff i_ilen i_buf i_mod]; rewrite Clen, Ep; reflexivity|].
      intros p Hp. lia.
  - pose proof (lsize_T it HT) as HL. destruct HT as [Tfd Tbs Tsize Tfs Toff Tlen].
    assert (Hw : within true it off = true).
    { unfold within. rewrite Toff, Tbs. lia. }
    rewrite Hw. replace (i_ioff it + i_ilen it <? i_size it) with false by lia. rewrite andb_false_r.
    exists it. split; [reflexivity|].
    assert (PreF s it off).
    { constructor; try assumption; try lia.
      - rewrite Toff. apply Z.divide_0_r.
      - unfold LIM. lia. }
    split; [left; assumption|]. split; [intros; assumption|]. split; reflexivity.
Qed.

Lemma full_eq s sz len : (sz | s) -> (s | len) -> 0 < sz -> len / sz * sz = len.
Proof.
  intros H1 H2 H3. destruct (Z.divide_trans _ _ _ H1 H2) as [k Hk]. subst len.
  rewrite Z.div_mul by lia. reflexivity.
Qed.

Lemma div16384 s : SZ s -> (s | 16384).
Proof.
  intros [-> | [-> | [-> | ->]]]; [exists 16384|exists 8192|exists 4096|exists 2048]; reflexivity.
Qed.

Lemma write_iter_spec s junk it sz off bs :
  SZ s -> StW s it off (Z.of_nat (length bs)) -> 0 <= off -> (s | off) -> (sz | s) -> 0 < sz ->
  (sz | Z.of_nat (length bs)) -> (s | Z.of_nat (length bs)) \/ lsize it <= off + Z.of_nat (length bs) ->
  bs <> [] -> off + Z.of_nat (length bs) <= LIM ->
  exists it' len, write_iter junk it sz off bs = Some (it', len) /\
    0 < len <= Z.of_nat (length bs) /\ (len = Z.of_nat (length bs) \/ (s | len)) /\
    (StF s it' \/ (StC it' /\ len = Z.of_nat (length bs))) /\
    (StF s it -> StF s it') /\
    i_size it' = Z.max (lsize it) (off + len) /\
    (forall p, off <= p < off + len -> cur it' p = nth (Z.to_nat (p - off)) bs 0) /\
    (forall p, 0 <= p < lsize it -> p < off \/ off + len <= p -> cur it' p = cur it p).
Proof.
  intros HS HW H0 Hso Hsz Hsz0 Hszl Hsl Hne Hlim.
  assert (Hlen : 0 < Z.of_nat (length bs)) by (destruct bs; [congruence|cbn [length]; lia]).
  destruct (prep_spec s it off _ HS HW H0 Hlen Hlim Hso) as [it2 [E [HP [HPF [HL HK]]]]].
  set (n := Z.of_nat (length bs)) in *.
  unfold write_iter. unfold prep in E.
  destruct (if within true it off then Some it else miss it off) as [it1|]; [|discriminate].
  rewrite E. clear E it1. fold n.
  assert (Hp2 : (i_ioff it2 <= off /\ off < i_ioff it2 + i_bsize it2) /\
                0 <= i_ioff it2 /\ 0 <= i_ilen it2 <= i_bsize it2 /\
                (off <= i_ioff it2 + i_ilen it2 \/ i_size it2 <= i_ioff it2 + i_ilen it2)).
  { destruct HP as [P|P]; destruct P; lia. }
  destruct Hp2 as [Hin [Hio [Hil Hgap]]].
  set (ilen := Z.max (i_ilen it2) (Z.min (n + off - i_ioff it2) (i_bsize it2))).
  set (o := off - i_ioff it2).
  set (len := Z.min n (ilen - o)).
  assert (Hi : (ilen = i_ilen it2 /\ n + o <= ilen) \/ (ilen = n + o /\ i_ilen it2 <= ilen) \/
               (ilen = i_bsize it2 /\ i_ilen it2 <= ilen /\ ilen <= n + o)) by lia.
  assert (Hib : ilen <= i_bsize it2) by lia.
  assert (Hil2 : i_ilen it2 <= ilen) by lia.
  assert (Hlen0 : 0 < len <= n) by lia.
  assert (Hlc : len = n \/ (len = i_bsize it2 - o /\ ilen = i_bsize it2)) by lia.
  assert (Hol : o + len <= ilen) by lia.
  assert (Hio2 : 0 <= o) by lia.
  assert (Hsl2 : len = n \/ (s | len)).
  { destruct Hlc as [->|[-> Hb]]; [left; reflexivity|].
    destruct HP as [P|P]; destruct P; [right|left].
    - rewrite P_bs0. unfold o. apply Z.divide_sub_r; [apply div16384; assumption|].
      apply Z.divide_sub_r; assumption.
    - lia. }
  assert (Hfl : len / sz * sz = len).
  { destruct Hsl2 as [->|Hs2]; [|apply (full_eq s); assumption].
    destruct Hszl as [k Hk]. rewrite Hk, Z.div_mul by lia. reflexivity. }
  rewrite Hfl. clear Hfl.
  assert (Hlen1 : len = n \/ o + len = ilen) by lia.
  assert (Hmax : Z.max (i_size it2) (i_ioff it2 + ilen) = Z.max (lsize it) (off + len)).
  { rewrite <- HL. unfold lsize. destruct (0 <? i_ilen it2) eqn:El.
    - destruct Hi as [[A B]|[[A B]|[A [B C]]]]; lia.
    - destruct Hi as [[A B]|[[A B]|[A [B C]]]]; lia. }
  clearbody ilen len.
  eexists. exists len. split; [reflexivity|].
  cbn [i_fd i_file i_fsize i_size i_bsize i_ioff i_ilen i_buf i_mod].
  split; [assumption|]. split; [assumption|].
  assert (HF : PreF s it2 off -> StF s
     {| i_fd := i_fd it2; i_file := i_file it2; i_fsize := i_fsize it2;
        i_size := Z.max (i_size it2) (i_ioff it2 + ilen); i_bsize := i_bsize it2;
        i_ioff := i_ioff it2; i_ilen := ilen;
        i_buf := fun k : Z =>
          if (o <=? k) && (k <? o + len) then nth (Z.to_nat (k - o)) bs 0
          else if negb (o mod sz =? 0) && (o + len <=? k) && (k <? o + len) then junk k
          else i_buf it2 k;
        i_mod := true |}).
  { intros []. constructor; cbn [i_fd i_file i_fsize i_size i_bsize i_ioff i_ilen i_buf i_mod];
      try assumption; try lia.
    - destruct Hi as [[A B]|[[A B]|[A [B C]]]].
      + rewrite A. destruct P_al0; [left; assumption|right; lia].
      + destruct Hsl as [Hsl|Hsl].
        * left. rewrite A. apply Z.divide_add_r; [assumption|]. apply Z.divide_sub_r; assumption.
        * right. rewrite Hmax. lia.
      + left. rewrite A, P_bs0. apply div16384. assumption. }
  split.
  { destruct HP as [P|P]; [left; apply HF; assumption|]. right.
    destruct P. split; [|lia].
    constructor; cbn [i_fd i_file i_fsize i_size i_bsize i_ioff i_ilen i_buf i_mod]; try assumption; lia. }
  split; [intro X; apply HF, HPF, X|]. split; [exact Hmax|].
  unfold cur at 1 2.
  cbn [i_fd i_file i_fsize i_size i_bsize i_ioff i_ilen i_buf i_mod].
  split.
  - intros p Hp. replace (i_ioff it2 <=? p) with true by lia.
    replace (p <? i_ioff it2 + ilen) with true by lia. cbn [andb].
    replace (o <=? p - i_ioff it2) with true by lia.
    replace (p - i_ioff it2 <? o + len) with true by lia. cbn [andb].
    f_equal. lia.
  - intros p Hp Hq. rewrite <- (HK p Hp). unfold cur.
    assert (Ho : (o <=? p - i_ioff it2) && (p - i_ioff it2 <? o + len) = false) by lia.
    rewrite Ho.
    replace (negb (o mod sz =? 0) && (o + len <=? p - i_ioff it2) && (p - i_ioff it2 <? o + len)) with false
      by (rewrite <- andb_assoc; replace ((o + len <=? p - i_ioff it2) && (p - i_ioff it2 <? o + len)) with false by lia;
          rewrite andb_false_r; reflexivity).
    destruct (i_ioff it2 <=? p) eqn:P1; [|reflexivity]. cbn [andb].
    destruct (p <? i_ioff it2 + i_ilen it2) eqn:P2.
    + replace (p <? i_ioff it2 + ilen) with true by lia. reflexivity.
    + destruct (p <? i_ioff it2 + ilen) eqn:P3; [|reflexivity].
      exfalso. assert (p < lsize it2) by lia. unfold lsize in H.
      destruct (0 <? i_ilen it2) eqn:El; destruct Hi as [[A B]|[[A B]|[A [B C]]]]; lia.
Qed.
