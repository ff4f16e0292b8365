(* Proofs about HdrModel: layouts of fields in an item. *)
From Verif Require Import Base PackModel PackProofs HioModel HioSpec HioProofs HioProofs2 TreeModel.
From Coq Require Import String Ascii.
From Verif Require Import HdrModel.
From Verif Require HdrSpec PackSpec.
Ltac Zify.zify_post_hook ::= idtac.
Open Scope Z_scope.
Local Notation length := List.length.

(* a field: align size, offset, bytes *)
Definition fld := (Z * Z * list Z)%type.
Definition f_sz (f : fld) := fst (fst f).
Definition f_off (f : fld) := snd (fst f).
Definition f_bs (f : fld) := snd f.

Fixpoint put_all (junk : Z -> Z) (it : item) (fs : list fld) : option item :=
  match fs with
  | [] => Some it
  | f :: r => match hio_write junk it (f_sz f) (f_off f) (f_bs f) with Some it' => put_all junk it' r | None => None end
  end.

Fixpoint chain (s e : Z) (fs : list fld) : Prop :=
  match fs with
  | [] => True
  | (sz, off, bs) :: r =>
    e <= off <= e + 8 /\ (off = 0 \/ 0 < e) /\ (s | off) /\ (sz | s) /\ 0 < sz /\ (sz | zlen bs) /\ 0 < zlen bs /\
    off + zlen bs <= 2147483632 /\ chain s (off + zlen bs) r
  end.

Fixpoint lend (e : Z) (fs : list fld) : Z :=
  match fs with [] => e | f :: r => lend (f_off f + zlen (f_bs f)) r end.

Lemma chain_lend s fs : forall e, chain s e fs -> e <= lend e fs.
Proof.
  induction fs as [|[[sz off] bs] r IH]; intros e H; cbn [lend chain f_off f_bs fst snd] in *; [lia|].
  destruct H as (H1 & _ & _ & _ & _ & _ & H2 & _ & H3). specialize (IH _ H3). unfold f_off, f_bs; cbn [fst snd]. lia.
Qed.

(* the field is in the array *)
Definition holdsA (A : array) (f : fld) : Prop :=
  forall k, 0 <= k < zlen (f_bs f) -> a_bytes A (f_off f + k) = Some (nth (Z.to_nat k) (f_bs f) 0).

Lemma put_all_spec s junk : SZ s -> forall fs it A, Inv s false it -> R it A -> 0 <= a_size A -> chain s (a_size A) fs ->
  exists it' A', put_all junk it fs = Some it' /\ Inv s false it' /\ R it' A' /\ a_size A' = lend (a_size A) fs /\
    (forall p, p < a_size A -> a_bytes A' p = a_bytes A p) /\ Forall (holdsA A') fs.
Proof.
  intros HS. induction fs as [|[[sz off] bs] r IH]; intros it A HI HR H0 HC.
  - exists it, A. cbn [put_all lend]. split; [reflexivity|]. split; [assumption|]. split; [assumption|]. split; [reflexivity|].
    split; [reflexivity|constructor].
  - cbn [chain put_all lend f_sz f_off f_bs fst snd] in *.
    unfold f_sz, f_off, f_bs; cbn [fst snd].
    destruct HC as (C1 & C2 & C3 & C4 & C5 & C6 & C7 & C8 & C9). unfold zlen in *.
    assert (NB : bs <> []) by (intros ->; cbn in C7; lia).
    destruct (hio_write_spec s false junk it A sz off bs HS HI HR) as (it1 & E1 & I1 & R1).
    { cbn [valid_op]. split; [lia|]. split; [lia|]. split; [assumption|]. split; [assumption|]. split; [assumption|].
      split; [assumption|]. split; [right; lia|].
      destruct (Z.eq_dec off (a_size A)); [left; lia|]. right. split; [assumption|]. right. lia. }
    rewrite E1. set (A1 := spec_put A off bs) in *.
    assert (HA1 : a_size A1 = off + Z.of_nat (length bs) /\ forall p, a_bytes A1 p = put (a_bytes A) off bs p).
    { unfold A1, spec_put. destruct bs; [congruence|]. cbn [a_size a_bytes]. split; [lia|reflexivity]. }
    destruct HA1 as [S1 B1]. rewrite <- S1 in C9.
    destruct (IH it1 A1 I1 R1 ltac:(lia) C9) as (it2 & A2 & E2 & I2 & R2 & S2 & B2 & F2).
    exists it2, A2. split; [exact E2|]. split; [assumption|]. split; [assumption|]. split; [rewrite S2, S1; reflexivity|].
    split.
    + intros p Hp. rewrite B2 by lia. rewrite B1. unfold put. replace (off <=? p) with false by lia. reflexivity.
    + constructor; [|exact F2]. unfold holdsA, f_bs, f_off; cbn [fst snd]. unfold zlen. intros k Hk. rewrite B2 by lia. rewrite B1.
      unfold put. replace (off <=? off + k) with true by lia. replace (off + k <? off + Z.of_nat (length bs)) with true by lia.
      cbn [andb]. f_equal. f_equal. lia.
Qed.

(* the bytes of the item when it is closed *)
Lemma item_bytes_spec s junk it A : SZ s -> Inv s false it -> R it A ->
  exists d, item_bytes junk it = Some d /\ zlen d = Z.max 0 (a_size A) /\
    forall p b, a_bytes A p = Some b -> 0 <= p < a_size A /\ nth (Z.to_nat p) d 0 = b.
Proof.
  intros HS HI HR. destruct (hreopen_spec s false junk it A HS HI HR) as (i & E & I1 & [R1 R2]).
  unfold item_bytes. rewrite E. eexists. split; [reflexivity|].
  split; [unfold zlen; rewrite map_length, seq_length; lia|].
  intros p b Hp. destruct (R2 p b Hp) as [Q1 Q2]. split; [exact Q1|].
  set (c := if i_fd i then i_file i else i_buf i).
  rewrite (nth_indep _ 0 (c (Z.of_nat 0))) by (rewrite map_length, seq_length; lia).
  rewrite (map_nth (fun k => c (Z.of_nat k)) (seq 0 (Z.to_nat (i_size i))) 0%nat). rewrite seq_nth by lia.
  replace (Z.of_nat (0 + Z.to_nat p)) with p by lia. rewrite <- Q2. unfold c, cur.
  destruct HI as [HF|[_ HC]].
  - unfold hreopen in E. rewrite (F_fd _ _ HF) in E.
    destruct (if i_mod it then dwrite it else Some it); [|discriminate]. injection E as <-. cbn [file_item i_fd i_file i_ioff i_ilen i_buf].
    replace ((0 <=? p) && (p <? 0 + 0)) with false by lia. reflexivity.
  - unfold hreopen in E. rewrite (C_fd _ HC) in E. injection E as <-. cbn [i_fd i_file i_ioff i_ilen i_buf i_size] in *.
    rewrite (C_off _ HC), (C_len _ HC). replace ((0 <=? p) && (p <? 0 + i_size it)) with true by lia. f_equal. lia.
Qed.

(* ---------- reading ---------- *)
Definition holdsL (d : list Z) (f : fld) : Prop :=
  0 <= f_off f /\ f_off f + zlen (f_bs f) <= zlen d /\
  forall k, 0 <= k < zlen (f_bs f) -> nth (Z.to_nat (f_off f + k)) d 0 = nth (Z.to_nat k) (f_bs f) 0.

Definition content (d : list Z) : array :=
  Arr (zlen d) (fun p => if (0 <=? p) && (p <? zlen d) then Some (nth (Z.to_nat p) d 0) else None).

Lemma access_read_inv s junk n t d : SZ s -> zlen d <= 2147483632 -> (forall e, find n (t_items t) = Some e -> zlen d <= 64) ->
  exists plain, Inv s plain (access_read junk n t d) /\ R (access_read junk n t d) (content d).
Proof.
  intros HS HL H64. unfold access_read. assert (0 <= zlen d) by (unfold zlen; lia).
  destruct (find n (t_items t)) as [e|].
  - exists false. split.
    + right. split; [reflexivity|]. specialize (H64 e eq_refl). unfold cached_item. constructor; isimp; try reflexivity; try lia.
    + split; [reflexivity|]. intros p b. cbn [content a_bytes a_size].
      destruct ((0 <=? p) && (p <? zlen d)) eqn:E; [|congruence]. intro X. injection X as <-.
      split; [lia|]. unfold cur, cached_item; isimp. rewrite Z.add_0_l, E. f_equal. f_equal. lia.
  - exists true. split.
    + left. unfold file_item, BUFSIZE. constructor; isimp; try reflexivity; try assumption; try (unfold LIM; lia).
      * apply Z.divide_0_r.
      * intros _. split; [reflexivity|]. split; [auto|]. intros; lia.
      * left. apply Z.divide_0_r.
    + split; [reflexivity|]. intros p b. cbn [content a_bytes a_size].
      destruct ((0 <=? p) && (p <? zlen d)) eqn:E; [|congruence]. intro X. injection X as <-.
      split; [lia|]. rewrite cur_empty by reflexivity. reflexivity.
Qed.

Lemma read_field s plain junk it d sz off bs : SZ s -> Inv s plain it -> R it (content d) ->
  (s | off) -> (sz | s) -> 0 < sz -> (sz | zlen bs) -> holdsL d (sz, off, bs) ->
  exists it', hio_read junk it sz off (zlen bs) = (it', HBytes bs) /\ Inv s plain it' /\ R it' (content d).
Proof.
  intros HS HI HR D1 D2 D3 D4 (H0 & H1 & H2). unfold f_off, f_bs in *; cbn [fst snd] in *.
  destruct (hio_read_spec s plain junk it (content d) sz off (zlen bs) HS HI HR) as (it' & x & E & I' & R' & X).
  { cbn [valid_op]. unfold zlen in *. split; [assumption|]. split; [lia|]. split; [assumption|]. split; [assumption|]. split; assumption. }
  cbn [expected content a_size] in X. replace (off + zlen bs >? zlen d) with false in X by (rewrite Z.gtb_ltb; lia).
  destruct X as (l & -> & L1 & L2). exists it'. split; [|split; assumption]. rewrite E. f_equal. f_equal.
  apply (nth_ext _ _ 0 0); [unfold zlen in *; lia|]. intros k Hk.
  assert (K : 0 <= Z.of_nat k < zlen bs) by (unfold zlen in *; lia).
  rewrite <- (Nat2Z.id k) at 1. rewrite (L2 (Z.of_nat k) (nth k bs 0)); [reflexivity|lia|].
  cbn [content a_bytes]. replace ((0 <=? off + Z.of_nat k) && (off + Z.of_nat k <? zlen d)) with true by lia.
  rewrite H2 by lia. now rewrite Nat2Z.id.
Qed.

Lemma read_eof junk it d sz off n : R it (content d) -> zlen d < off + n ->
  hio_read junk it sz off n = (it, HEof).
Proof.
  intros [HR _] H. unfold hio_read. rewrite HR. cbn [content a_size]. replace (off + n >? zlen d) with true by (rewrite Z.gtb_ltb; lia). reflexivity.
Qed.

(* ---------- codecs ---------- *)
Section Codec.
Variable narrow widen : Z -> Z.
Hypothesis narrow_range : forall x, 0 <= narrow x < 2 ^ 32.


Lemma enc_ok t e : HdrSpec.elem_ok t e -> t <> IQ -> exists bs, enc narrow t e = Ok bs /\ zlen bs = esz t /\ dec widen t bs = Ok (HdrSpec.stored narrow widen e).
Proof.
  intros H NQ. destruct t; cbn in H; try tauto; destruct e; try tauto.
  - unfold HdrSpec.int_ok in H. unfold enc. replace ((- 2 ^ 63 <=? z) && (z <? 2 ^ 63)) with true by lia.
    unfold pack32_c. destruct (rev4 1 (le_bytes 4 z)) as [t|] eqn:E; [|rewrite le4 in E; discriminate]. exists t. split; [reflexivity|].
    split.
    { rewrite le4 in E. cbn in E. injection E as <-. reflexivity. }
    unfold dec, unpack32_c. rewrite (rev4_rev4 _ _ _ E). cbn [bind].
    change (firstn (4 * 1) (le_bytes 4 z)) with (le_bytes 4 z). f_equal. f_equal.
    cbn [read_signed hd]. change (firstn 4 (le_bytes 4 z)) with (le_bytes 4 z). rewrite le_val_le_bytes.
    cbn [HdrSpec.stored]. f_equal. apply (signed_mod 4); [lia|]. unfold PackSpec.fits_signed. cbn. lia.
  - unfold HdrSpec.dbl_ok in H. unfold enc, packd_c. destruct (rev8 1 (le_bytes 8 x)) as [t|] eqn:E; [|rewrite le8 in E; discriminate].
    exists t. split; [reflexivity|]. split.
    { rewrite le8 in E. cbn in E. injection E as <-. reflexivity. }
    unfold dec, unpackd_c. rewrite (rev8_rev8 _ _ _ E). cbn [bind]. change (firstn (8 * 1) (le_bytes 8 x)) with (le_bytes 8 x).
    rewrite le_val_le_bytes. rewrite Z.mod_small; [reflexivity|]. change (256 ^ Z.of_nat 8) with (2 ^ 64). lia.
  - unfold enc, packr_c. destruct (rev4 2 (array_mem 4 [narrow re; narrow im])) as [t|] eqn:E; [|unfold array_mem in E; cbn [map concat] in E; rewrite !le4 in E; discriminate].
    exists t. split; [reflexivity|]. split.
    { unfold array_mem in E. cbn [map concat] in E. rewrite !le4 in E. cbn in E. injection E as <-. reflexivity. }
    unfold dec, unpackr_c. rewrite (rev4_rev4 _ _ _ E). cbn [bind].
    change (firstn (4 * 2) (array_mem 4 [narrow re; narrow im])) with (array_mem 4 [narrow re; narrow im]).
    change (firstn 4 (array_mem 4 [narrow re; narrow im])) with (le_bytes 4 (narrow re)).
    change (skipn 4 (array_mem 4 [narrow re; narrow im])) with (le_bytes 4 (narrow im)).
    rewrite !le_val_le_bytes. change (256 ^ Z.of_nat 4) with (2 ^ 32). rewrite !Z.mod_small by apply narrow_range.
    reflexivity.
Qed.
End Codec.
