(* Proofs about HdrModel: values in items. *)
From Verif Require Import Base PackModel PackProofs HioModel HioSpec HioProofs HioProofs2 TreeModel.
From Coq Require Import String Ascii.
From Verif Require Import HdrModel HdrProofs.
From Verif Require HdrSpec PackSpec.
Ltac Zify.zify_post_hook ::= idtac.
Open Scope Z_scope.
Local Notation length := List.length.

Lemma chain_count s fs : forall e, chain s e fs -> e + Z.of_nat (length fs) <= lend e fs.
Proof.
  induction fs as [|[[sz off] bs] r IH]; intros e H; cbn [lend chain length] in *; [lia|].
  destruct H as (H1 & _ & _ & _ & _ & _ & H2 & _ & H3). specialize (IH _ H3). unfold f_off, f_bs; cbn [fst snd]. lia.
Qed.

Definition unit_of (t : ity) : Z := match t with IA => 1 | II => 4 | _ => 8 end.
Lemma unit_SZ t : SZ (unit_of t).
Proof. destruct t; unfold SZ; cbn; tauto. Qed.

Section V.
Variable narrow widen : Z -> Z.
Hypothesis narrow_range : forall x, 0 <= narrow x < 2 ^ 32.
Variable junk : Z -> Z.

Notation stored := (HdrSpec.stored narrow widen).
Notation back := (HdrSpec.back narrow widen).
Definition encb (t : ity) (e : elem) : list Z := match enc narrow t e with Ok bs => bs | Err => [] end.
Definition good (te : ity * elem) : Prop :=
  fst te <> IQ /\ enc narrow (fst te) (snd te) = Ok (encb (fst te) (snd te)) /\
  zlen (encb (fst te) (snd te)) = esz (fst te) /\ dec widen (fst te) (encb (fst te) (snd te)) = Ok (stored (snd te)).

Fixpoint fields (w off : Z) (tes : list (ity * elem)) : list fld :=
  match tes with [] => [] | te :: r => (asz (fst te), off, encb (fst te) (snd te)) :: fields w (off + w) r end.

Lemma fields_length w tes : forall off, length (fields w off tes) = length tes.
Proof. induction tes; intros; cbn; auto. Qed.

Definition fits (s w : Z) (te : ity * elem) : Prop := (asz (fst te) | s) /\ esz (fst te) <= w <= esz (fst te) + 8.

Lemma asz_facts t : 0 < asz t /\ (asz t | esz t) /\ 0 < esz t.
Proof. destruct t; cbn; (split; [lia|split; [|lia]]); try apply Z.divide_refl. exists 2. reflexivity. Qed.

Lemma fields_chain s w tes : forall off e, Forall good tes -> Forall (fits s w) tes -> (s | w) -> (s | off) -> 0 <= e ->
  e <= off <= e + 8 -> (off = 0 \/ 0 < e) -> off + w * Z.of_nat (length tes) <= 2147483632 ->
  chain s e (fields w off tes) /\ lend e (fields w off tes) <= off + w * Z.of_nat (length tes).
Proof.
  induction tes as [|[t x] r IH]; intros off e HG HF D1 D2 H0 H1 H2 H3; cbn [fields chain lend length] in *; [split; [exact I|lia]|].
  inversion HG as [|? ? (G1 & G2 & G3 & G4) HG']; subst. inversion HF as [|? ? (F1 & F2) HF']; subst. cbn [fst snd] in *.
  unfold f_off, f_bs; cbn [fst snd]. destruct (asz_facts t) as (A1 & A2 & A3).
  rewrite Nat2Z.inj_succ, Z.mul_succ_r in *. assert (WN : 0 <= w * Z.of_nat (length r)) by (apply Z.mul_nonneg_nonneg; lia).
  destruct (IH (off + w) (off + zlen (encb t x))) as [C1 C2]; try assumption; try lia.
  { apply Z.divide_add_r; assumption. }
  split; [|lia]. repeat (split; [assumption || lia|]). split; [rewrite G3; assumption|]. split; [lia|]. split; [lia|exact C1].
Qed.

(* writing *)
Lemma wr_elems_put w t es : forall it off it', Forall good (map (pair t) es) -> (forall e, In e es -> advance t e = w) ->
  put_all junk it (fields w off (map (pair t) es)) = Some it' -> wr_elems narrow junk it off t es = Ok it'.
Proof.
  induction es as [|e es IH]; intros it off it' HG HW H; cbn [map fields put_all wr_elems] in *.
  - injection H as ->. reflexivity.
  - inversion HG as [|? ? (G1 & G2 & _) HG']; subst. cbn [fst snd] in *. unfold f_sz, f_off, f_bs in H; cbn [fst snd] in H.
    unfold hwrite. rewrite G2. cbn [bind]. destruct (hio_write junk it (asz t) off (encb t e)) as [it1|]; [|discriminate].
    cbn [bind fst snd]. rewrite (HW e) by (left; reflexivity). apply IH; auto. intros; apply HW; right; assumption.
Qed.

Fixpoint ftypes (k : nat) (es : list elem) : list (ity * elem) :=
  match es with [] => [] | e :: r => (match k with O => II | _ => ID end, e) :: ftypes (match k with O => 1 | 1 => 2 | _ => 0 end)%nat r end.

Lemma wr_freqs_put es : forall it off k it', Forall good (ftypes k es) ->
  put_all junk it (fields 8 off (ftypes k es)) = Some it' -> wr_freqs narrow junk it off k es = Ok it'.
Proof.
  induction es as [|e es IH]; intros it off k it' HG H; cbn [ftypes fields put_all wr_freqs] in *.
  - injection H as ->. reflexivity.
  - inversion HG as [|? ? (G1 & G2 & _) HG']; subst. cbn [fst snd] in *. unfold f_sz, f_off, f_bs in H; cbn [fst snd] in H.
    unfold hwrite. rewrite G2. cbn [bind].
    destruct (hio_write junk it (asz match k with O => II | _ => ID end) off (encb match k with O => II | _ => ID end e)) as [it1|]; [|discriminate].
    cbn [bind fst snd]. apply IH; auto.
Qed.

(* reading *)
Section Rd.
Variables (s : Z) (plain : bool) (d : list Z).
Hypothesis HS : SZ s.

Lemma rd_one w t e it off : good (t, e) -> fits s w (t, e) -> Inv s plain it -> R it (content d) -> (s | off) ->
  holdsL d (asz t, off, encb t e) ->
  exists it', hread widen junk it off t = (it', GElem (stored e)) /\ Inv s plain it' /\ R it' (content d).
Proof.
  intros (G1 & G2 & G3 & G4) (F1 & F2) HI HR D H. cbn [fst snd] in *. destruct (asz_facts t) as (A1 & A2 & A3).
  unfold hread. rewrite <- G3.
  destruct (read_field s plain junk it d (asz t) off (encb t e) HS HI HR D F1 A1) as (it' & E & I' & R'); [rewrite G3; assumption|assumption|].
  rewrite E, G4. exists it'. split; [reflexivity|]. split; assumption.
Qed.

Lemma rd_end t it off : R it (content d) -> zlen d <= off -> hread widen junk it off t = (it, GIOError).
Proof.
  intros HR H. destruct (asz_facts t) as (_ & _ & A3). unfold hread. rewrite (read_eof junk it d) by (auto; lia). reflexivity.
Qed.

Lemma rd_elems_spec t es : (s | esz t) -> forall fuel it off, Forall good (map (pair t) es) -> Forall (fits s (esz t)) (map (pair t) es) ->
  Inv s plain it -> R it (content d) -> (s | off) -> Forall (holdsL d) (fields (esz t) off (map (pair t) es)) ->
  zlen d <= off + esz t * Z.of_nat (length es) -> (length es < fuel)%nat ->
  rd_elems widen junk fuel it off t = Ok (map stored es).
Proof.
  intros W. induction es as [|e es IH]; intros fuel it off HG HF HI HR D HH HL Hf; (destruct fuel as [|fuel]; [lia|]); cbn [map fields rd_elems length] in *.
  - rewrite rd_end by (auto; lia). reflexivity.
  - inversion HG; inversion HF; inversion HH; subst; cbn [fst snd] in *.
    destruct (rd_one (esz t) t e it off) as (it' & E & I' & R'); try assumption. rewrite E.
    rewrite (IH fuel it' (off + esz t)); try assumption; [reflexivity|apply Z.divide_add_r; assumption|rewrite Nat2Z.inj_succ, Z.mul_succ_r in HL; lia|lia].
Qed.

Lemma rd_freqs_spec es : (s | 8) -> forall fuel it off k, Forall good (ftypes k es) -> Forall (fits s 8) (ftypes k es) ->
  Inv s plain it -> R it (content d) -> (s | off) -> Forall (holdsL d) (fields 8 off (ftypes k es)) ->
  zlen d <= off + 8 * Z.of_nat (length es) -> (length es < fuel)%nat ->
  rd_freqs widen junk fuel it off k = Ok (map stored es).
Proof.
  intros W. induction es as [|e es IH]; intros fuel it off k HG HF HI HR D HH HL Hf; (destruct fuel as [|fuel]; [lia|]); cbn [ftypes fields rd_freqs length] in *.
  - rewrite rd_end by (auto; lia). reflexivity.
  - inversion HG; inversion HF; inversion HH; subst; cbn [fst snd] in *.
    destruct (rd_one 8 (match k with O => II | _ => ID end) e it off) as (it' & E & I' & R'); try assumption. rewrite E.
    rewrite (IH fuel it' (off + 8)); try assumption; [reflexivity|apply Z.divide_add_r; assumption|rewrite Nat2Z.inj_succ, Z.mul_succ_r in HL; lia|lia].
Qed.
End Rd.

(* ---------- layouts of values ---------- *)
Definition layout (t : ity) (v : pyval) : list fld :=
  match t with
  | IQ => match v with Seq (e :: l) => fields 8 0 ((II, e) :: ftypes 0 l) | _ => [] end
  | IA => fields 1 0 (map (pair IA) (elements v))
  | _ => (1, 0, tag t) :: fields (esz t) (start_of t) (map (pair t) (elements v))
  end.

Definition Rep (t : ity) (v : pyval) (d : list Z) : Prop :=
  zlen d = lend 0 (layout t v) /\ Forall (holdsL d) (layout t v).

Lemma good_elem t e : HdrSpec.elem_ok t e -> t <> IQ -> good (t, e).
Proof.
  intros H NQ. destruct (enc_ok narrow widen narrow_range t e H NQ) as (bs & B1 & B2 & B3).
  unfold good, encb. cbn [fst snd]. rewrite B1. auto.
Qed.

Lemma good_char c : 0 < c < 128 -> good (IA, EStr [c]).
Proof.
  intros H. unfold good, encb, enc, utf8, utf8_char. cbn [fst snd flat_map length].
  replace (c <? 128) with true by lia. cbn [app firstn]. split; [discriminate|]. split; [reflexivity|]. split; [reflexivity|].
  cbn [dec]. replace (c =? 0) with false by lia. replace (c <? 128) with true by lia. reflexivity.
Qed.

Definition plain_type (t : ity) : Prop := t = II \/ t = ID \/ t = IC.

(* elements of a valid value *)
Lemma kind_type n : HdrSpec.kind n = type_of n.
Proof.
  unfold HdrSpec.kind, type_of, itemtable. cbn [existsb assoc].
  repeat match goal with |- context [String.eqb n ?m] => rewrite (String.eqb_sym n m) end.
  repeat match goal with |- context [String.eqb ?m n] => destruct (String.eqb_spec m n) as [<-|]; [vm_compute; reflexivity|] end.
  reflexivity.
Qed.

Lemma elements_ok n t v : HdrSpec.val_ok n v -> type_of n = Some t -> plain_type t ->
  Forall (HdrSpec.elem_ok t) (elements v) /\ HdrSpec.room (length (elements v)) /\ back n v = (match map stored (elements v) with [e] => Scalar e | l => Seq l end).
Proof.
  intros H T P. unfold HdrSpec.val_ok in H. rewrite kind_type, T in H.
  assert (NF : String.eqb n "freqs" = false).
  { destruct (String.eqb_spec n "freqs"); [|reflexivity]. subst n. cbn in T. injection T as <-. destruct P as [P|[P|P]]; discriminate. }
  assert (H' : (exists e, v = Scalar e /\ HdrSpec.elem_ok t e) \/
              (exists l, v = Seq l /\ Forall (HdrSpec.elem_ok t) l /\ HdrSpec.room (length l))).
  { destruct P as [ -> | [ -> | -> ] ]; exact H. }
  destruct H' as [(e & -> & He)|(l & -> & Hl & Hr)].
  - assert (E : elements (Scalar e) = [e]).
    { destruct e; try reflexivity. destruct P as [ -> | [ -> | -> ] ]; cbn in He; tauto. }
    rewrite E. split; [constructor; [assumption|constructor]|]. split; [unfold HdrSpec.room; cbn; lia|reflexivity].
  - cbn [elements]. split; [assumption|]. split; [assumption|]. unfold HdrSpec.back. rewrite NF. destruct l as [|a [|b l]]; reflexivity.
Qed.

Lemma Forall_pair {A B} (P : A * B -> Prop) (Q : B -> Prop) t l : (forall e, Q e -> P (t, e)) -> Forall Q l -> Forall P (map (pair t) l).
Proof. intros H F. induction F; constructor; auto. Qed.

Lemma fits_all s w t l : (asz t | s) -> esz t <= w <= esz t + 8 -> Forall (fits s w) (map (pair t) l).
Proof. intros A B. induction l; constructor; auto. split; assumption. Qed.

Lemma fits_ft l : forall k, Forall (fits 8 8) (ftypes k l).
Proof.
  induction l as [|e l IH]; intros k; constructor; [|apply IH]. unfold fits. cbn [fst]. destruct k; cbn; (split; [|lia]); [exists 2; reflexivity|exists 1; reflexivity].
Qed.

Lemma good_ft l : forall k, HdrSpec.freqs_ok k l -> Forall good (ftypes k l).
Proof.
  induction l as [|e l IH]; intros k H; constructor; [|apply IH; apply H]. destruct H as [H _]. apply good_elem; [exact H|destruct k; discriminate].
Qed.

Lemma ft_stored l : forall k, HdrSpec.freqs_ok k l -> map stored l = l.
Proof.
  induction l as [|e l IH]; intros k H; [reflexivity|]. destruct H as [H1 H2]. cbn [map]. rewrite (IH _ H2). f_equal.
  destruct k; destruct e; cbn in H1; try tauto; reflexivity.
Qed.

Lemma ft_length l : forall k, length (ftypes k l) = length l.
Proof. induction l; intros; cbn; auto. Qed.

Lemma start_facts t : plain_type t -> (unit_of t | start_of t) /\ 4 <= start_of t <= 8 /\ unit_of t = esz t /\ (asz t | unit_of t).
Proof.
  intros [ -> | [ -> | -> ] ]; cbn; (split; [exists 1; reflexivity|]); (split; [lia|]); (split; [reflexivity|]); try apply Z.divide_refl; exists 2; reflexivity.
Qed.

(* the characters of a text *)
Lemma text_good s : Forall (fun c => 0 < c < 128) s -> Forall good (map (pair IA) (map (fun c => EStr [c]) s)).
Proof. intros F. induction F; constructor; auto. now apply good_char. Qed.

Lemma layout_chain n t v : HdrSpec.val_ok n v -> type_of n = Some t ->
  chain (unit_of t) 0 (layout t v) /\
  match t with
  | IQ => match v with Seq (e :: l) => Forall good ((II, e) :: ftypes 0 l) /\ lend 0 (layout t v) <= 8 + 8 * Z.of_nat (length l) | _ => False end
  | IA => exists s, v = Text s /\ Forall good (map (pair IA) (elements v)) /\ lend 0 (layout t v) <= Z.of_nat (length (elements v))
  | _ => plain_type t /\ Forall good (map (pair t) (elements v)) /\ lend 0 (layout t v) <= start_of t + esz t * Z.of_nat (length (elements v))
  end.
Proof.
  intros H T.
  assert (PT : plain_type t -> chain (unit_of t) 0 (layout t v) /\ plain_type t /\ Forall good (map (pair t) (elements v)) /\ lend 0 (layout t v) <= start_of t + esz t * Z.of_nat (length (elements v))).
  { intros P. destruct (elements_ok n t v H T P) as (E1 & E2 & _). destruct (start_facts t P) as (S1 & S2 & S3 & S4).
    assert (NQ : t <> IQ) by (destruct P as [ -> | [ -> | -> ] ]; discriminate).
    assert (G : Forall good (map (pair t) (elements v))).
    { eapply Forall_pair; [|exact E1]. intros e He. now apply good_elem. }
    assert (L : layout t v = (1, 0, tag t) :: fields (esz t) (start_of t) (map (pair t) (elements v))) by (destruct P as [ -> | [ -> | -> ] ]; reflexivity).
    assert (TL : zlen (tag t) = 4) by (destruct t; reflexivity).
    destruct (asz_facts t) as (A1 & A2 & A3).
    assert (EL : esz t <= 8) by (destruct t; cbn; lia).
    unfold HdrSpec.room in E2.
    destruct (fields_chain (unit_of t) (esz t) (map (pair t) (elements v)) (start_of t) 4 G) as [C1 C2]; try assumption; try lia.
    { apply fits_all; [assumption|lia]. }
    { rewrite S3. apply Z.divide_refl. }
    { rewrite map_length. nia. }
    rewrite map_length in C2. rewrite L. cbn [chain lend]. unfold f_off, f_bs; cbn [fst snd]. rewrite TL.
    split; [|split; [assumption|split; [assumption|exact C2]]].
    split; [lia|]. split; [left; reflexivity|]. split; [apply Z.divide_0_r|]. split; [apply Z.divide_1_l|]. split; [lia|].
    split; [apply Z.divide_1_l|]. split; [lia|]. split; [lia|exact C1]. }
  destruct t; try (apply PT; unfold plain_type; tauto); clear PT; unfold HdrSpec.val_ok in H; rewrite kind_type, T in H.
  - destruct H as (s & -> & F & _ & HR). unfold HdrSpec.room in HR. cbn [layout elements].
    pose proof (text_good s F) as G.
    destruct (fields_chain 1 1 (map (pair IA) (map (fun c => EStr [c]) s)) 0 0 G) as [C1 C2]; try apply Z.divide_1_l; try lia.
    { apply fits_all; [apply Z.divide_refl|cbn; lia]. }
    { rewrite !map_length. lia. }
    split; [exact C1|]. exists s. split; [reflexivity|]. split; [exact G|]. rewrite !map_length in *. lia.
  - destruct H as (e & l & -> & He & Hl & HR). unfold HdrSpec.room in HR. cbn [layout].
    assert (G : Forall good ((II, e) :: ftypes 0 l)).
    { constructor; [apply good_elem; [exact He|discriminate]|apply good_ft; exact Hl]. }
    destruct (fields_chain 8 8 ((II, e) :: ftypes 0 l) 0 0 G) as [C1 C2]; try apply Z.divide_refl; try apply Z.divide_0_r; try lia.
    { constructor; [|apply fits_ft]. split; cbn; [exists 2; reflexivity|lia]. }
    { cbn [length]. rewrite ft_length. lia. }
    split; [exact C1|]. split; [exact G|]. cbn [length] in C2. rewrite ft_length in C2. lia.
Qed.

Lemma wrhd_put n t v it it' : HdrSpec.val_ok n v -> type_of n = Some t ->
  put_all junk it (layout t v) = Some it' -> wrhd narrow junk it t v = Ok it'.
Proof.
  intros H T HP. destruct (layout_chain n t v H T) as [_ K].
  assert (PT : plain_type t -> wrhd narrow junk it t v = Ok it').
  { intros P. assert (K' : Forall good (map (pair t) (elements v))) by (destruct P as [ -> | [ -> | -> ] ]; apply K).
    destruct (elements_ok n t v H T P) as (E1 & _).
    assert (L : layout t v = (1, 0, tag t) :: fields (esz t) (start_of t) (map (pair t) (elements v))) by (destruct P as [ -> | [ -> | -> ] ]; reflexivity).
    rewrite L in HP. cbn [put_all] in HP. unfold f_sz, f_off, f_bs in HP; cbn [fst snd] in HP.
    assert (W : wrhd narrow junk it t v = bind (hwrite_init junk it t) (fun p => wr_elems narrow junk (fst p) (snd p) t (elements v)))
      by (destruct P as [ -> | [ -> | -> ] ]; reflexivity).
    rewrite W. unfold hwrite_init. destruct (hio_write junk it 1 0 (tag t)) as [it1|]; [|discriminate]. cbn [bind fst snd].
    eapply wr_elems_put; [exact K'| |exact HP]. intros e He. rewrite Forall_forall in E1. specialize (E1 e He).
    destruct e; try reflexivity. destruct P as [ -> | [ -> | -> ] ]; cbn in E1; tauto. }
  destruct t; try (apply PT; unfold plain_type; tauto); clear PT; cbn [wrhd layout] in *.
  - destruct K as (s & -> & G & _). eapply wr_elems_put; [exact G| |exact HP]. cbn [elements]. intros e He. apply in_map_iff in He as (c & <- & _). reflexivity.
  - destruct v as [e|[|e l]|s]; try tauto. destruct K as [G _].
    cbn [fields put_all] in HP. unfold f_sz, f_off, f_bs in HP; cbn [fst snd] in HP.
    inversion G as [|? ? (G1 & G2 & _) G']; subst. cbn [fst snd] in *. unfold hwrite. rewrite G2. cbn [bind].
    change (asz II) with 4 in *. destruct (hio_write junk it 4 0 (encb II e)) as [it1|]; [|discriminate]. cbn [bind fst].
    eapply wr_freqs_put; [exact G'|exact HP].
Qed.

(* writing a value to an empty item *)
Theorem wr_main n t v it A : HdrSpec.val_ok n v -> type_of n = Some t ->
  Inv (unit_of t) false it -> R it A -> a_size A = 0 ->
  exists it' d, wrhd narrow junk it t v = Ok it' /\ item_bytes junk it' = Some d /\ Rep t v d.
Proof.
  intros H T HI HR HA. destruct (layout_chain n t v H T) as [C _].
  destruct (put_all_spec (unit_of t) junk (unit_SZ t) (layout t v) it A HI HR) as (it' & A' & E & I' & R' & S' & _ & F).
  { lia. } { rewrite HA. exact C. }
  destruct (item_bytes_spec (unit_of t) junk it' A' (unit_SZ t) I' R') as (d & D1 & D2 & D3).
  exists it', d. split; [eapply wrhd_put; eauto|]. split; [exact D1|].
  rewrite HA in S'. pose proof (chain_lend _ _ _ C). split; [lia|].
  assert (P : Forall (fun f => 0 < zlen (f_bs f)) (layout t v)).
  { clear -C. revert C. generalize 0 at 1. induction (layout t v) as [|[[sz off] bs] r IH]; intros e C; constructor.
    - apply C.
    - eapply IH. apply C. }
  rewrite Forall_forall in *. intros f Hf. specialize (F f Hf). specialize (P f Hf).
  assert (Q : forall k, 0 <= k < zlen (f_bs f) -> 0 <= f_off f + k < a_size A' /\ nth (Z.to_nat (f_off f + k)) d 0 = nth (Z.to_nat k) (f_bs f) 0).
  { intros k Hk. apply D3. apply F. exact Hk. }
  destruct (Q 0 ltac:(lia)) as [Q0 _]. destruct (Q (zlen (f_bs f) - 1) ltac:(lia)) as [Q1 _].
  split; [lia|]. split; [lia|]. intros k Hk. apply Q. exact Hk.
Qed.

Lemma join_text s : join (map (fun c => EStr [c]) s) = s.
Proof. unfold join. induction s as [|c s IH]; [reflexivity|]. cbn [map flat_map app]. now rewrite IH. Qed.

(* reading it back *)
Theorem rd_main n t v d it plain : HdrSpec.val_ok n v -> type_of n = Some t -> Rep t v d ->
  Inv (unit_of t) plain it -> R it (content d) -> rdhd widen junk it t = Ok (back n v).
Proof.
  intros H T (L & F) HI HR. destruct (layout_chain n t v H T) as [C K].
  pose proof (chain_count _ _ _ C) as N. assert (SZE : i_size it = zlen d) by (destruct HR as [-> _]; reflexivity).
  pose proof (unit_SZ t) as HS.
  assert (PT : plain_type t -> rdhd widen junk it t = Ok (back n v)).
  { intros P. assert (K' : Forall good (map (pair t) (elements v)) /\ lend 0 (layout t v) <= start_of t + esz t * Z.of_nat (length (elements v)))
      by (destruct P as [ -> | [ -> | -> ] ]; apply K).
    destruct K' as [G LE]. destruct (elements_ok n t v H T P) as (_ & _ & B). destruct (start_facts t P) as (S1 & S2 & S3 & S4).
    assert (LA : layout t v = (1, 0, tag t) :: fields (esz t) (start_of t) (map (pair t) (elements v))) by (destruct P as [ -> | [ -> | -> ] ]; reflexivity).
    rewrite LA in F, N. inversion F as [|? ? F1 F2]; subst.
    assert (W : rdhd widen junk it t = bind (hread_init junk it) (fun p => let '(it', t', off) := p in
         if ity_eqb t t' then bind (rd_elems widen junk (S (Z.to_nat (i_size it))) it' off t) (fun l =>
           Ok (match l with [e] => Scalar e | _ => Seq l end)) else Err)) by (destruct P as [ -> | [ -> | -> ] ]; reflexivity).
    rewrite W. unfold hread_init.
    destruct (read_field (unit_of t) plain junk it d 1 0 (tag t) HS HI HR) as (it1 & E1 & I1 & R1); try apply Z.divide_0_r; try apply Z.divide_1_l; try lia; try assumption.
    assert (TL : zlen (tag t) = 4) by (destruct t; reflexivity). rewrite TL in E1. rewrite E1.
    assert (X : match tag t with [0; 0; 0; k] =>
        if k =? 1 then Ok (it1, IA, start_of IA) else if k =? 2 then Ok (it1, II, start_of II)
        else if k =? 5 then Ok (it1, ID, start_of ID) else if k =? 7 then Ok (it1, IC, start_of IC) else Err | _ => Err end = Ok (it1, t, start_of t))
      by (destruct P as [ -> | [ -> | -> ] ]; reflexivity).
    rewrite X. cbn [bind]. replace (ity_eqb t t) with true by (destruct t; reflexivity).
    rewrite (rd_elems_spec (unit_of t) plain d HS) with (es := elements v); try assumption; try reflexivity.
    - cbn [bind]. rewrite B. destruct (elements v) as [|a [|b r]]; reflexivity.
    - rewrite S3. apply Z.divide_refl.
    - apply fits_all; [assumption|lia].
    - lia.
    - rewrite SZE, L, LA. cbn [length] in N. rewrite fields_length, map_length in N. lia. }
  destruct t; try (apply PT; unfold plain_type; tauto); clear PT; cbn [rdhd unit_of] in *.
  - destruct K as (s & -> & G & LE). cbn [layout elements] in *. rewrite fields_length, !map_length in N.
    rewrite (rd_elems_spec 1 plain d HS) with (es := map (fun c => EStr [c]) s); try assumption; try reflexivity; try apply Z.divide_1_l.
    + cbn [bind]. rewrite map_map. cbn [HdrSpec.stored]. rewrite join_text. reflexivity.
    + apply fits_all; [apply Z.divide_refl|cbn; lia].
    + rewrite map_length in *. change (esz IA) with 1. lia.
    + rewrite SZE, L, map_length. lia.
  - destruct v as [e|[|e l]|s]; try tauto. destruct K as [G LE]. cbn [layout fields fst snd] in *.
    cbn [length] in N. rewrite fields_length, ft_length in N.
    inversion G as [|? ? G1 G2]; subst. inversion F as [|? ? F1 F2]; subst.
    destruct (rd_one 8 plain d HS 8 II e it 0) as (it1 & E1 & I1 & R1); try assumption; try apply Z.divide_0_r.
    { split; cbn; [exists 2; reflexivity|lia]. }
    rewrite E1. rewrite (rd_freqs_spec 8 plain d HS) with (es := l); try assumption; try reflexivity; try apply Z.divide_refl.
    + cbn [bind]. f_equal. unfold HdrSpec.val_ok in H. rewrite kind_type, T in H. destruct H as (e' & l' & X & He & Hl & _). injection X as <- <-.
      assert (SE : stored e = e) by (destruct e; cbn in He; try tauto; reflexivity).
      rewrite (ft_stored l 0 Hl), SE. unfold HdrSpec.back. destruct l; [|cbn [map]; rewrite SE; pose proof (ft_stored _ _ Hl) as FS; cbn [map] in FS; rewrite FS; reflexivity].
      destruct (String.eqb_spec n "freqs") as [|NE]; [reflexivity|]. exfalso.
      unfold type_of, itemtable in T. cbn [assoc] in T.
      repeat match type of T with context[String.eqb ?a n] => destruct (String.eqb_spec a n); [first [discriminate T|congruence]|] end. discriminate.
    + apply fits_ft.
    + lia.
    + rewrite SZE, L. lia.
Qed.
End V.
