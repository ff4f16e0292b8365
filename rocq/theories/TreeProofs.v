(* Proofs about TreeModel. *)
From Verif Require Import Base HioModel HioSpec HioProofs HioProofs2 TreeModel.
From Verif Require TreeSpec.
From Coq Require Import Permutation.
Ltac Zify.zify_post_hook ::= idtac.

Lemma name_eqb_spec a b : name_eqb a b = true <-> a = b.
Proof.
  revert b. induction a as [|x a IH]; intros [|y b]; cbn [name_eqb]; split; intro H; try discriminate; try reflexivity.
  - apply andb_prop in H. destruct H as [H1 H2]. f_equal; [lia|]. apply IH. assumption.
  - injection H as -> ->. rewrite Z.eqb_refl. cbn [andb]. apply IH. reflexivity.
Qed.
Lemma name_eqb_refl a : name_eqb a a = true.
Proof. apply name_eqb_spec. reflexivity. Qed.
Lemma name_eqb_neq a b : a <> b -> name_eqb a b = false.
Proof. intro H. destruct (name_eqb a b) eqn:E; [|reflexivity]. apply name_eqb_spec in E. congruence. Qed.

(* header encoding: has p b means byte p of the file is b, n its size *)
Fixpoint Enc (has : Z -> Z -> Prop) (n off : Z) (L : list (name * list Z)) : Prop :=
  match L with
  | [] => n <= off
  | (nm, d) :: r =>
      (exists s, length s = 16%nat /\ cstring s = Some nm /\ nth 15 s 0 = zlen d /\
                 forall k, 0 <= k < 16 -> has (off + k) (nth (Z.to_nat k) s 0)) /\
      zlen d <= 64 /\
      (forall k, 0 <= k < zlen d -> has (off + 16 + k) (nth (Z.to_nat k) d 0)) /\
      off + 16 + zlen d <= n /\
      Enc has n (off + 16 + mroundup (zlen d) 16) r
  end.

Lemma Enc_mono (h1 h2 : Z -> Z -> Prop) n : (forall p b, h1 p b -> h2 p b) ->
  forall L off, Enc h1 n off L -> Enc h2 n off L.
Proof.
  intro H. induction L as [|[nm d] r IH]; intros off; cbn [Enc]; [auto|].
  intros [[s [E1 [E2 [E3 E4]]]] [H0 [H1 [H2 H3]]]]. split; [exists s; split; [assumption|split; [assumption|split; [assumption|intros; apply H; auto]]]|].
  split; [assumption|]. split; [intros; apply H; auto|]. split; [assumption|]. apply IH. assumption.
Qed.

Lemma cstring_app nm x : (forall c, In c nm -> 0 < c < 128) -> cstring (nm ++ 0 :: x) = Some nm.
Proof.
  induction nm as [|c nm IH]; intro H; [reflexivity|]. cbn [app cstring].
  replace (c =? 0) with false by (specialize (H c (or_introl eq_refl)); lia).
  rewrite IH; [reflexivity|]. intros; apply H; right; assumption.
Qed.

Lemma fill_ent_facts s nm size : length s = 16%nat -> TreeSpec.legal_name nm ->
  length (fill_ent s nm size) = 16%nat /\ cstring (fill_ent s nm size) = Some nm /\
  nth 15 (fill_ent s nm size) 0 = size.
Proof.
  intros Hs [Hl [Hc _]]. unfold fill_ent.
  assert (L15 : length (firstn 15 (nm ++ 0 :: skipn (S (length nm)) s)) = 15%nat).
  { rewrite firstn_length, app_length. cbn [length]. rewrite skipn_length. lia. }
  split; [rewrite app_length, L15; reflexivity|]. split.
  - rewrite firstn_app. rewrite (firstn_all2 nm) by lia.
    replace (15 - length nm)%nat with (S (14 - length nm)) by lia. cbn [firstn]. rewrite <- app_assoc. cbn [app]. apply cstring_app. assumption.
  - rewrite app_nth2 by lia. rewrite L15. reflexivity.
Qed.

Lemma mround16 z : 0 <= z -> z <= mroundup z 16 /\ mroundup z 16 <= z + 15 /\ 0 <= mroundup z 16.
Proof.
  intro H. unfold mroundup. pose proof (Z.div_mod (z + 16 - 1) 16 ltac:(lia)).
  pose proof (Z.mod_pos_bound (z + 16 - 1) 16 ltac:(lia)). lia.
Qed.

Definition hasA (A : array) (p b : Z) : Prop := a_bytes A p = Some b.
Definition pairs (l : list entry) : list (name * list Z) := map (fun e => (e_name e, e_data e)) l.

Definition okent (e : entry) : Prop :=
  TreeSpec.legal_name (e_name e) /\ TreeSpec.legal_data (e_data e) /\ zlen (e_data e) <= 64 /\ e_name e <> HISTORY.

Lemma zlen_pos d : d <> [] -> 0 < zlen d.
Proof. intro. unfold zlen. destruct d; [congruence|]. cbn [length]. lia. Qed.

Lemma write_cache_spec junk : forall l it s off A,
  Inv 1 true it -> R it A -> length s = 16%nat -> Forall okent l ->
  0 <= off -> a_size A <= off -> off + 96 * Z.of_nat (length l) <= 100000 ->
  exists it' A', write_cache junk it s off l = Some it' /\ Inv 1 true it' /\ R it' A' /\
    (forall p, p < off -> a_bytes A' p = a_bytes A p) /\
    (l = [] -> a_size A' = a_size A) /\ a_size A <= a_size A' <= 100000 /\
    Enc (hasA A') (a_size A') off (pairs l).
Proof.
  induction l as [|e l IH]; intros it s off A HI HR Hs Hok H0 Hsz Hb.
  - exists it, A. cbn [write_cache pairs map Enc length Z.of_nat] in *.
    split; [reflexivity|]. split; [assumption|]. split; [assumption|]. split; [reflexivity|]. split; [reflexivity|]. lia.
  - inversion Hok as [|? ? [Hn [Hd [Hd64 _]]] Hok']; subst. cbn [length] in Hb. rewrite Nat2Z.inj_succ in Hb.
    pose proof Hd as Hdne. pose proof (zlen_pos _ Hdne) as Hdp.
    destruct (fill_ent_facts s (e_name e) (zlen (e_data e)) Hs Hn) as [F1 [F2 F3]].
    set (s1 := fill_ent s (e_name e) (zlen (e_data e))) in *.
    assert (Hs1 : s1 <> []) by (intro X; rewrite X in F1; discriminate).
    pose proof (mround16 (zlen (e_data e)) ltac:(lia)) as Hm.
    destruct (hio_write_spec 1 true junk it A 1 off s1 ltac:(left; reflexivity) HI HR) as [it1 [E1 [I1 R1]]].
    { cbn [valid_op]. rewrite F1. repeat split; try lia; try apply Z.divide_1_l. right. split; [assumption|]. left. reflexivity. }
    set (A1 := spec_put A off s1) in *.
    assert (HA1 : a_size A1 = off + 16).
    { unfold A1, spec_put. destruct s1 eqn:Es; [congruence|]. rewrite <- Es in *. cbn [a_size]. rewrite F1. lia. }
    assert (HA1b : forall p, a_bytes A1 p = put (a_bytes A) off s1 p).
    { unfold A1, spec_put. destruct s1; [congruence|]. reflexivity. }
    destruct (hio_write_spec 1 true junk it1 A1 1 (off + 16) (e_data e) ltac:(left; reflexivity) I1 R1) as [it2 [E2 [I2 R2]]].
    { cbn [valid_op]. fold (zlen (e_data e)). repeat split; try lia; try apply Z.divide_1_l. }
    set (A2 := spec_put A1 (off + 16) (e_data e)) in *.
    assert (HA2 : a_size A2 = off + 16 + zlen (e_data e)).
    { unfold A2, spec_put. destruct (e_data e) eqn:Es; [congruence|]. rewrite <- Es in *. cbn [a_size]. unfold zlen in *. lia. }
    assert (HA2b : forall p, a_bytes A2 p = put (a_bytes A1) (off + 16) (e_data e) p).
    { unfold A2, spec_put. destruct (e_data e); [congruence|]. reflexivity. }
    set (off' := off + 16 + mroundup (zlen (e_data e)) 16) in *.
    destruct (IH it2 s1 off' A2 I2 R2 F1 Hok') as [it3 [A3 [E3 [I3 [R3 [K3 [Z3 [B3 N3]]]]]]]]; try lia.
    exists it3, A3. cbn [write_cache]. fold s1. unfold CACHE_ENT. rewrite E1.
    replace (0 <? zlen (e_data e)) with true by lia. rewrite E2. fold off'.
    split; [exact E3|]. split; [assumption|]. split; [assumption|].
    assert (HK : forall p, p < off' -> a_bytes A3 p = put (put (a_bytes A) off s1) (off + 16) (e_data e) p).
    { intros p Hp. rewrite K3 by lia. rewrite HA2b. unfold put at 1 2. rewrite HA1b. reflexivity. }
    split.
    { intros p Hp. rewrite HK by lia. unfold put.
      replace (off + 16 <=? p) with false by lia. replace (off <=? p) with false by lia. reflexivity. }
    split; [discriminate|]. split; [lia|].
    cbn [pairs map Enc]. fold off'. split.
    { exists s1. split; [assumption|]. split; [assumption|]. split; [assumption|].
      intros k Hk. unfold hasA. rewrite HK by lia. unfold put. rewrite F1.
      replace (off + 16 <=? off + k) with false by lia. cbn [andb].
      replace (off <=? off + k) with true by lia. replace (off + k <? off + Z.of_nat 16) with true by lia.
      cbn [andb]. f_equal. f_equal. lia. }
    split; [assumption|]. split.
    { intros k Hk. unfold hasA. rewrite HK by lia. unfold put. fold (zlen (e_data e)).
      replace (off + 16 <=? off + 16 + k) with true by lia.
      replace (off + 16 + k <? off + 16 + zlen (e_data e)) with true by lia. cbn [andb].
      f_equal. f_equal. lia. }
    split; [lia|]. exact N3.
Qed.

Definition hasF (c : Z -> Z) (p b : Z) : Prop := c p = b.

Lemma full_agrees c n off l m : 0 <= off -> off + m <= n ->
  agrees (fun p => if (0 <=? p) && (p <? n) then Some (c p) else None) off m l ->
  Z.of_nat (length l) = m /\ forall k, 0 <= k < m -> nth (Z.to_nat k) l 0 = c (off + k).
Proof.
  intros H0 H1 [H2 H3]. split; [assumption|]. intros k Hk. apply H3; [assumption|].
  replace ((0 <=? off + k) && (off + k <? n)) with true by lia. reflexivity.
Qed.

Lemma list_ext (a b : list Z) : length a = length b ->
  (forall k, 0 <= k < Z.of_nat (length a) -> nth (Z.to_nat k) a 0 = nth (Z.to_nat k) b 0) -> a = b.
Proof.
  intros H1 H2. apply (nth_ext _ _ 0 0); [assumption|]. intros k Hk.
  specialize (H2 (Z.of_nat k) ltac:(lia)). rewrite Nat2Z.id in H2. assumption.
Qed.

Definition farr (c : Z -> Z) (n : Z) : array :=
  Arr n (fun p => if (0 <=? p) && (p <? n) then Some (c p) else None).

Lemma read_cache_spec junk c n : 0 <= n -> forall L fuel it off acc,
  Inv 1 true it -> R it (farr c n) -> 0 <= off -> Enc (hasF c) n off L -> (length L < fuel)%nat ->
  read_cache fuel junk it off acc =
  Some (rev (map (fun x => Entry (fst x) (snd x) true) L) ++ acc).
Proof.
  intro Hn. induction L as [|[nm d] L IH]; intros fuel it off acc HI HR H0 HE Hf;
    (destruct fuel as [|f]; [cbn [length] in Hf; lia|]); cbn [read_cache].
  - cbn [Enc] in HE.
    destruct (hio_read_spec 1 true junk it (farr c n) 1 off 16 ltac:(left; reflexivity) HI HR) as [it1 [x [E1 [I1 [R1 X1]]]]].
    { cbn [valid_op]. repeat split; try lia; apply Z.divide_1_l. }
    unfold CACHE_ENT. rewrite E1. cbn [expected farr a_size] in X1.
    replace (off + 16 >? n) with true in X1 by (rewrite Z.gtb_ltb; lia). subst x. reflexivity.
  - destruct HE as [[s [S1 [S2 [S3 S4]]]] [H64 [HD [Hle HE]]]].
    assert (Hz : 0 <= zlen d) by (unfold zlen; lia).
    destruct (hio_read_spec 1 true junk it (farr c n) 1 off 16 ltac:(left; reflexivity) HI HR) as [it1 [x [E1 [I1 [R1 X1]]]]].
    { cbn [valid_op]. repeat split; try lia; apply Z.divide_1_l. }
    unfold CACHE_ENT. rewrite E1. cbn [expected farr a_size a_bytes] in X1.
    replace (off + 16 >? n) with false in X1 by (rewrite Z.gtb_ltb; lia).
    destruct X1 as [l [-> X1]]. apply full_agrees in X1; [|lia|lia]. destruct X1 as [X1 X2].
    assert (l = s).
    { apply list_ext; [lia|]. intros k Hk. rewrite X2 by lia. apply S4. lia. }
    subst l. rewrite S2, S3.
    replace (zlen d <? 128) with true by lia. replace (zlen d <? 0) with false by lia.
    destruct (hio_read_spec 1 true junk it1 (farr c n) 1 (off + 16) (zlen d) ltac:(left; reflexivity) I1 R1) as [it2 [y [E2 [I2 [R2 Y1]]]]].
    { cbn [valid_op]. repeat split; try lia; apply Z.divide_1_l. }
    rewrite E2. cbn [expected farr a_size a_bytes] in Y1.
    replace (off + 16 + zlen d >? n) with false in Y1 by (rewrite Z.gtb_ltb; lia).
    destruct Y1 as [l2 [-> Y1]]. apply full_agrees in Y1; [|lia|lia]. destruct Y1 as [Y1 Y2].
    assert (l2 = d).
    { apply list_ext; [unfold zlen in Y1; lia|]. intros k Hk. rewrite Y2 by lia. apply HD. lia. }
    subst l2. pose proof (mround16 (zlen d) Hz).
    rewrite (IH f it2 _ (Entry nm d true :: acc)); try assumption; try lia.
    2:{ cbn [length] in Hf. lia. }
    cbn [map rev fst snd]. rewrite <- app_assoc. reflexivity.
Qed.

Lemma Enc_len has n : forall L off, Enc has n off L -> 0 <= off -> off + 16 * Z.of_nat (length L) <= Z.max n off.
Proof.
  induction L as [|[nm d] L IH]; intros off HE H0; [cbn [length Z.of_nat]; lia|].
  destruct HE as [_ [_ [_ [H1 H2]]]]. cbn [length]. rewrite Nat2Z.inj_succ.
  assert (0 <= zlen d) by (unfold zlen; lia). pose proof (mround16 (zlen d) ltac:(assumption)).
  specialize (IH _ H2 ltac:(lia)). destruct L as [|[nm2 d2] L2].
  - cbn [length Z.of_nat]. lia.
  - cbn [length] in *. destruct H2 as [_ [_ [_ [H9 _]]]]. assert (0 <= zlen d2) by (unfold zlen; lia). lia.
Qed.
