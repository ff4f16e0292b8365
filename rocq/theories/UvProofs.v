From Verif Require Import Base.
From Coq Require Import String.
From Verif Require Import UvModel UvSpec.
Ltac Zify.zify_post_hook ::= idtac.
Open Scope Z_scope.

(* ---------- lists ---------- *)
Lemma upd_length {A} (l : list A) i x : List.length (upd l i x) = List.length l.
Proof. revert i; induction l; intros [|i]; cbn; auto. Qed.

Lemma upd_same {A} (l : list A) i x : (i < List.length l)%nat -> nth_error (upd l i x) i = Some x.
Proof. revert i; induction l; intros [|i] H; cbn in *; try lia; auto. apply IHl; lia. Qed.

Lemma upd_other {A} (l : list A) i j x : i <> j -> nth_error (upd l i x) j = nth_error l j.
Proof. revert i j; induction l; intros [|i] [|j] H; cbn; auto; try congruence. Qed.

Lemma map_upd {A B} (f : A -> B) (l : list A) i x :
  nth_error (map f l) i = Some (f x) -> map f (upd l i x) = map f l.
Proof.
  revert i; induction l; intros [|i] H; cbn in *; try congruence.
  f_equal; auto.
Qed.

Lemma find_name_map {A} (nm : A -> string) n l :
  find_name nm n l = find_name (fun x => x) n (map nm l).
Proof. induction l; cbn; auto. destruct (String.eqb (nm a) n); auto. now rewrite IHl. Qed.

Lemma find_some l n i : find_name (fun x : string => x) n l = Some i -> nth_error l i = Some n.
Proof.
  revert i; induction l; cbn; intros i H; [discriminate|].
  destruct (String.eqb a n) eqn:E.
  - inversion H; subst; cbn. apply String.eqb_eq in E; now subst.
  - destruct (find_name _ n l); cbn in H; inversion H; subst; cbn; auto.
Qed.

Lemma find_none l n : find_name (fun x : string => x) n l = None <-> ~ In n l.
Proof.
  induction l; cbn; [tauto|].
  destruct (String.eqb a n) eqn:E.
  - apply String.eqb_eq in E. split; [discriminate|]. intros H; exfalso; auto.
  - apply String.eqb_neq in E. destruct (find_name _ n l); cbn.
    + split; [discriminate|]. intros H. exfalso. apply H. right.
      destruct (in_dec string_dec n l); auto. destruct IHl as [_ IH]. specialize (IH n1); discriminate.
    + destruct IHl as [IH _]. specialize (IH eq_refl). split; auto. intros _ [H|H]; auto.
Qed.

Lemma find_app l n x : find_name (fun x : string => x) n (l ++ [x]) =
  match find_name (fun x => x) n l with
  | Some i => Some i
  | None => if String.eqb x n then Some (List.length l) else None end.
Proof.
  induction l; cbn; [now destruct (String.eqb x n)|].
  destruct (String.eqb a n); auto. rewrite IHl.
  destruct (find_name _ n l); cbn; auto. now destruct (String.eqb x n).
Qed.

Lemma find_nth l n i : NoDup l -> nth_error l i = Some n -> find_name (fun x : string => x) n l = Some i.
Proof.
  revert i; induction l; intros i HN H; [destruct i; discriminate|].
  inversion HN; subst. destruct i; cbn in *.
  - inversion H; subst. now rewrite String.eqb_refl.
  - destruct (String.eqb a n) eqn:E.
    + apply String.eqb_eq in E; subst. apply nth_error_In in H. contradiction.
    + now rewrite (IHl i H3 H).
Qed.

Lemma ty_eqb_eq a b : ty_eqb a b = true <-> a = b.
Proof. destruct a, b; cbn; split; congruence. Qed.

Lemma list_eqb_eq a b : list_eqb a b = true <-> a = b.
Proof.
  revert b; induction a; destruct b; cbn; split; try congruence; intros H.
  - apply andb_true_iff in H as [H1 H2]. apply Z.eqb_eq in H1. apply IHa in H2. congruence.
  - inversion H; subst. rewrite Z.eqb_refl. cbn. now apply IHa.
Qed.

(* ---------- arithmetic ---------- *)
Lemma mr8 x : 0 <= x -> x <= mroundup x 8 /\ mroundup x 8 mod 8 = 0 /\ mroundup x 8 < x + 8.
Proof.
  intros. unfold mroundup. replace (x + 8 - 1) with (x + 7) by lia.
  pose proof (Z.div_mod (x + 7) 8 ltac:(lia)). pose proof (Z.mod_pos_bound (x + 7) 8 ltac:(lia)).
  replace (8 * ((x + 7) / 8)) with (((x + 7) / 8) * 8) by lia.
  rewrite Z.mod_mul by lia. lia.
Qed.

Lemma mr4 t : 4 <= mroundup 4 (ext t).
Proof. destruct t; vm_compute; congruence. Qed.


Lemma rd4_be4 v : 0 <= v < 2147483648 -> rd4 (be4 v) = v.
Proof.
  intros H. unfold rd4, be4.
  assert (E : v / 16777216 mod 256 * 16777216 + v / 65536 mod 256 * 65536 + v / 256 mod 256 * 256 + v mod 256 = v).
  { pose proof (Z.div_mod v 256 ltac:(lia)). pose proof (Z.mod_pos_bound v 256 ltac:(lia)).
    set (q := v / 256) in *.
    replace (v / 65536) with (q / 256) by (unfold q; rewrite Z.div_div by lia; reflexivity).
    pose proof (Z.div_mod q 256 ltac:(lia)). pose proof (Z.mod_pos_bound q 256 ltac:(lia)).
    set (q2 := q / 256) in *.
    replace (v / 16777216) with (q2 / 256) by (unfold q2, q; rewrite !Z.div_div by lia; reflexivity).
    pose proof (Z.div_mod q2 256 ltac:(lia)). pose proof (Z.mod_pos_bound q2 256 ltac:(lia)).
    set (q3 := q2 / 256) in *.
    rewrite (Z.mod_small q3 256) by lia. lia. }
  rewrite E. destruct (v <? 2147483648) eqn:C; [reflexivity|]. apply Z.ltb_ge in C; lia.
Qed.

Lemma zlen_app {A} (a b : list A) : zlen (a ++ b) = zlen a + zlen b.
Proof. unfold zlen. rewrite app_length. lia. Qed.

Lemma zlen_nonneg {A} (a : list A) : 0 <= zlen a.
Proof. unfold zlen; lia. Qed.

(* ---------- bytes in the file ---------- *)
Definition bytes_at (f : file) (a : Z) (bs : list Z) : Prop :=
  a + zlen bs <= f_size f /\ forall k, (k < List.length bs)%nat -> f_at f (a + Z.of_nat k) = nth k bs 0.

Lemma bytes_put f a bs : bytes_at (fput f a bs) a bs.
Proof.
  split; cbn; [lia|]. intros k Hk. unfold zlen.
  replace ((a <=? a + Z.of_nat k) && (a + Z.of_nat k <? a + Z.of_nat (List.length bs))) with true by lia.
  f_equal. lia.
Qed.

Lemma bytes_put_other f a bs p cs :
  bytes_at f p cs -> p + zlen cs <= a \/ a + zlen bs <= p -> bytes_at (fput f a bs) p cs.
Proof.
  intros [H1 H2] H. split; cbn; [lia|]. intros k Hk. rewrite <- H2 by auto.
  unfold zlen in *.
  replace ((a <=? p + Z.of_nat k) && (p + Z.of_nat k <? a + Z.of_nat (List.length bs))) with false by lia.
  reflexivity.
Qed.

Lemma fget_bytes f a bs : bytes_at f a bs -> fget f a (zlen bs) = Some bs.
Proof.
  intros [H1 H2]. unfold fget. rewrite Z.gtb_ltb.
  replace (f_size f <? a + zlen bs) with false by lia. f_equal.
  unfold zlen. rewrite Nat2Z.id.
  apply nth_ext with (d := 0) (d' := 0).
  - now rewrite map_length, seq_length.
  - intros n Hn. rewrite map_length, seq_length in Hn.
    rewrite nth_indep with (d' := (fun k => f_at f (a + Z.of_nat k)) 0%nat)
      by now rewrite map_length, seq_length.
    rewrite (map_nth (fun k => f_at f (a + Z.of_nat k))). rewrite seq_nth by auto. cbn. apply H2; auto.
Qed.

Lemma fget_bytes' f a bs n : bytes_at f a bs -> n = zlen bs -> fget f a n = Some bs.
Proof. intros H ->; now apply fget_bytes. Qed.

(* ---------- the stream as a list of entries ---------- *)
Inductive srec := SSize (i : nat) (len : Z) | SData (i : nat) (t : ty) (bs : list Z) | SEor.

Definition next_off (off : Z) (s : srec) : Z :=
  match s with
  | SSize _ _ => off + 8
  | SData _ t bs => mroundup (off + mroundup 4 (ext t) + zlen bs) 8
  | SEor => off + 8
  end.

Definition enc1 (f : file) (off : Z) (s : srec) : Prop :=
  match s with
  | SSize i len => bytes_at f off (hdr VAR_SIZE (Z.of_nat i)) /\ bytes_at f (off + 4) (be4 len)
  | SData i t bs => bytes_at f off (hdr VAR_DATA (Z.of_nat i)) /\
                    bytes_at f (off + mroundup 4 (ext t)) bs
  | SEor => bytes_at f off (hdr VAR_EOR 0)
  end.

Fixpoint enc (f : file) (off : Z) (L : list srec) (off' : Z) : Prop :=
  match L with
  | [] => off = off'
  | s :: r => enc1 f off s /\ enc f (next_off off s) r off'
  end.


Lemma next_off_grow off s : 0 <= off -> off mod 8 = 0 ->
  off + 8 <= next_off off s /\ next_off off s mod 8 = 0.
Proof.
  intros H H0. assert (E : (off + 8) mod 8 = 0).
  { replace (off + 8) with (off + 1 * 8) by lia. rewrite Z.mod_add by lia. auto. }
  destruct s; cbn [next_off]; [split; [lia|auto]| |split; [lia|auto]].
  pose proof (mr4 t). pose proof (zlen_nonneg bs).
  destruct (mr8 (off + mroundup 4 (ext t) + zlen bs) ltac:(lia)) as (A & B & C).
  split; auto.
  (* a multiple of 8 that is at least off + 4 is at least off + 8 *)
  set (m := mroundup (off + mroundup 4 (ext t) + zlen bs) 8) in *.
  pose proof (Z.div_mod m 8 ltac:(lia)). pose proof (Z.div_mod off 8 ltac:(lia)).
  lia.
Qed.

Lemma enc_len f off L off' : 0 <= off -> off mod 8 = 0 -> enc f off L off' ->
  off + 8 * zlen L <= off' /\ off' mod 8 = 0.
Proof.
  revert off; induction L; cbn [enc]; intros off H0 H8 H.
  - subst. unfold zlen; cbn; split; [lia|auto].
  - destruct H as [_ H]. destruct (next_off_grow off a H0 H8).
    apply IHL in H as [H H']; [|lia|auto]. unfold zlen in *; cbn [List.length]. lia.
Qed.

Lemma enc_app f off L1 L2 off' :
  enc f off (L1 ++ L2) off' <-> exists m, enc f off L1 m /\ enc f m L2 off'.
Proof.
  revert off; induction L1; intros off; cbn [enc app].
  - split; [eauto|]. intros (m & -> & H); auto.
  - rewrite IHL1. split.
    + intros (H & m & A & B); eauto.
    + intros (m & (H & A) & B); eauto.
Qed.

Lemma enc1_put f off s a bs : 0 <= off -> off mod 8 = 0 ->
  enc1 f off s -> next_off off s <= a -> enc1 (fput f a bs) off s.
Proof.
  intros H0 H8 H Ha. destruct s; cbn [enc1 next_off] in *.
  - destruct H; split; apply bytes_put_other; auto; left; unfold zlen; cbn; lia.
  - pose proof (next_off_grow off (SData i t bs0) H0 H8) as [G _]. cbn [next_off] in G.
    pose proof (mr4 t). pose proof (zlen_nonneg bs0).
    destruct (mr8 (off + mroundup 4 (ext t) + zlen bs0) ltac:(lia)) as (A & _ & _).
    destruct H; split; apply bytes_put_other; auto; left.
    + unfold zlen; cbn [hdr List.length]; lia.
    + lia.
  - apply bytes_put_other; auto. left; unfold zlen; cbn; lia.
Qed.

Lemma enc_put f off L off' a bs : 0 <= off -> off mod 8 = 0 ->
  enc f off L off' -> off' <= a -> enc (fput f a bs) off L off'.
Proof.
  revert off; induction L; cbn [enc]; intros off H0 H8 H Ha; auto.
  destruct H as [H1 H2]. destruct (next_off_grow off a0 H0 H8) as [G G'].
  pose proof (enc_len f (next_off off a0) L off' ltac:(lia) G' H2) as [GL _]. pose proof (zlen_nonneg L).
  split; [apply enc1_put; auto; lia|]. apply IHL; [lia|auto|auto|auto].
Qed.

(* values and lengths after part of the stream *)
Definition pmap := nat -> option (list Z).
Definition lmap := nat -> option Z.
Definition set1 {A} (p : nat -> option A) (i : nat) (x : A) : nat -> option A :=
  fun j => if Nat.eqb i j then Some x else p j.
Definition pstep (p : pmap) (s : srec) : pmap :=
  match s with
  | SData i _ bs => set1 p i bs
  | SSize i _ => fun j => if Nat.eqb i j then None else p j
  | SEor => p
  end.
Definition lstep (p : lmap) (s : srec) : lmap :=
  match s with SSize i len => set1 p i len | _ => p end.
Definition pplay (p : pmap) (L : list srec) : pmap := fold_left pstep L p.
Definition lplay (p : lmap) (L : list srec) : lmap := fold_left lstep L p.
Definition none {A} : nat -> option A := fun _ => None.

Definition wf1 (tys : list ty) (l : lmap) (s : srec) : Prop :=
  match s with
  | SSize i len => exists t, nth_error tys i = Some t /\ 0 < len < 2147483648 /\ len mod ext t = 0
  | SData i t bs => nth_error tys i = Some t /\ l i = Some (zlen bs)
  | SEor => True
  end.
Fixpoint wf (tys : list ty) (l : lmap) (L : list srec) : Prop :=
  match L with [] => True | s :: r => wf1 tys l s /\ wf tys (lstep l s) r end.

Lemma wf_app tys l L1 L2 : wf tys l (L1 ++ L2) <-> wf tys l L1 /\ wf tys (lplay l L1) L2.
Proof. revert l; induction L1; intros l; cbn; [tauto|]. rewrite IHL1. unfold lplay; cbn; tauto. Qed.

Lemma wf_more tys t l L : wf tys l L -> wf (tys ++ [t]) l L.
Proof.
  revert l; induction L; cbn; intros l; auto. intros [H1 H2]; split; auto.
  assert (M : forall i x, nth_error tys i = Some x -> nth_error (tys ++ [t]) i = Some x).
  { intros i x H. rewrite nth_error_app1; auto. apply nth_error_Some; congruence. }
  destruct a; cbn in *; auto.
  - destruct H1 as (u & A & B); exists u; auto.
  - destruct H1; auto.
Qed.

Lemma pplay_app p L1 L2 : pplay p (L1 ++ L2) = pplay (pplay p L1) L2.
Proof. apply fold_left_app. Qed.
Lemma lplay_app p L1 L2 : lplay p (L1 ++ L2) = lplay (lplay p L1) L2.
Proof. apply fold_left_app. Qed.

(* ---------- scanning ---------- *)
Definition no_eor (L : list srec) : Prop := ~ In SEor L.

Definition touched (L : list srec) (i : nat) : Prop :=
  exists s, In s L /\ match s with SSize j _ => j = i | SData j _ _ => j = i | SEor => False end.

Lemma touched_dec L i : touched L i \/ ~ touched L i.
Proof.
  induction L as [|s L [H|H]].
  - right; intros (s & [] & _).
  - left; destruct H as (s0 & A & B); exists s0; split; [right; auto|auto].
  - assert (D : (match s with SSize j _ => j = i | SData j _ _ => j = i | SEor => False end) \/
                ~ (match s with SSize j _ => j = i | SData j _ _ => j = i | SEor => False end))
      by (destruct s; try (destruct (Nat.eq_dec i0 i); auto); auto).
    destruct D as [D|D].
    + left; exists s; split; [left; auto|auto].
    + right; intros (s0 & [<-|A] & B); auto. apply H; exists s0; auto.
Qed.

(* reader variables against played lengths and values *)
Record rel (N : list string) (tys : list ty) (vs : list rvar) (l : lmap) (p : pmap) : Prop := {
  R_names : map v_name vs = N;
  R_tys : map v_ty vs = tys;
  R_len : forall i n v, l i = Some n -> nth_error vs i = Some v -> v_flen v = n;
  R_buf : forall i b v, p i = Some b -> nth_error vs i = Some v -> v_buf v = Some b }.

Definition fresh_rel (vs : list rvar) (l : lmap) : Prop :=
  forall i v, nth_error vs i = Some v -> l i = None -> v_buf v = None.

Lemma nth_map {A B} (f : A -> B) l i y :
  nth_error (map f l) i = Some y -> exists x, nth_error l i = Some x /\ f x = y.
Proof. rewrite nth_error_map. destruct (nth_error l i); cbn; intros H; inversion H; eauto. Qed.

Lemma hdr_eq code i : (i < 128)%nat -> hdr code (Z.of_nat i) = [Z.of_nat i; 0; code; 0].
Proof. intros. unfold hdr. rewrite Z.mod_small by lia. reflexivity. Qed.

Lemma zlen_hdr c i : zlen (hdr c i) = 4. Proof. reflexivity. Qed.
Lemma zlen_be4 v : zlen (be4 v) = 4. Proof. reflexivity. Qed.

Lemma scan_steps N tys seg : forall fuel r off m l p,
  (List.length tys <= 128)%nat ->
  no_eor seg -> 0 <= off -> off mod 8 = 0 ->
  enc (rd_file r) off seg m -> m <= rd_max r ->
  wf tys l seg -> rel N tys (rd_vars r) l p ->
  (List.length seg < fuel)%nat ->
  exists vs' fuel', scan_loop fuel r off = scan_loop (S fuel') (with_vars r vs') m /\
    rel N tys vs' (lplay l seg) (pplay p seg) /\
    (fresh_rel (rd_vars r) l -> fresh_rel vs' (lplay l seg)) /\
    (forall i v v', nth_error (rd_vars r) i = Some v -> nth_error vs' i = Some v' ->
       (touched seg i -> v_call v' = rd_callno r) /\ (~ touched seg i -> v_call v' = v_call v)).
Proof.
  induction seg as [|s seg IH]; intros fuel r off m l p Hty Hno H0 H8 He Hmax Hwf HR Hf.
  - cbn in He; subst m. destruct fuel; [cbn in Hf; lia|].
    exists (rd_vars r), fuel; split; [destruct r; reflexivity|]. split; [exact HR|]. split; [auto|].
    intros i v v' A B. split; [intros (s & [] & _)|]. congruence.
  - cbn [enc] in He. destruct He as [He1 He].
    cbn [wf] in Hwf. destruct Hwf as [Hw1 Hwf].
    destruct (next_off_grow off s H0 H8) as [G G8].
    pose proof (enc_len _ (next_off off s) _ _ ltac:(lia) G8 He) as [GL _]. pose proof (zlen_nonneg seg).
    destruct fuel; [cbn in Hf; lia|]. cbn [scan_loop].
    rewrite Z.geb_leb. replace (rd_max r <=? off) with false by lia.
    assert (Hno' : no_eor seg) by (intros HH; apply Hno; right; auto).
    destruct s as [i len|i t bs|]; [| |exfalso; apply Hno; left; auto].
    + destruct He1 as [A B]. destruct Hw1 as (t & Ht & Hlen & Hmod).
      assert (Hi : (i < List.length tys)%nat) by (apply nth_error_Some; congruence).
      rewrite (fget_bytes' _ _ _ 4 A) by reflexivity.
      rewrite hdr_eq by lia. cbn [nth]. unfold VAR_SIZE, VAR_EOR, VAR_DATA.
      change (0 =? 2) with false. cbn iota. rewrite Z.geb_leb.
      replace (128 <=? Z.of_nat i) with false by lia. rewrite Nat2Z.id.
      destruct (nth_map v_ty (rd_vars r) i t) as (v & Hv & Hvt);
        [rewrite (R_tys _ _ _ _ _ HR); exact Ht|].
      rewrite Hv. change (0 =? 0) with true. cbn iota.
      rewrite (fget_bytes' _ _ _ 4 B) by reflexivity.
      rewrite rd4_be4 by lia. replace (len <=? 0) with false by lia.
      rewrite Hvt, Hmod. change (negb (0 =? 0)) with false. cbn iota.
      set (v1 := RV (v_name v) t len (Some (realloc (v_buf v) len)) (rd_callno r)).
      set (r1 := with_vars r (upd (rd_vars r) i v1)).
      assert (Hil : (i < List.length (rd_vars r))%nat) by (apply nth_error_Some; congruence).
      specialize (IH fuel r1 (off + 8) m (lstep l (SSize i len)) (pstep p (SSize i len))).
      destruct IH as (vs' & fuel' & E & R' & F' & C'); auto; try lia.
      { constructor.
        - cbn. rewrite map_upd; [apply (R_names _ _ _ _ _ HR)|]. rewrite nth_error_map, Hv. reflexivity.
        - cbn. rewrite map_upd; [apply (R_tys _ _ _ _ _ HR)|]. rewrite nth_error_map, Hv. cbn. now rewrite Hvt.
        - cbn. unfold set1. intros j n w Hj Hw. destruct (Nat.eqb i j) eqn:Q.
          + apply Nat.eqb_eq in Q; subst j. rewrite upd_same in Hw by auto. inversion Hj; inversion Hw; subst; reflexivity.
          + apply Nat.eqb_neq in Q. rewrite upd_other in Hw by auto. eapply (R_len _ _ _ _ _ HR); eauto.
        - cbn. intros j b w Hj Hw. destruct (Nat.eqb i j) eqn:Q; [discriminate|].
          apply Nat.eqb_neq in Q. rewrite upd_other in Hw by auto. eapply (R_buf _ _ _ _ _ HR); eauto. }
      { cbn in Hf; lia. }
      exists vs', fuel'. split; [exact E|]. split; [exact R'|]. split.
      * intros F. apply F'. cbn. intros j w Hw. unfold set1. destruct (Nat.eqb i j) eqn:Q; [discriminate|].
        apply Nat.eqb_neq in Q. rewrite upd_other in Hw by auto. apply F; auto.
      * intros j w w' Hw Hw'. destruct (Nat.eq_dec i j) as [<-|Q].
        -- specialize (C' i v1 w' (upd_same _ _ _ Hil) Hw') as [C1 C2]. cbn in C1, C2.
           assert (v_call w' = rd_callno r).
           { destruct (touched_dec seg i); auto. }
           split; auto. intros T. exfalso; apply T. exists (SSize i len); split; [left; auto|auto].
        -- specialize (C' j w w'). cbn [r1 with_vars rd_vars] in C'. rewrite upd_other in C' by auto.
           specialize (C' Hw Hw') as [C1 C2]. cbn in C1. split; intros T.
           ++ apply C1. destruct T as (s & [<-|Hs] & Hj); [congruence|]. exists s; auto.
           ++ apply C2. intros (s & Hs & Hj). apply T. exists s; split; [right; auto|auto].
    + destruct He1 as [A B]. destruct Hw1 as (Ht & Hlen).
      assert (Hi : (i < List.length tys)%nat) by (apply nth_error_Some; congruence).
      rewrite (fget_bytes' _ _ _ 4 A) by reflexivity.
      rewrite hdr_eq by lia. cbn [nth]. unfold VAR_SIZE, VAR_EOR, VAR_DATA.
      change (1 =? 2) with false. cbn iota. rewrite Z.geb_leb.
      replace (128 <=? Z.of_nat i) with false by lia. rewrite Nat2Z.id.
      destruct (nth_map v_ty (rd_vars r) i t) as (v & Hv & Hvt);
        [rewrite (R_tys _ _ _ _ _ HR); exact Ht|].
      rewrite Hv. change (1 =? 0) with false. change (1 =? 1) with true. cbn iota.
      rewrite Hvt.
      pose proof (R_len _ _ _ _ _ HR i _ v Hlen Hv) as Hfl. rewrite Hfl.
      rewrite (fget_bytes' _ _ _ _ B) by reflexivity.
      set (v1 := RV (v_name v) t (zlen bs) (Some bs) (rd_callno r)).
      set (r1 := with_vars r (upd (rd_vars r) i v1)).
      assert (Hil : (i < List.length (rd_vars r))%nat) by (apply nth_error_Some; congruence).
      specialize (IH fuel r1 (next_off off (SData i t bs)) m (lstep l (SData i t bs)) (pstep p (SData i t bs))).
      destruct IH as (vs' & fuel' & E & R' & F' & C'); auto; try lia.
      { constructor.
        - cbn. rewrite map_upd; [apply (R_names _ _ _ _ _ HR)|]. rewrite nth_error_map, Hv. reflexivity.
        - cbn. rewrite map_upd; [apply (R_tys _ _ _ _ _ HR)|]. rewrite nth_error_map, Hv. cbn. now rewrite Hvt.
        - cbn. intros j n w Hj Hw. destruct (Nat.eq_dec i j) as [<-|Q].
          + rewrite upd_same in Hw by auto. inversion Hw; subst. cbn. congruence.
          + rewrite upd_other in Hw by auto. eapply (R_len _ _ _ _ _ HR); eauto.
        - cbn. unfold set1. intros j b w Hj Hw. destruct (Nat.eqb i j) eqn:Q.
          + apply Nat.eqb_eq in Q; subst j. rewrite upd_same in Hw by auto. inversion Hj; inversion Hw; subst; reflexivity.
          + apply Nat.eqb_neq in Q. rewrite upd_other in Hw by auto. eapply (R_buf _ _ _ _ _ HR); eauto. }
      { cbn in Hf; lia. }
      exists vs', fuel'. split; [exact E|]. split; [exact R'|]. split.
      * intros F. apply F'. cbn. intros j w Hw Hj. destruct (Nat.eq_dec i j) as [<-|Q]; [congruence|].
        rewrite upd_other in Hw by auto. apply (F j w); auto.
      * intros j w w' Hw Hw'. destruct (Nat.eq_dec i j) as [<-|Q].
        -- specialize (C' i v1 w' (upd_same _ _ _ Hil) Hw') as [C1 C2]. cbn in C1, C2.
           assert (v_call w' = rd_callno r).
           { destruct (touched_dec seg i); auto. }
           split; auto. intros T. exfalso; apply T. exists (SData i t bs); split; [left; auto|auto].
        -- specialize (C' j w w'). cbn [r1 with_vars rd_vars] in C'. rewrite upd_other in C' by auto.
           specialize (C' Hw Hw') as [C1 C2]. cbn in C1. split; intros T.
           ++ apply C1. destruct T as (s & [<-|Hs] & Hj); [congruence|]. exists s; auto.
           ++ apply C2. intros (s & Hs & Hj). apply T. exists s; split; [right; auto|auto].
Qed.

Lemma scan_seg N tys seg fuel r off m l p :
  (List.length tys <= 128)%nat ->
  no_eor seg -> 0 <= off -> off mod 8 = 0 ->
  enc (rd_file r) off seg m -> bytes_at (rd_file r) m (hdr VAR_EOR 0) -> m < rd_max r ->
  wf tys l seg -> rel N tys (rd_vars r) l p ->
  (List.length seg < fuel)%nat ->
  exists vs', scan_loop fuel r off =
      ScOk (Rd vs' (m + 8) (rd_file r) (rd_max r) (rd_callno r) (rd_mark r) (rd_flags r)
               (rd_foff r) (rd_init r)) /\
    rel N tys vs' (lplay l seg) (pplay p seg) /\
    (fresh_rel (rd_vars r) l -> fresh_rel vs' (lplay l seg)) /\
    (forall i v v', nth_error (rd_vars r) i = Some v -> nth_error vs' i = Some v' ->
       (touched seg i -> v_call v' = rd_callno r) /\ (~ touched seg i -> v_call v' = v_call v)).
Proof.
  intros H1 H2 H3 H4 H5 H6 H7 H8 H9 H10.
  destruct (scan_steps N tys seg fuel r off m l p) as (vs' & fuel' & E & R & F & C); auto; [lia|].
  exists vs'. rewrite E. split; [|auto]. cbn [scan_loop with_vars rd_max rd_file].
  rewrite Z.geb_leb. replace (rd_max r <=? m) with false by lia.
  rewrite (fget_bytes' _ _ _ 4 H6) by reflexivity. reflexivity.
Qed.

Lemma scan_tail N tys seg fuel r off l p :
  (List.length tys <= 128)%nat ->
  no_eor seg -> 0 <= off -> off mod 8 = 0 ->
  enc (rd_file r) off seg (rd_max r) ->
  wf tys l seg -> rel N tys (rd_vars r) l p ->
  (List.length seg < fuel)%nat ->
  exists vs', scan_loop fuel r off = ScEof (with_vars r vs') /\
    rel N tys vs' (lplay l seg) (pplay p seg) /\
    (forall i v v', nth_error (rd_vars r) i = Some v -> nth_error vs' i = Some v' ->
       (touched seg i -> v_call v' = rd_callno r) /\ (~ touched seg i -> v_call v' = v_call v)).
Proof.
  intros H1 H2 H3 H4 H5 H8 H9 H10.
  destruct (scan_steps N tys seg fuel r off (rd_max r) l p) as (vs' & fuel' & E & R & F & C); auto; [lia|].
  exists vs'. rewrite E. split; [|auto]. cbn [scan_loop with_vars rd_max rd_file].
  rewrite Z.geb_leb. now rewrite Z.leb_refl.
Qed.
