(* Proofs about TreeModel: histories. *)
From Verif Require Import Base HioModel HioSpec HioProofs HioProofs2 TreeModel TreeProofs.
From Verif Require TreeSpec.
From Coq Require Import Permutation.
Import TreeSpec.
Ltac Zify.zify_post_hook ::= idtac.

Record TI (t : tree) (D : dict) : Prop := {
  I_nd : NoDup (map e_name (t_items t));
  I_ok : Forall okent (t_items t);
  I_map : forall n, lookup D n = match find n (t_items t) with
                                 | Some e => Some (e_data e)
                                 | None => file_find n (t_files t) end;
  I_new : t_mod t = false -> forall e, In e (t_items t) -> e_cache e = true;
  I_hdr : t_mod t = false -> exists L, Enc (hasF (t_hfile t)) (t_hsize t) 0 L /\ Permutation L (pairs (t_items t));
  I_hs : 0 <= t_hsize t <= 100000;
  I_len : (length D <= 1000)%nat }.

Lemma lookup_remove D k n : lookup (remove D k) n = if key_dec n k then None else lookup D n.
Proof.
  induction D as [|[k' v] D IH]; cbn [remove lookup]; [destruct (key_dec n k); reflexivity|].
  destruct (key_dec k k') as [->|Hk].
  - rewrite IH. destruct (key_dec n k'); reflexivity.
  - cbn [lookup]. rewrite IH. destruct (key_dec n k') as [->|Hn].
    + destruct (key_dec k' k); [congruence|reflexivity].
    + reflexivity.
Qed.

Lemma remove_length D k : (length (remove D k) <= length D)%nat.
Proof. induction D as [|[k' v] D IH]; cbn [remove length]; [lia|]. destruct (key_dec k k'); cbn [length]; lia. Qed.

Lemma lookup_in D k v : lookup D k = Some v -> In k (map fst D).
Proof.
  induction D as [|[k' v'] D IH]; cbn [lookup map]; [discriminate|].
  destruct (key_dec k k'); [left; auto|right; auto].
Qed.

Lemma find_some_name n l e : find n l = Some e -> In e l /\ e_name e = n.
Proof. intro H. apply List.find_some in H. destruct H as [H1 H2]. apply name_eqb_spec in H2. auto. Qed.

Lemma find_none_name n l : find n l = None -> ~ In n (map e_name l).
Proof.
  intros H Hin. apply in_map_iff in Hin. destruct Hin as [e [E1 E2]].
  pose proof (List.find_none _ _ H e E2) as X. cbn beta in X. rewrite E1, name_eqb_refl in X. discriminate.
Qed.

Lemma find_in n l e : NoDup (map e_name l) -> In e l -> e_name e = n -> find n l = Some e.
Proof.
  induction l as [|x l IH]; intros Hnd Hin Hn; [contradiction|].
  cbn [map] in Hnd. inversion Hnd; subst. unfold find. cbn [List.find].
  destruct Hin as [->|Hin].
  - rewrite name_eqb_refl. reflexivity.
  - rewrite name_eqb_neq; [apply IH; auto|].
    intro X. apply H1. rewrite <- X. apply in_map. assumption.
Qed.

Lemma find_release n m l : find m (release n l) = if name_eqb n m then None else find m l.
Proof.
  induction l as [|x l IH]; cbn [release filter]; [destruct (name_eqb n m); reflexivity|].
  fold (release n l). destruct (name_eqb n (e_name x)) eqn:E; cbn [negb].
  - rewrite IH. apply name_eqb_spec in E. subst n. unfold find; cbn [List.find].
    destruct (name_eqb m (e_name x)) eqn:E2.
    + apply name_eqb_spec in E2. subst. rewrite name_eqb_refl. reflexivity.
    + reflexivity.
  - unfold find in *; cbn [List.find]. destruct (name_eqb m (e_name x)) eqn:E2.
    + apply name_eqb_spec in E2. subst m. rewrite E. reflexivity.
    + apply IH.
Qed.

Definition upd (n : name) (d : list Z) (l : list entry) : list entry :=
  map (fun x => if name_eqb n (e_name x) then Entry (e_name x) d (e_cache x) else x) l.

Lemma find_upd n d m l : find m (upd n d l) =
  match find m l with
  | Some e => Some (if name_eqb n m then Entry (e_name e) d (e_cache e) else e)
  | None => None end.
Proof.
  induction l as [|x l IH]; [reflexivity|]. unfold find in *. cbn [upd map List.find]. fold (upd n d l).
  destruct (name_eqb n (e_name x)) eqn:E.
  - cbn [e_name]. destruct (name_eqb m (e_name x)) eqn:E2.
    + apply name_eqb_spec in E2. subst m. rewrite E. reflexivity.
    + apply IH.
  - destruct (name_eqb m (e_name x)) eqn:E2.
    + apply name_eqb_spec in E2. subst m. rewrite E. reflexivity.
    + apply IH.
Qed.

Lemma upd_names n d l : map e_name (upd n d l) = map e_name l.
Proof. unfold upd. rewrite map_map. apply map_ext. intro x. destruct (name_eqb n (e_name x)); reflexivity. Qed.

Lemma upd_upd n d1 d2 l : upd n d2 (upd n d1 l) = upd n d2 l.
Proof.
  unfold upd. rewrite map_map. apply map_ext. intro x.
  destruct (name_eqb n (e_name x)) eqn:E; cbn [e_name]; rewrite E; reflexivity.
Qed.

Lemma release_names n l : NoDup (map e_name l) -> NoDup (map e_name (release n l)).
Proof.
  induction l as [|x l IH]; intro H; [constructor|]. cbn [map] in H. inversion H; subst.
  cbn [release filter]. fold (release n l). destruct (negb _); [|auto]. cbn [map]. constructor; [|auto].
  intro X. apply H2. apply in_map_iff in X. destruct X as [e [E1 E2]]. apply filter_In in E2.
  apply in_map_iff. exists e. tauto.
Qed.

Lemma Forall_release (P : entry -> Prop) n l : Forall P l -> Forall P (release n l).
Proof. rewrite !Forall_forall. intros H x Hx. apply filter_In in Hx. apply H. tauto. Qed.

Lemma file_find_drop n m fs : file_find m (file_drop n fs) = if name_eqb n m then None else file_find m fs.
Proof.
  unfold file_find. induction fs as [|[k v] fs IH]; cbn [file_drop filter]; [destruct (name_eqb n m); reflexivity|].
  fold (file_drop n fs). cbn [fst]. destruct (name_eqb n k) eqn:E; cbn [negb].
  - rewrite IH. apply name_eqb_spec in E. subst n. cbn [List.find fst].
    destruct (name_eqb m k) eqn:E2.
    + apply name_eqb_spec in E2. subst. rewrite name_eqb_refl. reflexivity.
    + reflexivity.
  - cbn [List.find fst]. destruct (name_eqb m k) eqn:E2.
    + apply name_eqb_spec in E2. subst m. rewrite E. reflexivity.
    + apply IH.
Qed.

Lemma name_eqb_dec n k : name_eqb n k = if key_dec k n then true else false.
Proof.
  destruct (key_dec k n) as [->|H]; [apply name_eqb_refl|]. apply name_eqb_neq. congruence.
Qed.

Lemma key_dec_sym (T : Type) n k (a b : T) : (if key_dec n k then a else b) = if key_dec k n then a else b.
Proof. destruct (key_dec n k), (key_dec k n); congruence. Qed.

Lemma insert_length D k v : (length D < 1000)%nat -> (length (insert D k v) <= 1000)%nat.
Proof. intro. cbn [insert length]. pose proof (remove_length D k). lia. Qed.

Lemma lookup_insert D k v n : lookup (insert D k v) n = if key_dec n k then Some v else lookup D n.
Proof. cbn [insert lookup]. rewrite lookup_remove. destruct (key_dec n k); reflexivity. Qed.


Lemma set_spec t D n d : TI t D -> legal_name n -> (n <> history -> legal_data d) -> (length D < 1000)%nat ->
  TI (t_set n d t) (insert D n d).
Proof.
  intros [Ind Iok Imap Inew Ihdr Ihs Ilen] Hn Hd Hl. unfold t_set, nocache. destruct (name_eqb n HISTORY) eqn:EH.
  { apply name_eqb_spec in EH. subst n. constructor; cbn [t_items t_mod t_hfile t_hsize t_files]; try assumption.
    - intro m. rewrite lookup_insert, Imap. unfold file_find. cbn [List.find fst]. rewrite name_eqb_dec, key_dec_sym.
      destruct (key_dec HISTORY m) as [<-|Hm].
      + destruct (find HISTORY (t_items t)) as [e|] eqn:Ef; [|reflexivity].
        destruct (find_some_name _ _ _ Ef) as [Hin Hen]. rewrite Forall_forall in Iok. destruct (Iok e Hin) as (_ & _ & _ & X). congruence.
      + destruct (find m (t_items t)); [reflexivity|].
        fold (file_find m (file_drop HISTORY (t_files t))). rewrite file_find_drop, name_eqb_neq by assumption. reflexivity.
    - apply insert_length. assumption. }
  assert (EHn : n <> HISTORY) by (intros ->; rewrite name_eqb_refl in EH; discriminate). specialize (Hd EHn).
  assert (Hz : 0 < zlen d) by (apply zlen_pos; apply Hd).
  destruct (find n (t_items t)) as [e|] eqn:Ef.
  - destruct (find_some_name _ _ _ Ef) as [Hin Hen].
    replace (zlen d =? 0) with false by lia.
    destruct (zlen d <=? CACHESIZE) eqn:E64; unfold CACHESIZE in E64.
    + fold (upd n [] (t_items t)). fold (upd n d (upd n [] (t_items t))). rewrite upd_upd.
      constructor; cbn [t_items t_mod t_hfile t_hsize t_files].
      * rewrite upd_names. assumption.
      * unfold upd. rewrite Forall_map. rewrite Forall_forall in *. intros x Hx.
        destruct (name_eqb n (e_name x)) eqn:E; [|apply Iok; assumption].
        destruct (Iok x Hx) as (X1 & _ & _ & X4). split; [exact X1|]. split; [assumption|]. split; [cbn [e_data]; lia|exact X4].
      * intro m. rewrite lookup_insert, find_upd, Imap. rewrite name_eqb_dec.
        destruct (key_dec m n) as [->|Hm].
        -- rewrite Ef. reflexivity.
        -- destruct (find m (t_items t)); reflexivity.
      * discriminate.
      * discriminate.
      * assumption.
      * apply insert_length. assumption.
    + fold (upd n [] (t_items t)). set (items2 := release n (upd n [] (t_items t))).
      assert (Hrel : forall m, find m items2 = if name_eqb n m then None else find m (t_items t)).
      { intro m. unfold items2. rewrite find_release, find_upd.
        destruct (name_eqb n m); [reflexivity|]. destruct (find m (t_items t)); reflexivity. }
      constructor; cbn [t_items t_mod t_hfile t_hsize t_files].
      * unfold items2. apply release_names. rewrite upd_names. assumption.
      * unfold items2. rewrite Forall_forall in *. intros x Hx. apply filter_In in Hx. destruct Hx as [Hx Hne].
        unfold upd in Hx. apply in_map_iff in Hx. destruct Hx as [y [Ey Hy]].
        destruct (name_eqb n (e_name y)) eqn:E.
        -- subst x. cbn [e_name] in Hne. rewrite E in Hne. discriminate.
        -- subst x. apply Iok. assumption.
      * intro m. rewrite lookup_insert, Hrel, Imap. unfold file_find. cbn [List.find fst].
        rewrite (name_eqb_dec n m), (name_eqb_dec m n). rewrite (key_dec_sym _ n m).
        destruct (key_dec m n) as [->|Hm]; [reflexivity|].
        destruct (find m (t_items t)) as [e0|]; [reflexivity|].
        fold (file_find m (file_drop n (t_files t))). rewrite file_find_drop, name_eqb_dec.
        destruct (key_dec m n); [congruence|reflexivity].
      * intro Hmod. exfalso. destruct (t_mod t) eqn:Em; [discriminate|].
        rewrite (Inew eq_refl e Hin) in Hmod.
        rewrite orb_true_r in Hmod. discriminate.
      * intro Hmod. exfalso. destruct (t_mod t) eqn:Em; [discriminate|].
        rewrite (Inew eq_refl e Hin) in Hmod. rewrite orb_true_r in Hmod. discriminate.
      * assumption.
      * apply insert_length. assumption.
  - pose proof (find_none_name _ _ Ef) as Hnot.
    replace (zlen d =? 0) with false by lia.
    assert (Hu : forall d', upd n d' (t_items t) = t_items t).
    { intro d'. unfold upd. rewrite <- (map_id (t_items t)) at 2. apply map_ext_in. intros x Hx.
      rewrite name_eqb_neq; [reflexivity|]. intro X. apply Hnot. rewrite X. apply in_map. assumption. }
    destruct (zlen d <=? CACHESIZE) eqn:E64; unfold CACHESIZE in E64.
    + cbn [map e_name e_cache]. rewrite name_eqb_refl. fold (upd n d (t_items t)). rewrite Hu.
      constructor; cbn [t_items t_mod t_hfile t_hsize t_files].
      * cbn [map e_name]. constructor; assumption.
      * constructor; [|assumption]. split; [exact Hn|]. split; [assumption|]. split; [cbn [e_data]; lia|exact EHn].
      * intro m. rewrite lookup_insert. unfold find; cbn [List.find e_name].
        rewrite name_eqb_dec. rewrite key_dec_sym.
        destruct (key_dec n m) as [->|Hm]; [reflexivity|]. apply Imap.
      * discriminate.
      * discriminate.
      * assumption.
      * apply insert_length. assumption.
    + cbn [release filter e_name]. rewrite name_eqb_refl. cbn [negb]. fold (release n (t_items t)).
      assert (Hrel : release n (t_items t) = t_items t).
      { clear -Hnot. induction (t_items t) as [|x l IH]; [reflexivity|]. cbn [release filter].
        cbn [map] in Hnot. rewrite name_eqb_neq; [|intro X; apply Hnot; left; congruence].
        cbn [negb]. f_equal. apply IH. intro X. apply Hnot. right. assumption. }
      rewrite Hrel. rewrite orb_false_r.
      constructor; cbn [t_items t_mod t_hfile t_hsize t_files]; try assumption.
      * intro m. rewrite lookup_insert. unfold file_find. cbn [List.find fst]. rewrite name_eqb_dec.
        rewrite key_dec_sym. destruct (key_dec n m) as [->|Hm].
        -- rewrite Ef. reflexivity.
        -- rewrite Imap. destruct (find m (t_items t)); [reflexivity|].
           fold (file_find m (file_drop n (t_files t))). rewrite file_find_drop, name_eqb_neq by assumption. reflexivity.
      * apply insert_length. assumption.
Qed.

Lemma get_spec t D n : TI t D -> t_get n t = (t, lookup D n).
Proof.
  intros [Ind Iok Imap Inew Ihdr Ihs Ilen]. unfold t_get. rewrite Imap.
  destruct (find n (t_items t)) as [e|] eqn:Ef; [|reflexivity].
  destruct (find_some_name _ _ _ Ef) as [Hin _].
  rewrite Forall_forall in Iok. destruct (Iok e Hin) as [_ [Hd _]]. apply zlen_pos in Hd.
  replace (zlen (e_data e) =? 0) with false by lia. reflexivity.
Qed.

Lemma exists_spec t D n : TI t D -> t_exists n t = present D n.
Proof.
  intros [Ind Iok Imap Inew Ihdr Ihs Ilen]. unfold t_exists, present. rewrite Imap.
  destruct (find n (t_items t)); reflexivity.
Qed.

Lemma delete_spec t D n : TI t D -> exists t', t_delete n t = (t', present D n) /\ TI t' (remove D n).
Proof.
  intros [Ind Iok Imap Inew Ihdr Ihs Ilen]. unfold t_delete, present. rewrite Imap.
  pose proof (remove_length D n) as Hrl.
  destruct (find n (t_items t)) as [e|] eqn:Ef.
  - destruct (find_some_name _ _ _ Ef) as [Hin Hen].
    eexists. split; [reflexivity|].
    constructor; cbn [t_items t_mod t_hfile t_hsize t_files]; try assumption; try lia.
    + apply release_names. assumption.
    + apply Forall_release. assumption.
    + intro m. rewrite lookup_remove, find_release, file_find_drop, Imap, name_eqb_dec.
      destruct (key_dec m n); reflexivity.
    + intro Hmod. exfalso. destruct (t_mod t) eqn:Em; [discriminate|].
      rewrite (Inew eq_refl e Hin) in Hmod. discriminate.
    + intro Hmod. exfalso. destruct (t_mod t) eqn:Em; [discriminate|].
      rewrite (Inew eq_refl e Hin) in Hmod. discriminate.
  - eexists. split; [reflexivity|].
    constructor; cbn [t_items t_mod t_hfile t_hsize t_files]; try assumption; try lia.
    intro m. rewrite lookup_remove, file_find_drop, Imap, name_eqb_dec.
    destruct (key_dec m n) as [->|]; [rewrite Ef; reflexivity|reflexivity].
Qed.

Lemma Inv_file junk c n : 0 <= n <= LIM -> Inv 1 true (file_item junk c n).
Proof.
  intro Hn. left. unfold file_item, BUFSIZE. constructor; isimp; try reflexivity; try assumption; try (unfold LIM; lia).
  all: try (apply Z.divide_1_l); try (left; apply Z.divide_1_l); try lia.
  all: intros _; split; [reflexivity|]; split; [auto|]; intros; lia.
Qed.

Lemma items_bound t D : TI t D -> (length (t_items t) <= 1000)%nat.
Proof.
  intros [Ind Iok Imap Inew Ihdr Ihs Ilen].
  rewrite <- (map_length e_name). etransitivity; [|exact Ilen]. rewrite <- (map_length fst D).
  apply NoDup_incl_length; [assumption|]. intros n Hn.
  destruct (find n (t_items t)) as [e|] eqn:Ef.
  - specialize (Imap n). rewrite Ef in Imap. eapply lookup_in. exact Imap.
  - apply find_none_name in Ef. contradiction.
Qed.

Lemma pairs_cached l : pairs (map (fun e => Entry (e_name e) (e_data e) true) l) = pairs l.
Proof. unfold pairs. rewrite map_map. reflexivity. Qed.

Lemma find_cached n l : find n (map (fun e => Entry (e_name e) (e_data e) true) l) =
  option_map (fun e => Entry (e_name e) (e_data e) true) (find n l).
Proof.
  induction l as [|x l IH]; [reflexivity|]. unfold find in *. cbn [map List.find e_name].
  destruct (name_eqb n (e_name x)); [reflexivity|apply IH].
Qed.

Lemma flush_spec junk t D : TI t D ->
  exists t', t_flush junk t = Some t' /\ TI t' D /\ t_mod t' = false /\ t_files t' = t_files t.
Proof.
  intro HT. pose proof (items_bound t D HT) as Hb.
  pose proof HT as [Ind Iok Imap Inew Ihdr Ihs Ilen]. unfold t_flush.
  destruct (t_mod t) eqn:Em.
  - destruct (write_cache_spec junk (t_items t) (file_item junk (t_hfile t) 0) (repeat 0 16) 0 (Arr 0 (fun _ => None)))
      as [it [A [E1 [I1 [R1 [_ [_ [Hsz HE]]]]]]]]; try assumption; try reflexivity; try lia.
    + apply Inv_file. unfold LIM. lia.
    + split; [reflexivity|]. discriminate.
    + rewrite E1. destruct (hreopen_spec 1 true junk it A ltac:(left; reflexivity) I1 R1) as [f [E2 [I2 R2]]].
      rewrite E2. eexists. split; [reflexivity|].
      split; [|split; reflexivity].
      assert (Hf : i_ilen f = 0 /\ i_fsize f = i_size f).
      { unfold hreopen in E2. destruct I1 as [I1|[? _]]; [|discriminate]. rewrite (F_fd _ _ I1) in E2.
        destruct (if i_mod it then dwrite it else Some it); [|discriminate]. injection E2 as <-. split; reflexivity. }
      destruct Hf as [Hf1 Hf2]. destruct R2 as [R2a R2b].
      constructor; cbn [t_items t_mod t_hfile t_hsize t_files]; try assumption.
      * rewrite map_map. assumption.
      * rewrite Forall_map. exact Iok.
      * intro m. rewrite find_cached, Imap. destruct (find m (t_items t)); reflexivity.
      * intros _ e He. apply in_map_iff in He. destruct He as [x [<- _]]. reflexivity.
      * intros _. exists (pairs (t_items t)). split; [|rewrite pairs_cached; apply Permutation_refl].
        rewrite Hf2, R2a. revert HE. apply Enc_mono. intros p b Hp. unfold hasA in Hp. unfold hasF.
        destruct (R2b p b Hp) as [_ X]. rewrite cur_empty in X by assumption. exact X.
      * rewrite Hf2, R2a. cbn [a_size] in Hsz. lia.
  - exists t. split; [reflexivity|]. split; [assumption|]. split; [assumption|reflexivity].
Qed.

Lemma Permutation_names_NoDup (L : list (name * list Z)) l :
  Permutation L (pairs l) -> NoDup (map e_name l) -> NoDup (map fst L).
Proof.
  intros HP Hnd. apply (Permutation_NoDup (l := map e_name l)); [|assumption].
  apply Permutation_sym. replace (map e_name l) with (map fst (pairs l)).
  - apply Permutation_map. assumption.
  - unfold pairs. rewrite map_map. reflexivity.
Qed.

Lemma reopen_spec junk t D : TI t D -> exists t', t_reopen junk t = Some t' /\ TI t' D.
Proof.
  intro HT. unfold t_reopen. destruct (flush_spec junk t D HT) as [t1 [E1 [HT1 [Hm Hfs]]]]. rewrite E1.
  pose proof HT1 as [Ind Iok Imap Inew Ihdr Ihs Ilen].
  destruct (Ihdr Hm) as [L [HE HP]]. unfold t_open.
  set (items2 := rev (map (fun x => Entry (fst x) (snd x) true) L)).
  assert (Er : read_cache (S (Z.to_nat (t_hsize t1))) junk (file_item junk (t_hfile t1) (t_hsize t1)) 0 [] = Some items2).
  { rewrite (read_cache_spec junk (t_hfile t1) (t_hsize t1)) with (L := L); try lia; try assumption.
    - rewrite app_nil_r. reflexivity.
    - apply Inv_file. unfold LIM. lia.
    - split; [reflexivity|]. intros p b. cbn [farr a_bytes a_size].
      destruct ((0 <=? p) && (p <? t_hsize t1)) eqn:E; [|discriminate]. intro X. injection X as <-.
      split; [lia|]. rewrite cur_empty by reflexivity. reflexivity.
    - pose proof (Enc_len _ _ _ _ HE ltac:(lia)). lia. }
  rewrite Er. eexists. split; [reflexivity|].
  assert (Hnd2 : NoDup (map e_name items2)).
  { unfold items2. rewrite map_rev, map_map. cbn [e_name]. apply NoDup_rev.
    eapply Permutation_names_NoDup; eassumption. }
  assert (Hin : forall n d, In (Entry n d true) items2 <-> In (n, d) (pairs (t_items t1))).
  { intros n d. unfold items2. rewrite <- in_rev, in_map_iff. split.
    - intros [[x y] [E Hx]]. cbn [fst snd] in E. injection E as -> ->.
      eapply Permutation_in; eassumption.
    - intro Hx. exists (n, d). split; [reflexivity|]. eapply Permutation_in; [apply Permutation_sym|]; eassumption. }
  assert (Hcache : forall e, In e items2 -> e_cache e = true).
  { intros e He. unfold items2 in He. apply in_rev, in_map_iff in He. destruct He as [x [<- _]]. reflexivity. }
  constructor; cbn [t_items t_mod t_hfile t_hsize t_files]; try assumption.
  - rewrite Forall_forall in *. intros [n d c] He. pose proof (Hcache _ He) as Hc. cbn [e_cache] in Hc. subst c.
    apply Hin in He. unfold pairs in He. apply in_map_iff in He. destruct He as [x [Ex Hx]].
    injection Ex as <- <-. apply (Iok x Hx).
  - intro n. rewrite Imap. destruct (find n (t_items t1)) as [e|] eqn:Ef.
    + destruct (find_some_name _ _ _ Ef) as [Hin1 Hen].
      rewrite (find_in n items2 (Entry n (e_data e) true)); [reflexivity|assumption| |reflexivity].
      apply Hin. unfold pairs. apply in_map_iff. exists e. split; [congruence|assumption].
    + destruct (find n items2) as [e|] eqn:Ef2; [|reflexivity].
      exfalso. destruct (find_some_name _ _ _ Ef2) as [Hin1 Hen]. apply (find_none_name _ _ Ef).
      destruct e as [en ed ec]. pose proof (Hcache _ Hin1) as Hc. cbn [e_cache e_name] in *. subst en ec.
      apply Hin in Hin1. unfold pairs in Hin1. apply in_map_iff in Hin1. destruct Hin1 as [x [Ex Hx]].
      injection Ex as <- _. apply in_map. assumption.
  - intros _. assumption.
  - intros _. exists L. split; [assumption|]. unfold items2, pairs. rewrite map_rev, map_map. cbn [e_name e_data].
    replace (map (fun x : name * list Z => (fst x, snd x)) L) with L
      by (rewrite <- (map_id L) at 1; apply map_ext; intros [? ?]; reflexivity).
    apply Permutation_rev.
Qed.

Theorem tree_history : forall ops t D, TI t D -> valid_all D ops -> t_run t ops = expected_all D ops.
Proof.
  induction ops as [|o ops IH]; intros t D HT HV; [reflexivity|].
  destruct HV as [HV1 HV2]. cbn [t_run expected_all].
  destruct o as [n d|n|n|n|j|j]; cbn [t_step expected spec_step] in *.
  - destruct HV1 as [A [B C]]. f_equal. apply IH; [|assumption]. apply set_spec; assumption.
  - rewrite (get_spec t D n HT). destruct (lookup D n); (f_equal; apply IH; assumption).
  - destruct (delete_spec t D n HT) as [t' [E HT']]. rewrite E. f_equal. apply IH; assumption.
  - rewrite (exists_spec t D n HT). f_equal. apply IH; assumption.
  - destruct (flush_spec j t D HT) as [t' [E [HT' _]]]. rewrite E. f_equal. apply IH; assumption.
  - destruct (reopen_spec j t D HT) as [t' [E HT']]. rewrite E. f_equal. apply IH; assumption.
Qed.

Lemma TI_new junk : TI (t_new junk) [].
Proof.
  constructor; cbn [t_new t_items t_mod t_hfile t_hsize t_files].
  - constructor.
  - constructor.
  - reflexivity.
  - intros _ e [].
  - intros _. exists []. split; [cbn [Enc]; lia|constructor].
  - lia.
  - cbn [length]. lia.
Qed.
