From Verif Require Import Base.
From Coq Require Import String.
From Verif Require Import UvModel UvSpec UvProofs.
Ltac Zify.zify_post_hook ::= idtac.
Open Scope Z_scope.

Lemma NoDup_app_one {A} (l : list A) x : NoDup l -> ~ In x l -> NoDup (l ++ [x]).
Proof.
  intros H Hx. apply NoDup_Add with (a := x) (l := l).
  - rewrite <- (app_nil_r l) at 1. apply Add_app.
  - split; auto.
Qed.

Definition wnames (w : writer) := map w_name (w_vars w).
Definition wtys (w : writer) := map w_ty (w_vars w).
Notation fnd := (find_name (fun x : string => x)).
Notation PP := (pplay none).
Notation LL := (lplay none).

(* the writer's variables against the stream it has produced *)
Record WI (w : writer) (L : list srec) : Prop := {
  W_enc : enc (w_file w) 0 L (w_off w);
  W_nodup : NoDup (wnames w);
  W_wf : wf (wtys w) none L;
  W_dom : forall i, (List.length (w_vars w) <= i)%nat -> LL L i = None /\ PP L i = None;
  W_len : forall i v, nth_error (w_vars w) i = Some v ->
     (w_len v = 0 /\ LL L i = None /\ PP L i = None) \/
     (exists bs, PP L i = Some bs /\ LL L i = Some (zlen bs) /\ (w_len v = zlen bs \/ w_len v = 0) /\ 0 < zlen bs);
  W_chk : forall i v, nth_error (w_vars w) i = Some v -> w_nocheck v = false -> w_len v = 0 \/ w_buf v = PP L i;
  W_call : forall i v, nth_error (w_vars w) i = Some v -> w_nocheck v = false -> w_buf v = None -> w_call v = 0 }.

(* what a reader of the stream would see under a name, and the writer's buffer *)
Definition getp (w : writer) (L : list srec) (n : string) : option (ty * list Z) :=
  match fnd n (wnames w) with
  | Some i => match nth_error (wtys w) i, PP L i with Some t, Some b => Some (t, b) | _, _ => None end
  | None => None
  end.
Definition getb (w : writer) (n : string) : option (bool * option (list Z)) :=
  match fnd n (wnames w) with
  | Some i => option_map (fun v => (w_nocheck v, w_buf v)) (nth_error (w_vars w) i)
  | None => None
  end.
Definition getl (w : writer) (n : string) : Z :=
  match fnd n (wnames w) with
  | Some i => match nth_error (w_vars w) i with Some v => w_len v | None => 0 end
  | None => 0
  end.
Definition has (w : writer) (n : string) : option ty :=
  match fnd n (wnames w) with Some i => nth_error (wtys w) i | None => None end.

Definition extends (w w' : writer) : Prop :=
  exists mn mt, wnames w' = wnames w ++ mn /\ wtys w' = wtys w ++ mt.

Lemma extends_refl w : extends w w.
Proof. exists [], []. now rewrite !app_nil_r. Qed.
Lemma extends_trans a b c : extends a b -> extends b c -> extends a c.
Proof.
  intros (n1 & t1 & A & B) (n2 & t2 & C & D). exists (n1 ++ n2), (t1 ++ t2).
  rewrite C, D, A, B, !app_assoc. auto.
Qed.

Lemma wnames_len w : List.length (wnames w) = List.length (w_vars w).
Proof. apply map_length. Qed.

Lemma fnd_lt w n i : fnd n (wnames w) = Some i -> (i < List.length (w_vars w))%nat.
Proof. intros H. apply find_some in H. rewrite <- wnames_len. apply nth_error_Some; congruence. Qed.

Lemma fnd_inj l m n i : fnd m l = Some i -> fnd n l = Some i -> m = n.
Proof. intros A B. apply find_some in A, B. congruence. Qed.

(* adding a variable that nothing in the stream mentions *)
Definition wadd (w : writer) (v : wvar) : writer :=
  Wr (w_vars w ++ [v]) (w_off w) (w_file w) (w_init w) (w_flags w).

Lemma WI_add w L v : WI w L -> fnd (w_name v) (wnames w) = None -> w_len v = 0 ->
  (w_nocheck v = false -> w_buf v = None /\ w_call v = 0) -> WI (wadd w v) L.
Proof.
  intros H Hn Hl Hb. constructor; cbn.
  - apply (W_enc _ _ H).
  - unfold wnames; cbn. rewrite map_app; cbn. apply NoDup_app_one; [apply (W_nodup _ _ H)|].
    apply find_none in Hn. exact Hn.
  - unfold wtys; cbn. rewrite map_app; cbn. apply wf_more. apply (W_wf _ _ H).
  - intros i Hi. rewrite app_length in Hi; cbn in Hi. apply (W_dom _ _ H). lia.
  - intros i u Hu. destruct (Nat.lt_ge_cases i (List.length (w_vars w))).
    + rewrite nth_error_app1 in Hu by auto. apply (W_len _ _ H _ _ Hu).
    + rewrite nth_error_app2 in Hu by auto.
      destruct (i - List.length (w_vars w))%nat eqn:E; cbn in Hu; [|destruct n; discriminate].
      inversion Hu; subst u. left. destruct (W_dom _ _ H i H0). auto.
  - intros i u Hu Hc. destruct (Nat.lt_ge_cases i (List.length (w_vars w))).
    + rewrite nth_error_app1 in Hu by auto. apply (W_chk _ _ H _ _ Hu Hc).
    + rewrite nth_error_app2 in Hu by auto.
      destruct (i - List.length (w_vars w))%nat eqn:E; cbn in Hu; [|destruct n; discriminate].
      inversion Hu; subst u. auto.
  - intros i u Hu Hc Hn'. destruct (Nat.lt_ge_cases i (List.length (w_vars w))).
    + rewrite nth_error_app1 in Hu by auto. apply (W_call _ _ H _ _ Hu Hc Hn').
    + rewrite nth_error_app2 in Hu by auto.
      destruct (i - List.length (w_vars w))%nat eqn:E; cbn in Hu; [|destruct n; discriminate].
      inversion Hu; subst u. apply Hb; auto.
Qed.

Lemma fnd_w w n : find_name w_name n (w_vars w) = fnd n (wnames w).
Proof. apply find_name_map. Qed.

Lemma uvputvr_new w t n bs : fnd n (wnames w) = None -> (String.length n <= 8)%nat ->
  uvputvr w t n bs = if zlen bs / ext t <=? 0 then Ok w else uvputvr (wadd w (WV n t 0 None false 0)) t n bs.
Proof.
  intros H Hn. unfold uvputvr. destruct (zlen bs / ext t <=? 0) eqn:E; [reflexivity|].
  unfold mkvar. rewrite fnd_w, H.
  replace (8 <? String.length n)%nat with false by (symmetry; apply Nat.ltb_ge; auto).
  rewrite fnd_w. unfold wnames in *. cbn [wadd w_vars]. rewrite map_app; cbn [map w_name].
  rewrite find_app, H, String.eqb_refl, map_length. reflexivity.
Qed.

Lemma enc_put0 f L m a bs : enc f 0 L m -> m <= a -> enc (fput f a bs) 0 L m.
Proof. intros. apply enc_put; auto; lia. Qed.

Definition oth_ok (p p' : pmap) (i : nat) : Prop := forall j, j <> i -> p' j = p j.

Lemma ext_pos t : 1 <= ext t <= 8. Proof. destruct t; cbn; lia. Qed.

Lemma div_pos_ext (bs : list Z) t : zlen bs mod ext t = 0 -> 0 < zlen bs -> zlen bs / ext t <=? 0 = false.
Proof.
  intros H H0. pose proof (ext_pos t). pose proof (Z.div_mod (zlen bs) (ext t) ltac:(lia)).
  apply Z.leb_gt. nia.
Qed.

(* one assignment to an existing variable *)
Lemma put_old w L i v t n bs :
  WI w L -> fnd n (wnames w) = Some i -> nth_error (w_vars w) i = Some v -> w_ty v = t ->
  0 < zlen bs < 2147483648 -> zlen bs mod ext t = 0 ->
  exists v' off' f' seg,
    uvputvr w t n bs = Ok (Wr (upd (w_vars w) i v') off' f' (w_init w) (w_flags w)) /\
    w_name v' = w_name v /\ w_ty v' = t /\
    (w_nocheck v = true -> w_nocheck v' = true /\ w_buf v' = w_buf v) /\
    WI (Wr (upd (w_vars w) i v') off' f' (w_init w) (w_flags w)) (L ++ seg) /\
    no_eor seg /\ PP (L ++ seg) i = Some bs /\ oth_ok (PP L) (PP (L ++ seg)) i /\
    (w_nocheck v = true \/ PP L i <> Some bs -> In (SData i t bs) seg) /\
    (w_buf v' = w_buf v \/ w_buf v' = Some bs) /\
    (w_nocheck v = false -> w_buf v = None -> w_buf v' = Some bs) /\ w_len v' = zlen bs.
Proof.
  intros H Hf Hv Ht Hlen Hmod.
  unfold uvputvr. rewrite div_pos_ext by (auto; lia).
  unfold mkvar. rewrite fnd_w, Hf, Hv.
  replace (ty_eqb (w_ty v) t) with true by (symmetry; now apply ty_eqb_eq). cbn [negb].
  assert (Hi : (i < List.length (w_vars w))%nat) by (eapply fnd_lt; eauto).
  assert (HT : nth_error (wtys w) i = Some t) by (unfold wtys; rewrite nth_error_map, Hv; cbn; congruence).
  pose proof (W_enc _ _ H) as He.
  destruct (enc_len _ 0 _ _ ltac:(lia) eq_refl He) as [Hoff H8]. pose proof (zlen_nonneg L).
  set (seg1 := if w_len v =? zlen bs then [] else [SSize i (zlen bs)]).
  (* after the optional size entry *)
  set (f1 := if negb (w_len v =? zlen bs)
             then fput (fput (w_file w) (w_off w) (hdr VAR_SIZE (Z.of_nat i))) (w_off w + 4) (be4 (zlen bs))
             else w_file w).
  set (off1 := if negb (w_len v =? zlen bs) then w_off w + 8 else w_off w).
  assert (E1 : enc f1 0 (L ++ seg1) off1 /\ w_off w <= off1 /\ off1 mod 8 = 0).
  { unfold f1, off1, seg1. destruct (w_len v =? zlen bs); cbn [negb].
    - rewrite app_nil_r. auto with zarith.
    - split.
      + apply enc_app. exists (w_off w). split.
        * apply enc_put0; [|lia]. apply enc_put0; [auto|lia].
        * cbn [enc enc1 next_off]. split; [|reflexivity]. split.
          -- apply bytes_put_other; [apply bytes_put|]. left. rewrite zlen_hdr. lia.
          -- apply bytes_put.
      + split; [lia|]. replace (w_off w + 8) with (w_off w + 1 * 8) by lia. now rewrite Z.mod_add by lia. }
  destruct E1 as (E1 & Eo & E8).
  assert (L1 : LL (L ++ seg1) i = Some (zlen bs)).
  { unfold seg1. destruct (w_len v =? zlen bs) eqn:C.
    - rewrite app_nil_r. apply Z.eqb_eq in C.
      destruct (W_len _ _ H _ _ Hv) as [(A & _)|(b & A & B & [D|D] & F)]; [lia|congruence|lia].
    - rewrite lplay_app. cbn. unfold set1. now rewrite Nat.eqb_refl. }
  assert (W1 : wf (wtys w) none (L ++ seg1)).
  { apply wf_app. split; [apply (W_wf _ _ H)|]. unfold seg1. destruct (w_len v =? zlen bs); cbn; auto.
    split; auto. exists t. auto. }
  set (changed := w_nocheck v || negb (w_len v =? zlen bs) || negb (list_eqb (obuf (w_buf v)) bs)).
  destruct changed eqn:Ech.
  - (* data entry *)
    set (v' := if w_call v >? 6 then WV (w_name v) t (zlen bs) (w_buf v) true (w_call v + 1)
               else if w_nocheck v then WV (w_name v) t (zlen bs) (w_buf v) true (w_call v + 1)
               else WV (w_name v) t (zlen bs) (Some bs) false (w_call v + 1)).
    assert (V' : w_name v' = w_name v /\ w_ty v' = t /\ w_len v' = zlen bs /\
                 (w_nocheck v = true -> w_nocheck v' = true /\ w_buf v' = w_buf v) /\
                 (w_nocheck v' = false -> w_buf v' = Some bs) /\
                 (w_buf v' = w_buf v \/ w_buf v' = Some bs) /\
                 (w_call v = 0 -> w_nocheck v = false -> w_buf v' = Some bs)).
    { unfold v'. split; [|split; [|split; [|split; [|split; [|split]]]]].
      1-5: destruct (w_call v >? 6); [|destruct (w_nocheck v)]; cbn; repeat split; auto; congruence.
      - destruct (w_call v >? 6); [|destruct (w_nocheck v)]; cbn; auto.
      - intros -> ->. reflexivity. }
    clearbody v'. destruct V' as (V1 & V2 & V3 & V4 & V5 & V6 & V7).
    do 3 eexists. exists (seg1 ++ [SData i t bs]). split; [reflexivity|].
    split; [exact V1|]. split; [exact V2|]. split; [exact V4|].
    assert (PI : PP (L ++ seg1 ++ [SData i t bs]) i = Some bs).
    { rewrite app_assoc, pplay_app. cbn. unfold set1. now rewrite Nat.eqb_refl. }
    assert (PO : oth_ok (PP L) (PP (L ++ seg1 ++ [SData i t bs])) i).
    { intros j Hj. rewrite app_assoc, pplay_app. cbn. unfold set1.
      assert (Q : Nat.eqb i j = false) by (apply Nat.eqb_neq; auto). rewrite Q.
      unfold seg1. destruct (w_len v =? zlen bs); [now rewrite app_nil_r|].
      rewrite pplay_app. cbn. now rewrite Q. }
    assert (LO : forall j, j <> i -> LL (L ++ seg1 ++ [SData i t bs]) j = LL L j).
    { intros j Hj. rewrite app_assoc, lplay_app. cbn.
      assert (Q : Nat.eqb i j = false) by (apply Nat.eqb_neq; auto).
      unfold seg1. destruct (w_len v =? zlen bs); [now rewrite app_nil_r|].
      rewrite lplay_app. cbn. unfold set1. now rewrite Q. }
    assert (LI : LL (L ++ seg1 ++ [SData i t bs]) i = Some (zlen bs)).
    { rewrite app_assoc, lplay_app. cbn. exact L1. }
    split; [|split; [|split; [exact PI|split; [exact PO|split; [|split; [exact V6|split; [intros X Y; apply V7; [apply (W_call _ _ H _ _ Hv X Y)|exact X]|exact V3]]]]]]].
    + constructor; cbn [w_file w_off w_vars w_init w_flags].
      * rewrite app_assoc. apply enc_app. exists off1. split.
        -- pose proof (mr4 t). apply enc_put0; [|lia]. apply enc_put0; [auto|lia].
        -- cbn [enc enc1 next_off]. split; [|reflexivity]. pose proof (mr4 t). split.
           ++ apply bytes_put_other; [apply bytes_put|]. left. rewrite zlen_hdr. lia.
           ++ apply bytes_put.
      * unfold wnames; cbn. rewrite map_upd; [apply (W_nodup _ _ H)|].
        rewrite nth_error_map, Hv; cbn; congruence.
      * unfold wtys; cbn. rewrite map_upd; [|rewrite nth_error_map, Hv; cbn; congruence].
        rewrite app_assoc. apply wf_app. split; [exact W1|]. cbn. split; auto.
      * intros j Hj. rewrite upd_length in Hj. destruct (W_dom _ _ H j Hj).
        rewrite LO, PO by lia. auto.
      * intros j u Hu. destruct (Nat.eq_dec i j) as [<-|Q].
        -- rewrite upd_same in Hu by auto. inversion Hu; subst u. right. exists bs. rewrite V3. auto with zarith.
        -- rewrite upd_other in Hu by auto. rewrite LO by auto. rewrite !(PO j) by auto. apply (W_len _ _ H _ _ Hu).
      * intros j u Hu Hc. destruct (Nat.eq_dec i j) as [<-|Q].
        -- rewrite upd_same in Hu by auto. inversion Hu; subst u. rewrite PI. auto.
        -- rewrite upd_other in Hu by auto. rewrite PO by auto. apply (W_chk _ _ H _ _ Hu Hc).
      * intros j u Hu Hc Hn'. destruct (Nat.eq_dec i j) as [<-|Q].
        -- rewrite upd_same in Hu by auto. inversion Hu; subst u. rewrite V5 in Hn' by auto. discriminate.
        -- rewrite upd_other in Hu by auto. apply (W_call _ _ H _ _ Hu Hc Hn').
    + unfold no_eor, seg1. destruct (w_len v =? zlen bs); cbn; intuition discriminate.
    + intros _. apply in_or_app. right. left. reflexivity.
  - (* nothing written *)
    unfold changed in Ech. apply orb_false_iff in Ech as [Ech E3]. apply orb_false_iff in Ech as [E4 E2].
    apply negb_false_iff in E2, E3. apply list_eqb_eq in E3.
    assert (LN : w_len v = zlen bs) by (now apply Z.eqb_eq).
    assert (Hbuf : w_buf v = PP L i) by (destruct (W_chk _ _ H _ _ Hv E4); [lia|auto]).
    assert (PI : PP L i = Some bs).
    { destruct (W_len _ _ H _ _ Hv) as [(A & _)|(b & A & B & D & F)]; [lia|].
      rewrite A in *. rewrite Hbuf in E3. cbn in E3. congruence. }
    do 3 eexists. exists []. split; [reflexivity|].
    cbn [w_name w_ty w_nocheck w_buf]. split; [reflexivity|]. split; [reflexivity|]. split; [auto|].
    rewrite app_nil_r. unfold off1, f1. rewrite E2. cbn [negb].
    split; [|split; [intros []|split; [auto|split; [intros j Hj; auto|split; [intuition congruence|split; [left; auto|split; [|reflexivity]]]]]]].
    2:{ intros _ X. rewrite X in Hbuf. congruence. }
    constructor; cbn [w_file w_off w_vars w_init w_flags]; auto.
    + unfold wnames; cbn. rewrite map_upd; [apply (W_nodup _ _ H)|].
      rewrite nth_error_map, Hv; cbn; congruence.
    + unfold wtys; cbn. rewrite map_upd; [|rewrite nth_error_map, Hv; cbn; congruence].
      apply (W_wf _ _ H).
    + intros j Hj. rewrite upd_length in Hj. apply (W_dom _ _ H); auto.
    + intros j u Hu. destruct (Nat.eq_dec i j) as [<-|Q].
      * rewrite upd_same in Hu by auto. inversion Hu; subst u. cbn. right. exists bs.
        destruct (W_len _ _ H _ _ Hv) as [(A & B & C)|(b & A & B & D & F)]; [congruence|].
        rewrite PI in A; inversion A; subst b. auto with zarith.
      * rewrite upd_other in Hu by auto. apply (W_len _ _ H _ _ Hu).
    + intros j u Hu Hc. destruct (Nat.eq_dec i j) as [<-|Q].
      * rewrite upd_same in Hu by auto. inversion Hu; subst u. cbn in *. right. congruence.
      * rewrite upd_other in Hu by auto. apply (W_chk _ _ H _ _ Hu Hc).
    + intros j u Hu Hc Hn'. destruct (Nat.eq_dec i j) as [<-|Q].
      * rewrite upd_same in Hu by auto. inversion Hu; subst u. reflexivity.
      * rewrite upd_other in Hu by auto. apply (W_call _ _ H _ _ Hu Hc Hn').
Qed.

Lemma add_views w L v : WI w L -> fnd (w_name v) (wnames w) = None ->
  (forall m, getp (wadd w v) L m = getp w L m) /\
  (forall m, m <> w_name v -> getb (wadd w v) m = getb w m) /\
  getb (wadd w v) (w_name v) = Some (w_nocheck v, w_buf v) /\
  (forall m, has (wadd w v) m = if String.eqb (w_name v) m then Some (w_ty v) else has w m) /\
  fnd (w_name v) (wnames (wadd w v)) = Some (List.length (w_vars w)) /\
  extends w (wadd w v) /\ (w_len v = 0 -> forall m, getl (wadd w v) m = getl w m).
Proof.
  intros H Hn.
  assert (F : forall m, fnd m (wnames (wadd w v)) =
     match fnd m (wnames w) with Some i => Some i
     | None => if String.eqb (w_name v) m then Some (List.length (w_vars w)) else None end).
  { intros m. unfold wnames; cbn. rewrite map_app; cbn. rewrite find_app, map_length. reflexivity. }
  assert (T1 : forall i, (i < List.length (w_vars w))%nat -> nth_error (wtys (wadd w v)) i = nth_error (wtys w) i).
  { intros i Hi. unfold wtys; cbn. rewrite map_app. apply nth_error_app1. now rewrite map_length. }
  assert (T2 : nth_error (wtys (wadd w v)) (List.length (w_vars w)) = Some (w_ty v)).
  { unfold wtys; cbn. rewrite map_app. rewrite nth_error_app2; rewrite map_length; auto. now rewrite Nat.sub_diag. }
  repeat split.
  - intros m. unfold getp. rewrite F. destruct (fnd m (wnames w)) as [i|] eqn:E.
    + now rewrite T1 by (eapply fnd_lt; eauto).
    + destruct (String.eqb (w_name v) m); auto. rewrite T2.
      destruct (W_dom _ _ H (List.length (w_vars w)) (le_n _)) as [_ ->]. reflexivity.
  - intros m Hm. unfold getb. rewrite F. destruct (fnd m (wnames w)) as [i|] eqn:E.
    + cbn. rewrite nth_error_app1; auto. eapply fnd_lt; eauto.
    + replace (String.eqb (w_name v) m) with false; auto. symmetry; apply String.eqb_neq; auto.
  - unfold getb. rewrite F, Hn, String.eqb_refl. cbn. rewrite nth_error_app2 by auto. now rewrite Nat.sub_diag.
  - intros m. unfold has. rewrite F. destruct (fnd m (wnames w)) as [i|] eqn:E.
    + rewrite T1 by (eapply fnd_lt; eauto). destruct (String.eqb (w_name v) m) eqn:Q; auto.
      apply String.eqb_eq in Q; subst m. congruence.
    + destruct (String.eqb (w_name v) m) eqn:Q; auto.
  - rewrite F, Hn, String.eqb_refl. reflexivity.
  - exists [w_name v], [w_ty v]. unfold wnames, wtys; cbn. now rewrite !map_app.
  - intros Hl m. unfold getl. rewrite F. destruct (fnd m (wnames w)) as [i|] eqn:E.
    + cbn. rewrite nth_error_app1; auto. eapply fnd_lt; eauto.
    + destruct (String.eqb (w_name v) m); auto. cbn. rewrite nth_error_app2 by auto. now rewrite Nat.sub_diag.
Qed.

Definition put_post w L t n bs w' seg : Prop :=
  uvputvr w t n bs = Ok w' /\ WI w' (L ++ seg) /\ no_eor seg /\ extends w w' /\
  w_init w' = w_init w /\ w_flags w' = w_flags w /\
  (forall m, getp w' (L ++ seg) m = if String.eqb n m then Some (t, bs) else getp w L m) /\
  (forall m, m <> n -> getb w' m = getb w m) /\
  (forall m, has w' m = if String.eqb n m then Some t else has w m) /\
  (forall b, getb w n = Some (true, b) -> getb w' n = Some (true, b)) /\
  ((exists b, getb w n = Some (true, b)) \/ getp w L n <> Some (t, bs) ->
     exists i, fnd n (wnames w') = Some i /\ In (SData i t bs) seg) /\
  (forall f b, getb w n = Some (f, b) -> exists f' b', getb w' n = Some (f', b') /\ (b' = b \/ b' = Some bs)) /\
  (getb w n = None \/ getb w n = Some (false, None) -> exists f', getb w' n = Some (f', Some bs)) /\
  (forall m, m <> n -> getl w' m = getl w m) /\ getl w' n = zlen bs.

Lemma put_name_old w L t n bs i : WI w L -> fnd n (wnames w) = Some i -> has w n = Some t ->
  0 < zlen bs < 2147483648 -> zlen bs mod ext t = 0 -> exists w' seg, put_post w L t n bs w' seg.
Proof.
  intros H Hf Ht Hl Hm.
  destruct (nth_error (w_vars w) i) as [v|] eqn:Hv.
  2:{ apply nth_error_None in Hv. apply fnd_lt in Hf. lia. }
  assert (Hvt : w_ty v = t).
  { unfold has in Ht. rewrite Hf in Ht. unfold wtys in Ht. rewrite nth_error_map, Hv in Ht. cbn in Ht. congruence. }
  assert (Hvn : w_name v = n).
  { apply find_some in Hf. unfold wnames in Hf. rewrite nth_error_map, Hv in Hf. cbn in Hf. congruence. }
  destruct (put_old w L i v t n bs H Hf Hv Hvt Hl Hm) as (v' & off' & f' & seg & E & A & B & C & D & F & G & K & M & BB & BN & BL).
  set (w' := Wr (upd (w_vars w) i v') off' f' (w_init w) (w_flags w)) in *.
  assert (Hi : (i < List.length (w_vars w))%nat) by (apply nth_error_Some; congruence).
  assert (N' : wnames w' = wnames w).
  { unfold wnames; cbn. apply map_upd. rewrite nth_error_map, Hv; cbn; congruence. }
  assert (T' : wtys w' = wtys w).
  { unfold wtys; cbn. apply map_upd. rewrite nth_error_map, Hv; cbn; congruence. }
  exists w', seg.
  unfold put_post. rewrite N'.
  split; [exact E|]. split; [exact D|]. split; [exact F|].
  split; [exists [], []; now rewrite !app_nil_r, N', T'|]. split; [reflexivity|]. split; [reflexivity|].
  split; [|split; [|split; [|split; [|split; [|split; [|split; [|split]]]]]]].
  - intros m. unfold getp. rewrite N', T'. destruct (String.eqb n m) eqn:Q.
    + apply String.eqb_eq in Q; subst m. rewrite Hf, G. unfold wtys. rewrite nth_error_map, Hv. cbn. congruence.
    + apply String.eqb_neq in Q. destruct (fnd m (wnames w)) as [j|] eqn:Fj; auto.
      rewrite (K j); auto. intros ->. apply Q. eapply fnd_inj; eauto.
  - intros m Hmn. unfold getb. rewrite N'. destruct (fnd m (wnames w)) as [j|] eqn:Fj; auto. cbn.
    rewrite upd_other; auto. intros ->. apply Hmn. eapply fnd_inj; eauto.
  - intros m. unfold has. rewrite N', T'. destruct (String.eqb n m) eqn:Q; auto.
    apply String.eqb_eq in Q; subst m. exact Ht.
  - intros b. unfold getb. rewrite N', Hf, Hv. cbn. rewrite upd_same by auto. cbn. intros X; inversion X; subst.
    destruct C as [C1 C2]; auto. now rewrite C1, C2.
  - intros X. exists i. split; auto. apply M. destruct X as [(b & X)|X].
    + left. unfold getb in X. rewrite Hf, Hv in X. cbn in X. congruence.
    + right. intros Y. apply X. unfold getp. rewrite Hf, Y. unfold wtys. rewrite nth_error_map, Hv. cbn. congruence.
  - intros f b. unfold getb. rewrite N', Hf, Hv. cbn. rewrite upd_same by auto. cbn. intros X; inversion X; subst.
    exists (w_nocheck v'), (w_buf v'). auto.
  - unfold getb. rewrite N', Hf, Hv. cbn. rewrite upd_same by auto. cbn. intros [X|X]; [discriminate|].
    exists (w_nocheck v'). rewrite BN; auto; congruence.
  - intros m Hmn. unfold getl. rewrite N'. destruct (fnd m (wnames w)) as [j|] eqn:Fj; auto. cbn.
    rewrite upd_other; auto. intros ->. apply Hmn. eapply fnd_inj; eauto.
  - unfold getl. rewrite N', Hf. cbn. rewrite upd_same by auto. exact BL.
Qed.

Lemma put_name w L t n bs : WI w L -> (String.length n <= 8)%nat -> has w n = None \/ has w n = Some t ->
  0 < zlen bs < 2147483648 -> zlen bs mod ext t = 0 -> exists w' seg, put_post w L t n bs w' seg.
Proof.
  intros H Hn Ht Hl Hm. destruct (fnd n (wnames w)) as [i|] eqn:Hf.
  - destruct (put_name_old w L t n bs i) as (w' & seg & P); [auto|auto| |auto|auto|exists w', seg; exact P].
    destruct Ht as [Ht|Ht]; auto.
    unfold has in Ht. rewrite Hf in Ht. apply nth_error_None in Ht. apply fnd_lt in Hf.
    unfold wtys in Ht. rewrite map_length in Ht. lia.
  - set (v := WV n t 0 None false 0).
    destruct (add_views w L v H Hf) as (A & B & C & D & E & F & GL).
    assert (HA : WI (wadd w v) L) by (apply WI_add; auto).
    destruct (put_name_old (wadd w v) L t n bs (List.length (w_vars w))) as (w' & seg & P); auto.
    { rewrite D. cbn. now rewrite String.eqb_refl. }
    exists w', seg. unfold put_post in *. destruct P as (P1 & P2 & P3 & P4 & P5 & P6 & P7 & P8 & P9 & P10 & P11 & P12 & P13 & P14 & P15).
    split; [rewrite uvputvr_new by auto; rewrite div_pos_ext by (auto; lia); exact P1|].
    split; [auto|]. split; [auto|]. split; [eapply extends_trans; eauto|]. split; [auto|]. split; [auto|].
    split; [|split; [|split; [|split; [|split; [|split; [|split; [|split]]]]]]].
    + intros m. rewrite P7. now rewrite A.
    + intros m Hmn. rewrite P8 by auto. apply B. exact Hmn.
    + intros m. rewrite P9, D. cbn. destruct (String.eqb n m); auto.
    + intros b. unfold getb. rewrite Hf. discriminate.
    + intros [(b & X)|X]; [unfold getb in X; rewrite Hf in X; discriminate|].
      apply P11. right. now rewrite A.
    + intros f b. unfold getb. rewrite Hf. discriminate.
    + intros _. apply P13. right. exact C.
    + intros m Hmn. rewrite P14 by auto. apply GL. reflexivity.
    + exact P15.
Qed.

(* ---------- the first call of uvwrite ---------- *)
Lemma setv_w w L i v nc b : WI w L -> nth_error (w_vars w) i = Some v -> nc = true ->
  let w' := Wr (setv (w_vars w) i nc b) (w_off w) (w_file w) (w_init w) (w_flags w) in
  WI w' L /\ wnames w' = wnames w /\ wtys w' = wtys w /\
  (forall m, getp w' L m = getp w L m) /\ (forall m, has w' m = has w m) /\
  (forall m, m <> w_name v -> getb w' m = getb w m) /\ getb w' (w_name v) = Some (true, b) /\
  (forall m, getl w' m = getl w m).
Proof.
  intros H Hv -> w'. unfold w', setv. rewrite Hv.
  set (v' := WV (w_name v) (w_ty v) (w_len v) b true (w_call v)).
  set (w1 := Wr (upd (w_vars w) i v') (w_off w) (w_file w) (w_init w) (w_flags w)).
  assert (Hi : (i < List.length (w_vars w))%nat) by (apply nth_error_Some; congruence).
  assert (N' : wnames w1 = wnames w).
  { unfold wnames; cbn. apply map_upd. rewrite nth_error_map, Hv; cbn; congruence. }
  assert (T' : wtys w1 = wtys w).
  { unfold wtys; cbn. apply map_upd. rewrite nth_error_map, Hv; cbn; congruence. }
  assert (Hf : fnd (w_name v) (wnames w) = Some i).
  { apply find_nth; [apply (W_nodup _ _ H)|]. unfold wnames. now rewrite nth_error_map, Hv. }
  split; [|split; [auto|split; [auto|split; [|split; [|split; [|split]]]]]].
  - constructor.
    + apply (W_enc _ _ H).
    + rewrite N'. apply (W_nodup _ _ H).
    + rewrite T'. apply (W_wf _ _ H).
    + intros j Hj. cbn in Hj. rewrite upd_length in Hj. apply (W_dom _ _ H); auto.
    + intros j u Hu. cbn in Hu. destruct (Nat.eq_dec i j) as [<-|Q].
      * rewrite upd_same in Hu by auto. inversion Hu; subst u. cbn. apply (W_len _ _ H _ _ Hv).
      * rewrite upd_other in Hu by auto. apply (W_len _ _ H _ _ Hu).
    + intros j u Hu Hc. cbn in Hu. destruct (Nat.eq_dec i j) as [<-|Q].
      * rewrite upd_same in Hu by auto. inversion Hu; subst u. discriminate.
      * rewrite upd_other in Hu by auto. apply (W_chk _ _ H _ _ Hu Hc).
    + intros j u Hu Hc. cbn in Hu. destruct (Nat.eq_dec i j) as [<-|Q].
      * rewrite upd_same in Hu by auto. inversion Hu; subst u. discriminate.
      * rewrite upd_other in Hu by auto. apply (W_call _ _ H _ _ Hu Hc).
  - intros m. unfold getp. now rewrite N', T'.
  - intros m. unfold has. now rewrite N', T'.
  - intros m Hmn. unfold getb. rewrite N'. destruct (fnd m (wnames w)) as [j|] eqn:Fj; auto. cbn.
    rewrite upd_other; auto. intros ->. apply Hmn. eapply fnd_inj; eauto.
  - unfold getb. rewrite N', Hf. cbn. now rewrite upd_same by auto.
  - intros m. unfold getl. rewrite N'. destruct (fnd m (wnames w)) as [j|] eqn:Fj; auto. cbn.
    destruct (Nat.eq_dec i j) as [<-|Q]; [rewrite upd_same by auto; now rewrite Hv|now rewrite upd_other by auto].
Qed.

Definition withvs (w : writer) (vs : list wvar) : writer :=
  Wr vs (w_off w) (w_file w) (w_init w) (w_flags w).

(* mkvar followed by setting NOCHECK and a buffer; used for corr and the preamble *)
Lemma mk_views w L n t (nb : option (list Z) -> option (list Z)) :
  WI w L -> (String.length n <= 8)%nat -> has w n = None \/ has w n = Some t ->
  exists i v vs, mkvar (w_vars w) n t = Ok (i, vs) /\ nth_error vs i = Some v /\
    let w' := withvs w (setv vs i true (nb (w_buf v))) in
    WI w' L /\ extends w w' /\ (forall m, getp w' L m = getp w L m) /\
    (forall m, has w' m = if String.eqb n m then Some t else has w m) /\
    (forall m, m <> n -> getb w' m = getb w m) /\
    getb w' n = Some (true, nb (match getb w n with Some (_, b) => b | None => None end)) /\
    (forall m, getl w' m = getl w m).
Proof.
  intros H Hn Ht. unfold mkvar. rewrite fnd_w. destruct (fnd n (wnames w)) as [i|] eqn:Hf.
  - destruct (nth_error (w_vars w) i) as [v|] eqn:Hv.
    2:{ apply nth_error_None in Hv. apply fnd_lt in Hf. lia. }
    assert (Hvn : w_name v = n).
    { apply find_some in Hf. unfold wnames in Hf. rewrite nth_error_map, Hv in Hf. cbn in Hf. congruence. }
    exists i, v, (w_vars w). split; [reflexivity|]. split; [exact Hv|]. cbn zeta.
    destruct (setv_w w L i v true (nb (w_buf v)) H Hv eq_refl) as (A & B & C & D & E & F & G & GL).
    fold (withvs w (setv (w_vars w) i true (nb (w_buf v)))) in *.
    split; [auto|]. split; [exists [], []; now rewrite !app_nil_r|]. split; [auto|].
    split; [|split; [|split; [|exact GL]]].
    + intros m. rewrite E. destruct (String.eqb n m) eqn:Q; auto. apply String.eqb_eq in Q; subst m.
      destruct Ht as [Ht|Ht]; auto. unfold has in Ht. rewrite Hf in Ht. apply nth_error_None in Ht.
      apply fnd_lt in Hf. unfold wtys in Ht. rewrite map_length in Ht. lia.
    + intros m Hm. apply F. congruence.
    + rewrite <- Hvn at 1. rewrite G. unfold getb. rewrite Hf, Hv. reflexivity.
  - replace (8 <? String.length n)%nat with false by (symmetry; apply Nat.ltb_ge; auto).
    set (v := WV n t 0 None false 0).
    destruct (add_views w L v H Hf) as (A & B & C & D & E & F & GL).
    assert (HA : WI (wadd w v) L) by (apply WI_add; auto).
    assert (Hv : nth_error (w_vars w ++ [v]) (List.length (w_vars w)) = Some v).
    { rewrite nth_error_app2 by auto. now rewrite Nat.sub_diag. }
    exists (List.length (w_vars w)), v, (w_vars w ++ [v]).
    split; [reflexivity|]. split; [exact Hv|]. cbn zeta.
    destruct (setv_w (wadd w v) L (List.length (w_vars w)) v true (nb (w_buf v)) HA Hv eq_refl)
      as (A' & B' & C' & D' & E' & F' & G' & GL').
    change (Wr (setv (w_vars (wadd w v)) (List.length (w_vars w)) true (nb (w_buf v))) (w_off (wadd w v))
             (w_file (wadd w v)) (w_init (wadd w v)) (w_flags (wadd w v)))
      with (withvs w (setv (w_vars w ++ [v]) (List.length (w_vars w)) true (nb (w_buf v)))) in *.
    split; [auto|]. split.
    { eapply extends_trans; [exact F|]. exists [], []. now rewrite !app_nil_r. }
    split; [intros m; rewrite D'; apply A|]. split; [|split; [|split]].
    + intros m. rewrite E', D. reflexivity.
    + intros m Hm. rewrite F' by auto. apply B. auto.
    + change n with (w_name v) at 1. rewrite G'. unfold getb. rewrite Hf. reflexivity.
    + intros m. transitivity (getl (wadd w v) m); [apply GL'|now apply GL].
Qed.

Lemma set_buf_views w L n b : WI w L -> (exists b0, getb w n = Some (true, b0)) ->
  let w' := set_buf w n b in
  WI w' L /\ extends w w' /\ (forall m, getp w' L m = getp w L m) /\ (forall m, has w' m = has w m) /\
  (forall m, m <> n -> getb w' m = getb w m) /\ getb w' n = Some (true, Some b) /\
  w_init w' = w_init w /\ w_flags w' = w_flags w /\ (forall m, getl w' m = getl w m).
Proof.
  intros H (b0 & Hb) w'. unfold w', set_buf. rewrite fnd_w.
  unfold getb in Hb. destruct (fnd n (wnames w)) as [i|] eqn:Hf; [|discriminate].
  destruct (nth_error (w_vars w) i) as [v|] eqn:Hv; [|discriminate]. cbn in Hb.
  assert (Hc : w_nocheck v = true) by congruence.
  assert (Hvn : w_name v = n).
  { apply find_some in Hf. unfold wnames in Hf. rewrite nth_error_map, Hv in Hf. cbn in Hf. congruence. }
  destruct (setv_w w L i v (w_nocheck v) (Some b) H Hv Hc) as (A & B & C & D & E & F & G & GL).
  split; [auto|]. split; [exists [], []; now rewrite !app_nil_r|]. split; [auto|]. split; [auto|].
  split; [intros m Hm; apply F; congruence|]. split; [rewrite <- Hvn; exact G|]. auto.
Qed.

Lemma buf_of_getb w n b : getb w n = Some (true, Some b) -> buf_of w n = b.
Proof.
  unfold getb, buf_of. rewrite fnd_w. destruct (fnd n (wnames w)); [|discriminate].
  destruct (nth_error (w_vars w) n0); [|discriminate]. cbn. intros E; inversion E as [[E1 E2]]. now rewrite E2.
Qed.

Lemma corr_len_getl w : corr_len w = getl w "corr".
Proof. unfold corr_len, getl. now rewrite fnd_w. Qed.
