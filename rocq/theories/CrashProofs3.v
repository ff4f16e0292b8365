(* Proofs about CrashModel: opening what an interrupted writer left. *)
From Verif Require Import Base PackModel PackSpec PackProofs.
From Verif Require Import HioModel TreeModel TreeProofs TreeProofs2.
From Verif Require Import TreeSpec.
From Coq Require Import String Ascii.
From Verif Require Import UvModel UvSpec HdrModel CrashModel CrashSpec CrashProofs CrashProofs2.
Ltac Zify.zify_post_hook ::= idtac.
Open Scope Z_scope.
Open Scope list_scope.
Local Notation length := List.length.

(* ---------- the stream never has bytes beyond its offset ---------- *)
Definition within (w : writer) : Prop := 0 <= f_size (w_file w) <= w_off w.

Lemma mroundup_ge a b : 0 < b -> a <= UvModel.mroundup a b.
Proof.
  intro H. unfold UvModel.mroundup. pose proof (Z.div_mod (a + b - 1) b ltac:(lia)) as D.
  pose proof (Z.mod_pos_bound (a + b - 1) b H). lia.
Qed.

Lemma ok_inj {A} (a b : A) : Ok a = Ok b -> a = b.
Proof. congruence. Qed.

Lemma uvputvr_within w t n bs w' : uvputvr w t n bs = Ok w' -> within w -> within w'.
Proof.
  unfold uvputvr. destruct (UvModel.zlen bs / ext t <=? 0); [intro H; inversion H; subst; auto|].
  destruct (mkvar (w_vars w) n t) as [[i vs]|] eqn:E; [|discriminate].
  destruct (nth_error vs i) as [v|] eqn:E1; [|discriminate].
  destruct (negb (ty_eqb (w_ty v) t)); [discriminate|]. cbv zeta.
  set (b := negb (w_len v =? UvModel.zlen bs)).
  set (o1 := if b then w_off w + 8 else w_off w). set (f1 := if b then fput _ _ _ else w_file w).
  intros H [W1 W2].
  assert (HW : 0 <= f_size f1 <= o1).
  { subst f1 o1. destruct b; [|split; assumption]. cbn [f_size fput]. change (UvModel.zlen (hdr VAR_SIZE (Z.of_nat i))) with 4.
    change (UvModel.zlen (be4 (UvModel.zlen bs))) with 4. lia. }
  clearbody f1 o1. clear W1 W2. destruct HW as [W1 W2].
  assert (HL : 0 <= UvModel.zlen bs) by (unfold UvModel.zlen; lia).
  destruct (w_nocheck v || _ || _); apply ok_inj in H; subst w'; unfold within; cbn [w_off w_file].
  - pose proof (mroundup_ge 4 (ext t) (ext_pos t)) as M1.
    set (o2 := o1 + UvModel.mroundup 4 (ext t)) in *.
    pose proof (mroundup_ge (o2 + UvModel.zlen bs) 8 ltac:(lia)) as M2.
    cbn [f_size fput]. change (UvModel.zlen (hdr VAR_DATA (Z.of_nat i))) with 4. unfold o2 in *. clear -M1 M2 W1 W2 HL. lia.
  - lia.
Qed.

Lemma set_buf_within w n b : within w -> within (set_buf w n b).
Proof.
  intro H. unfold set_buf. destruct (find_name w_name n (w_vars w)) as [i|]; [|exact H].
  destruct (nth_error (w_vars w) i); exact H.
Qed.

Section Host.
Variable feq8 feq4 : list Z -> list Z -> bool.
Variable add1000 addf1000 : list Z -> list Z.
Variable junk : list Z.
Variable corrty : ty.

Lemma uvwrite_within w r w' : uvwrite feq8 feq4 add1000 addf1000 junk corrty w r = Ok w' -> within w -> within w'.
Proof.
  intros H HO. unfold uvwrite in H.
  apply bind_ok in H. destruct H as (w1 & E1 & H).
  assert (V1 : within w1).
  { unfold uvwrite_init in E1. destruct (w_init w); [inversion E1; subst; exact HO|].
    apply bind_ok in E1. destruct E1 as (x1 & _ & E1). cbv zeta in E1.
    apply bind_ok in E1. destruct E1 as (x2 & _ & E1).
    apply bind_ok in E1. destruct E1 as (x3 & _ & E1).
    apply bind_ok in E1. destruct E1 as (x4 & _ & E1). inversion E1; subst. exact HO. }
  clear E1 HO.
  apply bind_ok in H. destruct H as (w2 & E2 & H).
  assert (V2 : within w2).
  { destruct (r_n r =? numchan corrty (corr_len w1)); [inversion E2; subst; exact V1|].
    eapply uvputvr_within; [exact E2|exact V1]. }
  clear E2 V1. cbv zeta in H.
  set (w2' := Wr (w_vars w2) (w_off w2) (w_file w2) (w_init w2) (w_flags w2 ++ r_fl r)) in H.
  assert (V2' : within w2') by exact V2. clearbody w2'. clear V2.
  apply bind_ok in H. destruct H as (w3 & E3 & H).
  assert (V3 : within w3).
  { destruct corrty; try (inversion E3; subst; exact V2'). eapply uvputvr_within; [exact E3|exact V2']. }
  clear E3 V2'. apply bind_ok in H. destruct H as (w4 & E4 & H).
  assert (V4 : within w4) by (eapply uvputvr_within; [exact E4|exact V3]).
  clear E4 V3. apply bind_ok in H. destruct H as (w5 & E5 & H).
  assert (V5 : within w5).
  { destruct (negb _ || _ || _); [|inversion E5; subst; exact V4].
    apply bind_ok in E5. destruct E5 as (x & X1 & X2). inversion X2; subst. apply set_buf_within.
    eapply uvputvr_within; [exact X1|exact V4]. }
  clear E5 V4. apply bind_ok in H. destruct H as (w6 & E6 & H).
  assert (V6 : within w6).
  { destruct (negb _) in E6; [|inversion E6; subst; exact V5].
    apply bind_ok in E6. destruct E6 as (x & X1 & X2). inversion X2; subst. apply set_buf_within.
    eapply uvputvr_within; [exact X1|exact V5]. }
  clear E6 V5. apply bind_ok in H. destruct H as (w7 & E7 & H).
  assert (V7 : within w7).
  { destruct (negb _) in E7; [|inversion E7; subst; exact V6].
    apply bind_ok in E7. destruct E7 as (x & X1 & X2). inversion X2; subst. apply set_buf_within.
    eapply uvputvr_within; [exact X1|exact V6]. }
  inversion H; subst. destruct V7 as [A1 A2]. unfold within, uvnext. cbn [w_off w_file f_size fput].
  change (UvModel.zlen (hdr VAR_EOR 0)) with 4. lia.
Qed.

Lemma urun_within ops : forall w w', urun feq8 feq4 add1000 addf1000 junk corrty w ops = Ok w' -> within w -> within w'.
Proof.
  induction ops as [|o ops IH]; intros w w' H HO; cbn [urun] in H; [inversion H; subst; exact HO|].
  apply bind_ok in H. destruct H as (w1 & E & H). eapply (IH w1 w'); [exact H|].
  destruct o as [n t bs|r]; cbn [ustep] in E; [eapply uvputvr_within|eapply uvwrite_within]; eauto.
Qed.
End Host.

(* ---------- the stream as a file ---------- *)
Lemma stream_len w : 0 <= f_size (w_file w) -> TreeModel.zlen (stream w) = f_size (w_file w).
Proof. intro H. unfold TreeModel.zlen, stream. rewrite map_length, seq_length. lia. Qed.

Lemma stream_at w k : (k < length (stream w))%nat -> nth k (stream w) 0 = f_at (w_file w) (Z.of_nat k).
Proof.
  unfold stream. rewrite map_length, seq_length. intro H.
  set (g := fun k : nat => f_at (w_file w) (Z.of_nat k)).
  rewrite nth_indep with (d' := g O) by (rewrite map_length, seq_length; exact H).
  rewrite map_nth, seq_nth by exact H. reflexivity.
Qed.

Lemma cut_stream w c : 0 <= f_size (w_file w) -> cut (w_file w) (file_of (firstn c (stream w))).
Proof.
  intro H. pose proof (stream_len w H) as HL. unfold TreeModel.zlen in HL. split; cbn [file_of f_size f_at]; unfold TreeModel.zlen.
  - rewrite firstn_length. lia.
  - intros p Hp. rewrite firstn_length in Hp.
    replace (nth (Z.to_nat p) (firstn c (stream w)) 0) with (nth (Z.to_nat p) (stream w) 0).
    + rewrite stream_at by lia. f_equal. lia.
    + rewrite <- (firstn_skipn c (stream w)) at 1. rewrite app_nth1; [reflexivity|]. rewrite firstn_length. lia.
Qed.

Lemma same_stream w : 0 <= f_size (w_file w) -> same_bytes (w_file w) (file_of (stream w)).
Proof.
  intro H. pose proof (stream_len w H) as HL. apply same_of; cbn [file_of f_size f_at]; [exact HL|].
  intros p Hp. unfold TreeModel.zlen in Hp. rewrite stream_at by lia. f_equal. lia.
Qed.

Lemma good_open w : good (uv_open w).
Proof. split; [|cbn; lia]. unfold flens, uv_open. cbn [rd_vars]. apply Forall_forall. intros v Hv. apply in_map_iff in Hv.
  destruct Hv as [x [<- _]]. cbn [v_flen]. lia. Qed.

(* ---------- reading ---------- *)
Lemma reads_len nsize k r : length (reads nsize k r) = k.
Proof. revert r. induction k; intro r; cbn [reads length]; auto. Qed.

Lemma no_vars nsize k g m fl : k <> O ->
  exists o, nth_error (reads nsize k (Rd [] 0 g m 0 0 fl 0 false)) 0 = Some o /\ (snd o = RdEof \/ snd o = RdErr).
Proof. destruct k; [congruence|]. intros _. cbn [reads nth_error]. eexists. split; [reflexivity|]. right. reflexivity. Qed.

Section Seen.
Variable feq8 feq4 : list Z -> list Z -> bool.

Lemma seen_same d o o' : same_out o o' -> seen feq8 feq4 d (uvgetvr (fst o)) (snd o) -> seen feq8 feq4 d (uvgetvr (fst o')) (snd o').
Proof.
  intros [H1 H2] (r' & E & S & V). exists r'. split; [now rewrite <- H1|]. split; [exact S|].
  intros n t b L. destruct (V n t b L) as (A & B & C & D). rewrite <- H2. auto.
Qed.

Lemma Forall2_seen ds outs outs' : Forall2 (fun d o => seen feq8 feq4 d (uvgetvr (fst o)) (snd o)) ds outs ->
  Forall2 same_out outs outs' -> Forall2 (fun d o => seen feq8 feq4 d (uvgetvr (fst o)) (snd o)) ds outs'.
Proof.
  intro H. revert outs'. induction H; intros outs' H'; inversion H'; subst; constructor; auto.
  eapply seen_same; eauto.
Qed.

Lemma Forall2_firstn {A B} (P : A -> B -> Prop) j l l' : Forall2 P l l' -> Forall2 P (firstn j l) (firstn j l').
Proof. intro H. revert j. induction H; intros [|j]; cbn [firstn]; constructor; auto. Qed.

Lemma Forall2_len {A B} (P : A -> B -> Prop) l l' : Forall2 P l l' -> length l = length l'.
Proof. induction 1; cbn [length]; auto. Qed.

Lemma Forall2_nth {A B} (P : A -> B -> Prop) l l' i x : Forall2 P l l' -> nth_error l i = Some x ->
  exists y, nth_error l' i = Some y /\ P x y.
Proof. intro H. revert i. induction H; intros [|i] E; cbn in *; try discriminate; [inversion E; subst; eauto|auto]. Qed.

Lemma prefix_of_cut nsize ds g m r : reads_all feq8 feq4 ds (reads nsize (S (length ds)) r) ->
  cut (rd_file r) g -> m <= rd_max r -> good r ->
  reads_prefix feq8 feq4 ds (reads nsize (S (length ds)) (onto g m r)).
Proof.
  intros (out & last & E & HF) HC HM HG. pose proof (Forall2_len _ _ _ HF) as HL.
  destruct (reads_cut g m nsize (S (length ds)) r HC HM HG) as (j & J1 & J2 & J3). rewrite E in J2.
  destruct (Nat.eq_dec j (S (length ds))) as [Ej|Ej].
  - subst j. exists (length ds). split; [lia|].
    rewrite firstn_all2 in J2 by (rewrite app_length; cbn [length]; lia).
    rewrite (firstn_all2 (reads nsize (S (length ds)) (onto g m r))) in J2 by (rewrite reads_len; lia).
    split.
    + rewrite firstn_all. eapply Forall2_seen; [exact HF|].
      replace out with (firstn (length ds) (out ++ [(last, RdEof)])).
      * apply Forall2_firstn. exact J2.
      * rewrite HL. rewrite firstn_app, firstn_all, Nat.sub_diag. cbn [firstn]. apply app_nil_r.
    + destruct (Forall2_nth _ _ _ (length ds) (last, RdEof) J2) as (y & Y1 & Y2).
      * rewrite HL, nth_error_app2, Nat.sub_diag by lia. reflexivity.
      * exists y. split; [exact Y1|]. left. destruct Y2 as [Y2 _]. cbn [snd] in Y2. now rewrite <- Y2.
  - exists j. split; [lia|]. split; [|destruct J3 as [J3|J3]; [lia|exact J3]].
    rewrite firstn_app in J2. replace (j - length out)%nat with O in J2 by lia. cbn [firstn] in J2. rewrite app_nil_r in J2.
    eapply Forall2_seen; [|exact J2]. apply Forall2_firstn. exact HF.
Qed.

Lemma all_of_same nsize ds g r : reads_all feq8 feq4 ds (reads nsize (S (length ds)) r) ->
  same_bytes (rd_file r) g -> good r ->
  reads_all feq8 feq4 ds (reads nsize (S (length ds)) (onto g (rd_max r) r)).
Proof.
  intros (out & last & E & HF) HS HG.
  pose proof (reads_same g nsize (S (length ds)) r HS HG) as H. rewrite E in H.
  apply Forall2_app_inv_l in H. destruct H as (o1 & o2 & H1 & H2 & H3). rewrite H3.
  inversion H2 as [|? y ? ? HH HT]; subst. inversion HT; subst. destruct y as [q x]. destruct HH as [HH _]. cbn [snd] in HH. subst x.
  exists o1, q. split; [reflexivity|]. eapply Forall2_seen; eauto.
Qed.

Lemma all_prefix ds outs : reads_all feq8 feq4 ds outs -> reads_prefix feq8 feq4 ds outs.
Proof.
  intros (out & last & -> & HF). pose proof (Forall2_len _ _ _ HF) as HL. exists (length ds). split; [lia|].
  rewrite firstn_all, HL, firstn_app, firstn_all, Nat.sub_diag. cbn [firstn]. rewrite app_nil_r. split; [exact HF|].
  exists (last, RdEof). split; [|left; reflexivity]. rewrite nth_error_app2, Nat.sub_diag by lia. reflexivity.
Qed.
End Seen.

(* ---------- the items ---------- *)
Lemma insert_len D k v : (length (insert D k v) <= S (length D))%nat.
Proof. cbn [insert length]. pose proof (remove_length D k). lia. Qed.

Definition legal_item (x : name * list Z) : Prop := legal_name (fst x) /\ legal_data (snd x).

Lemma sets_spec l : forall t D, TI t D -> Forall legal_item l -> (length D + length l < 1000)%nat ->
  exists D', TI (sets l t) D' /\ (length D' <= length D + length l)%nat /\
    forall n, ~ In n (map fst l) -> lookup D' n = lookup D n.
Proof.
  induction l as [|[n d] l IH]; intros t D HT HF HL.
  { exists D. split; [exact HT|]. cbn [length]. split; [lia|reflexivity]. }
  inversion HF as [|? ? [H1 H2] HF']; subst. cbn [length fst snd] in *. pose proof (insert_len D n d) as HI.
  destruct (IH (t_set n d t) (insert D n d)) as (D' & A1 & A2 & A3).
  - apply set_spec; auto. lia.
  - exact HF'.
  - lia.
  - exists D'. split; [exact A1|]. split; [lia|]. intros m Hm. cbn [map fst In] in Hm. rewrite A3 by tauto.
    rewrite lookup_insert. destruct (key_dec m n) as [->|]; [tauto|reflexivity].
Qed.

Lemma legal_own : legal_name VISDATA /\ legal_name VARTABLE /\ legal_name VISLEN.
Proof.
  assert (Q : forall n, (0 < length n <= 8)%nat /\ forallb (fun c => (0 <? c) && (c <? 128)) n = true /\ n <> header -> legal_name n).
  { intros n (A & B & C). split; [exact A|]. split; [|exact C]. intros c Hc. rewrite forallb_forall in B.
    specialize (B c Hc). lia. }
  split; [|split]; apply Q; (split; [cbn; lia|]); (split; [reflexivity|]); discriminate.
Qed.

Lemma at_close_spec junk gap w early late : other_items early -> other_items late ->
  vt_out (w_vars w) <> [] -> stream w <> [] ->
  exists D, TI (at_close junk gap w early late) D /\
    lookup D VISDATA = Some (stream w) /\ lookup D VISLEN = Some (wrhdl gap (w_off w)) /\
    lookup D VARTABLE = Some (vt_out (w_vars w)).
Proof.
  intros [E1 E2] [L1 L2] HV HS.
  change (@length (name * list Z) early <= 400)%nat in E1. change (@length (name * list Z) late <= 400)%nat in L1.
  destruct legal_own as (N1 & N2 & N3). unfold at_close.
  assert (LI : forall l, Forall (fun x => legal_name (fst x) /\ legal_data (snd x) /\ fst x <> VISDATA /\ fst x <> VARTABLE /\ fst x <> VISLEN) l -> Forall legal_item l).
  { intros l H. eapply Forall_impl; [|exact H]. intros x (A & B & _). split; assumption. }
  destruct (sets_spec early (t_new junk) [] (TI_new junk) (LI _ E2)) as (D1 & A1 & A2 & _); [cbn [length]; lia|]. cbn [length] in A2.
  assert (B1 : TI (t_set VARTABLE (vt_out (w_vars w)) (sets early (t_new junk))) (insert D1 VARTABLE (vt_out (w_vars w))))
    by (apply set_spec; auto; lia).
  pose proof (insert_len D1 VARTABLE (vt_out (w_vars w))) as B2.
  destruct (sets_spec late _ _ B1 (LI _ L2)) as (D2 & C1 & C2 & C3); [lia|].
  pose proof (insert_len D2 VISLEN (wrhdl gap (w_off w))) as F2.
  set (t2 := sets late _) in *. clearbody t2.
  assert (F1 : TI (t_set VISLEN (wrhdl gap (w_off w)) t2) (insert D2 VISLEN (wrhdl gap (w_off w)))).
  { apply set_spec; auto; [intros _; rewrite wrhdl_bytes; discriminate|lia]. }
  exists (insert (insert D2 VISLEN (wrhdl gap (w_off w))) VISDATA (stream w)).
  split; [apply set_spec; auto; lia|]. rewrite !lookup_insert.
  split; [destruct (key_dec VISDATA VISDATA); [reflexivity|congruence]|].
  split; [destruct (key_dec VISLEN VISDATA) as [E|]; [discriminate E|]; destruct (key_dec VISLEN VISLEN); [reflexivity|congruence]|].
  destruct (key_dec VARTABLE VISDATA) as [E|]; [discriminate E|]. destruct (key_dec VARTABLE VISLEN) as [E|]; [discriminate E|].
  rewrite C3.
  - rewrite lookup_insert. destruct (key_dec VARTABLE VARTABLE); [reflexivity|congruence].
  - intro X. apply in_map_iff in X. destruct X as (x & X1 & X2). rewrite Forall_forall in L2. specialize (L2 x X2). tauto.
Qed.

Lemma get_files n l m f s K F : file_find n K = file_find n F ->
  snd (t_get n (Tree l m f s K)) = snd (t_get n (Tree l m f s F)).
Proof. intro H. unfold t_get. cbn [t_items t_files]. destruct (find n l); [destruct (_ && _)|]; cbn [snd]; auto. Qed.

Lemma open_flushed junk junk' t t1 D K : TI t D -> t_flush junk t = Some t1 ->
  (forall n, file_find n K = file_find n (t_files t1)) ->
  exists t2, t_open junk' (t_hfile t1) (t_hsize t1) K = Some t2 /\ forall n, snd (t_get n t2) = lookup D n.
Proof.
  intros HT HF HK. destruct (flush_spec junk t D HT) as (t1' & E1 & T1 & M1 & _). rewrite E1 in HF. inversion HF; subst t1'.
  destruct (reopen_spec junk' t1 D T1) as (t2 & E2 & T2). unfold t_reopen, t_flush in E2. rewrite M1 in E2.
  unfold t_open in *. destruct (read_cache _ _ _ _ _) as [l|]; [|discriminate]. inversion E2; subst t2.
  eexists. split; [reflexivity|]. intro n. rewrite (get_files n _ _ _ _ _ (t_files t1) (HK n)).
  rewrite (get_spec _ _ n T2). reflexivity.
Qed.

Lemma open_empty junk f K : t_open junk f 0 K = Some (Tree [] false f 0 K).
Proof. reflexivity. Qed.

(* ---------- the directory while the writer runs ---------- *)
Definition step_ok (w : writer) (e : eff) : Prop :=
  match e with
  | FHeader _ n => n = 0
  | FFile n d => n <> VISLEN /\ (n = VARTABLE -> d = [] \/ d = vt_out (w_vars w)) /\
                 (n = VISDATA -> exists c, d = firstn c (stream w))
  end.

Definition part (w : writer) (k : disk) : Prop :=
  (k_header k = None \/ exists f, k_header k = Some (f, 0)) /\
  file_find VISLEN (k_files k) = None /\
  (forall d, file_find VARTABLE (k_files k) = Some d -> d = [] \/ d = vt_out (w_vars w)) /\
  (forall d, file_find VISDATA (k_files k) = Some d -> exists c, d = firstn c (stream w)).

Lemma file_find_set m n d F : file_find m ((n, d) :: file_drop n F) = if name_eqb n m then Some d else file_find m F.
Proof.
  unfold file_find at 1. cbn [List.find fst].
  assert (X : name_eqb m n = name_eqb n m).
  { destruct (name_eqb n m) eqn:E; [apply name_eqb_spec in E; subst; apply name_eqb_refl|].
    destruct (name_eqb m n) eqn:E2; [|reflexivity]. apply name_eqb_spec in E2. subst. rewrite name_eqb_refl in E. discriminate. }
  rewrite X. destruct (name_eqb n m) eqn:E; [reflexivity|]. pose proof (file_find_drop n m F) as H. rewrite E in H. exact H.
Qed.

Lemma part_step w k e : part w k -> step_ok w e -> part w (apply_eff k e).
Proof.
  intros (P1 & P2 & P3 & P4) HE. destruct e as [f n|n d]; cbn [step_ok apply_eff] in *.
  - subst n. split; [right; exists f; reflexivity|]. split; [exact P2|]. split; [exact P3|exact P4].
  - destruct HE as (A1 & A2 & A3). split; [exact P1|]. cbn [k_files]. rewrite !file_find_set.
    split; [rewrite name_eqb_neq by exact A1; exact P2|]. split; intros x Hx.
    + destruct (name_eqb n VARTABLE) eqn:E; [|auto]. apply name_eqb_spec in E. inversion Hx; subst x. auto.
    + destruct (name_eqb n VISDATA) eqn:E; [|auto]. apply name_eqb_spec in E. inversion Hx; subst x. auto.
Qed.

Lemma part_run w l : forall k, part w k -> Forall (step_ok w) l -> part w (run_effs k l).
Proof.
  induction l as [|e l IH]; intros k HP HF; [exact HP|]. inversion HF; subst. cbn [run_effs fold_left].
  apply IH; [apply part_step; assumption|assumption].
Qed.

Lemma part_start w : part w (Disk None []).
Proof. split; [left; reflexivity|]. split; [reflexivity|]. split; intros d H; discriminate H. Qed.

Lemma other_step w e : other_eff w e -> step_ok w e.
Proof. destruct e; cbn; [tauto|]. intros (A & B & C). split; [exact B|]. split; [congruence|exact C]. Qed.

Lemma vt_steps w : Forall (step_ok w) (vt_effs w).
Proof.
  unfold vt_effs. cbv zeta. destruct (_ <=? _); constructor; [|constructor; [|constructor]].
  - cbn. split; [discriminate|]. split; [auto|]. discriminate.
  - cbn. split; [discriminate|]. split; [auto|]. discriminate.
Qed.

Lemma Forall_firstn {A} (P : A -> Prop) k l : Forall P l -> Forall P (firstn k l).
Proof. intro H. revert k. induction H; intros [|k]; cbn [firstn]; constructor; auto. Qed.

Lemma run_files k k' l : k_files k = k_files k' -> k_files (run_effs k l) = k_files (run_effs k' l).
Proof.
  revert k k'. induction l as [|e l IH]; intros k k' H; [exact H|]. cbn [run_effs fold_left]. apply IH.
  destruct e; cbn [apply_eff k_files]; congruence.
Qed.

Lemma run_app k a b : run_effs k (a ++ b) = run_effs (run_effs k a) b.
Proof. apply fold_left_app. Qed.

(* ---------- opening ---------- *)
Lemma open_part junk w k r feq8 feq4 nsize ds : part w k -> vt_ok (w_vars w) -> within w ->
  reads_all feq8 feq4 ds (reads nsize (S (length ds)) (uv_open w)) ->
  uv_open_disk junk k (w_flags w) = Ok r ->
  reads_prefix feq8 feq4 ds (reads nsize (S (length ds)) r).
Proof.
  intros (P1 & P2 & P3 & P4) HV [HS W2] HA H. unfold uv_open_disk in H.
  destruct (k_header k) as [[f n]|]; [|discriminate].
  destruct P1 as [P1|[f' P1]]; [discriminate|]. inversion P1; subst f' n. rewrite open_empty in H.
  unfold t_get in H. cbn [find t_items List.find t_files snd] in H.
  destruct (file_find VISDATA (k_files k)) as [vis|]; [|discriminate]. destruct (P4 vis eq_refl) as [c Hc].
  rewrite P2 in H. cbn [bind] in H.
  destruct (file_find VARTABLE (k_files k)) as [vt|]; [|discriminate].
  destruct (P3 vt eq_refl) as [->| ->].
  - inversion H; subst r. exists O. split; [lia|]. split; [constructor|]. apply no_vars. discriminate.
  - rewrite (vt_in_out _ HV) in H. cbn [bind] in H. inversion H; subst r.
    pose proof (cut_stream w c HS) as HC. rewrite <- Hc in HC.
    assert (HM : TreeModel.zlen vis <= rd_max (uv_open w)). { destruct HC as [HC _]. cbn [file_of f_size] in HC. cbn [uv_open rd_max]. lia. }
    exact (prefix_of_cut feq8 feq4 nsize ds (file_of vis) (TreeModel.zlen vis) (uv_open w) HA HC HM (good_open w)).
Qed.

Lemma open_full junk junk' gap w early late t K feq8 feq4 nsize ds :
  other_items early -> other_items late -> vt_out (w_vars w) <> [] -> stream w <> [] -> length gap = 4%nat ->
  vt_ok (w_vars w) -> within w -> w_off w < 2 ^ 63 ->
  reads_all feq8 feq4 ds (reads nsize (S (length ds)) (uv_open w)) ->
  t_flush junk (at_close junk gap w early late) = Some t ->
  (forall n, file_find n K = file_find n (t_files t)) ->
  exists r, uv_open_disk junk' (Disk (Some (t_hfile t, t_hsize t)) K) (w_flags w) = Ok r /\
    reads_all feq8 feq4 ds (reads nsize (S (length ds)) r).
Proof.
  intros HE HL HV HS HG HO [HZ W2] HB HA HF HK.
  destruct (at_close_spec junk gap w early late HE HL HV HS) as (D & T & L1 & L2 & L3).
  destruct (open_flushed junk junk' _ t D K T HF HK) as (t2 & E2 & G2).
  unfold uv_open_disk. cbn [k_header k_files]. rewrite E2, !G2, L1, L2, L3, rdhdl_wrhdl; [|exact HG|].
  2:{ unfold fits_signed. change (8 * Z.of_nat 8 - 1) with 63. lia. }
  cbn [bind]. rewrite (vt_in_out _ HO). cbn [bind]. eexists. split; [reflexivity|].
  exact (all_of_same feq8 feq4 nsize ds (file_of (stream w)) (uv_open w) HA (same_stream w HZ) (good_open w)).
Qed.
