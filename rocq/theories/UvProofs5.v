From Verif Require Import Base.
From Coq Require Import String.
From Verif Require Import UvModel UvSpec AppModel AppSpec UvProofs UvProofs2 UvProofs3 UvProofs4.
Ltac Zify.zify_post_hook ::= idtac.
Open Scope Z_scope.

Lemma d012' r : List.length (r_u r) = 8%nat -> List.length (r_v r) = 8%nat -> List.length (r_w r) = 8%nat ->
  d0 (uvw r) = r_u r /\ d1 (uvw r) = r_v r /\ d2 (uvw r) = r_w r /\ List.length (uvw r) = 24%nat.
Proof.
  intros A B C. unfold d0, d1, d2, uvw.
  repeat split.
  - rewrite firstn_app, A. cbn [Nat.sub]. rewrite firstn_O, app_nil_r. rewrite firstn_all2; auto; lia.
  - rewrite skipn_app, A. cbn [Nat.sub]. rewrite skipn_O. rewrite skipn_all2 by lia. cbn [app].
    rewrite firstn_app, B. cbn [Nat.sub]. rewrite firstn_O, app_nil_r. rewrite firstn_all2; auto; lia.
  - rewrite app_assoc. rewrite skipn_app, skipn_all2 by (rewrite app_length; lia). cbn [app].
    rewrite app_length, A, B. cbn [Nat.add Nat.sub]. rewrite skipn_O. rewrite firstn_all2; auto; lia.
  - rewrite !app_length. lia.
Qed.

Section Host.
Variable feq8 feq4 : list Z -> list Z -> bool.
Variable corrty : ty.
Hypothesis corrty_ok : corrty = TReal \/ corrty = TInt2.

Notation sameP := (sameP feq8 feq4).
Notation Match := (Match feq8 feq4 corrty).
Notation Segs := (Segs feq8 feq4 corrty).
Notation seen := (seen feq8 feq4).

(* the reader stands before the rest L of the stream, which holds ds *)
Record RS (nsize : Z) (N : list string) (tys : list ty) (r : reader) (l : lmap) (p : pmap)
          (L : list srec) (ds : list (urec * env)) : Prop := {
  Q_rel : rel N tys (rd_vars r) l p;
  Q_off : 0 <= rd_off r /\ rd_off r mod 8 = 0;
  Q_enc : enc (rd_file r) (rd_off r) L (rd_max r);
  Q_wf : wf tys l L;
  Q_few : (List.length tys <= 128)%nat;
  Q_nodup : NoDup N;
  Q_segs : Segs nsize N tys l p L ds;
  Q_call : forall i v, nth_error (rd_vars r) i = Some v -> v_call v <= rd_callno r;
  Q_flags : 0 <= rd_foff r /\
    skipn (Z.to_nat (rd_foff r)) (rd_flags r) = List.concat (map (fun d => r_fl (fst d)) ds) }.

Lemma rfind_nth N tys vs l p r i n : rel N tys vs l p -> rd_vars r = vs -> NoDup N ->
  nth_error N i = Some n -> rfind r n = nth_error vs i.
Proof.
  intros R <- ND Hi. unfold rfind. rewrite find_name_map.
  rewrite (R_names _ _ _ _ _ R). now rewrite (find_nth _ _ _ ND Hi).
Qed.

Lemma rel_nth N tys vs l p i t : rel N tys vs l p -> nth_error tys i = Some t ->
  exists v, nth_error vs i = Some v /\ v_ty v = t.
Proof. intros R H. apply nth_map with (f := v_ty). now rewrite (R_tys _ _ _ _ _ R). Qed.

(* what a matched variable looks like to the reader *)
Lemma match_var N tys r l p x e n t b : rel N tys (rd_vars r) l p -> NoDup N -> Match N tys l p x e ->
  look e n = Some (t, b) ->
  exists v c, rfind r n = Some v /\ v_ty v = t /\ v_buf v = Some c /\ v_flen v = zlen c /\ 0 < zlen c /\
    (~ preamble_name n -> c = b) /\ sameP n b c /\ (preamble_name n -> List.length c = pre_len n).
Proof.
  intros R ND M Lk. destruct (M_some _ _ _ _ _ _ _ _ _ M _ _ _ Lk) as (i & c & A1 & A2 & A3 & A4 & A5 & A6).
  destruct (rel_nth _ _ _ _ _ _ _ R A2) as (v & V1 & V2).
  exists v, c. rewrite (rfind_nth _ _ _ _ _ r i n R eq_refl ND A1).
  split; [auto|]. split; [auto|]. split; [eapply (R_buf _ _ _ _ _ R); eauto|].
  split; [eapply (R_len _ _ _ _ _ R); eauto|]. auto.
Qed.

Lemma numchan_corr n : 0 <= n -> numchan corrty (2 * ext corrty * n) = n.
Proof.
  intros. destruct corrty_ok as [-> | ->]; cbn [numchan ext].
  - replace (2 * 4 * n) with (n * (2 * 4)) by lia. apply Z.div_mul; lia.
  - replace (2 * 2 * n) with (n * (2 * 2)) by lia. apply Z.div_mul; lia.
Qed.

Lemma skipn_add {A} (l : list A) a b : skipn (a + b) l = skipn b (skipn a l).
Proof. revert l; induction a; intros l; cbn; auto. destruct l; auto. now rewrite skipn_nil. Qed.

Lemma d012_cat c : List.length c = 24%nat -> d0 c ++ d1 c ++ d2 c = c.
Proof.
  intros H. unfold d0, d1, d2.
  assert (E : firstn 8 (skipn 16 c) = skipn 16 c) by (apply firstn_all2; rewrite skipn_length; lia).
  rewrite E. change 16%nat with (8 + 8)%nat. rewrite skipn_add. now rewrite !firstn_skipn.
Qed.

Definition bumped (r : reader) (mark : Z) : reader :=
  Rd (rd_vars r) (rd_off r) (rd_file r) (rd_max r) (rd_callno r + 1) mark (rd_flags r) (rd_foff r) (rd_init r).

Lemma read_rec nsize N tys r l p L x e ds :
  RS nsize N tys r l p L ((x, e) :: ds) ->
  exists r' l' p' L' y, uvread nsize r = (r', y) /\
    RS nsize N tys r' l' p' L' ds /\ seen (x, e) (uvgetvr r') y /\
    (exists seg, L = seg ++ SEor :: L' /\ l' = lplay l seg /\ p' = pplay p seg /\ Match N tys l' p' x e /\
       forall i v', nth_error (rd_vars r') i = Some v' -> (touched seg i <-> rd_mark r' <= v_call v')) /\
    (exists y', y = RdRec y' /\ good_rec corrty nsize y') /\
    (fresh_rel (rd_vars r) l -> fresh_rel (rd_vars r') l' /\ unseen (x, e) (uvgetvr r')) /\
    rd_flags r' = rd_flags r /\ rd_file r' = rd_file r /\ rd_max r' = rd_max r.
Proof.
  intros Q. pose proof (Q_segs _ _ _ _ _ _ _ _ Q) as SG. inversion SG as [|l0 p0 seg rest x0 e0 ds0 ic NE G M IC TC SG' E1 E2 E3 E4]; subst.
  pose proof (Q_rel _ _ _ _ _ _ _ _ Q) as R. pose proof (Q_nodup _ _ _ _ _ _ _ _ Q) as ND.
  pose proof (Q_enc _ _ _ _ _ _ _ _ Q) as EN. destruct (Q_off _ _ _ _ _ _ _ _ Q) as [O1 O2].
  pose proof (Q_wf _ _ _ _ _ _ _ _ Q) as WF. pose proof (Q_few _ _ _ _ _ _ _ _ Q) as FEW.
  apply enc_app in EN as (m & EN1 & EN2). cbn [enc enc1 next_off] in EN2. destruct EN2 as [EN2 EN3].
  apply wf_app in WF as [WF1 WF2]. cbn [wf] in WF2. destruct WF2 as [_ WF2].
  destruct (enc_len _ _ _ _ O1 O2 EN1) as [EL1 EM8]. pose proof (zlen_nonneg seg).
  assert (M8 : (m + 8) mod 8 = 0) by (replace (m + 8) with (m + 1 * 8) by lia; rewrite Z.mod_add by lia; auto).
  destruct (enc_len _ (m + 8) _ _ ltac:(lia) M8 EN3) as [EL2 _]. pose proof (zlen_nonneg rest).
  set (r0 := Rd (rd_vars r) (rd_off r) (rd_file r) (rd_max r) (rd_callno r) (rd_callno r + 1)
               (rd_flags r) (rd_foff r) (rd_init r)).
  destruct (scan_seg N tys seg (scan_fuel r0) (bumped r0 (rd_callno r + 1)) (rd_off r) m l p)
    as (vs' & E & R' & F' & C'); auto.
  { cbn. lia. }
  { unfold scan_fuel. cbn. unfold zlen in *. lia. }
  set (r1 := Rd vs' (m + 8) (rd_file r) (rd_max r) (rd_callno r + 1) (rd_callno r + 1) (rd_flags r) (rd_foff r) (rd_init r)).
  change (scan_loop (scan_fuel r0) (bumped r0 (rd_callno r + 1)) (rd_off r) = ScOk r1) in E.
  assert (E0 : uv_scan r0 = ScOk r1) by exact E.
  assert (Rr1 : rel N tys (rd_vars r1) (lplay l seg) (pplay p seg)) by exact R'.
  (* the variables needed by the record *)
  destruct (match_var _ _ _ _ _ _ _ _ _ _ Rr1 ND M (M_corr _ _ _ _ _ _ _ _ _ M))
    as (vc & cc & K1 & K2 & K3 & K4 & K5 & K6 & _).
  assert (Kc : cc = r_corr x) by (apply K6; intros [X|[X|X]]; discriminate X). subst cc.
  destruct (match_var _ _ _ _ _ _ _ _ _ _ Rr1 ND M (M_coord _ _ _ _ _ _ _ _ _ M))
    as (vd & cd & A1 & A2 & A3 & A4 & A5 & _ & A7 & A8).
  destruct (match_var _ _ _ _ _ _ _ _ _ _ Rr1 ND M (M_time _ _ _ _ _ _ _ _ _ M))
    as (vt & ct & B1 & B2 & B3 & B4 & B5 & _ & B7 & B8).
  destruct (match_var _ _ _ _ _ _ _ _ _ _ Rr1 ND M (M_bl _ _ _ _ _ _ _ _ _ M))
    as (vb & cb & D1 & D2 & D3 & D4 & D5 & _ & D7 & D8).
  destruct A7 as (A7 & _). specialize (A7 eq_refl). specialize (A8 (or_introl eq_refl)). change (pre_len "coord") with 24%nat in A8.
  destruct B7 as (_ & B7 & _). specialize (B7 eq_refl).
  destruct D7 as (_ & _ & D7). specialize (D7 eq_refl).
  assert (TS : corrty = TInt2 -> exists vs, rfind r1 "tscale" = Some vs /\ v_ty vs = TReal /\
                 v_buf vs = Some (r_tscale x) /\ 0 < v_flen vs).
  { intros CT. destruct (match_var _ _ _ _ _ _ _ _ _ _ Rr1 ND M (M_ts _ _ _ _ _ _ _ _ _ M CT))
      as (vs & c & U1 & U2 & U3 & U4 & U5 & U6 & _). exists vs. rewrite U6 in U3; [rewrite U4; auto|].
    intros [X|[X|X]]; discriminate X. }
  destruct G as (G1 & G2 & G3 & G4 & G5 & G6 & G7 & G8 & G9 & G10 & G11).
  assert (CK : rd_checks r1 = true).
  { unfold rd_checks, checkvar. rewrite A1, B1, D1, K1, A2, B2, D2, A3, B3, D3, A4, B4, D4. cbn [ty_eqb].
    replace (0 <? zlen cd) with true by lia. replace (0 <? zlen ct) with true by lia.
    replace (0 <? zlen cb) with true by lia. rewrite K2. cbn [andb].
    destruct corrty_ok as [CT|CT]; rewrite CT; auto.
    destruct (TS CT) as (vs & U1 & U2 & U3 & U4). rewrite U1, U2, U3. cbn. lia. }
  assert (VC : v_call vc = rd_callno r + 1).
  { rewrite (rfind_nth _ _ _ _ _ r1 ic "corr" Rr1 eq_refl ND IC) in K1. cbn in K1.
    destruct (nth_error (rd_vars r) ic) as [v0|] eqn:V0.
    - destruct (C' ic v0 vc V0 K1) as [C1 _]. apply C1; auto.
    - exfalso. apply nth_error_None in V0. rewrite <- (map_length v_name), (R_names _ _ _ _ _ R) in V0.
      assert (ic < List.length N)%nat by (apply nth_error_Some; congruence). lia. }
  assert (NC : numchan (v_ty vc) (v_flen vc) = r_n x) by (rewrite K2, K4, G9; apply numchan_corr; lia).
  set (r2 := Rd vs' (m + 8) (rd_file r) (rd_max r) (rd_callno r + 1) (rd_callno r + 1) (rd_flags r)
                (rd_foff r + r_n x) true).
  assert (RL : read_loop (scan_fuel r) r0 = ScOk r2).
  { unfold scan_fuel. cbn [read_loop]. rewrite E0. rewrite CK. rewrite andb_false_r. rewrite K1.
    rewrite NC, VC. cbn [rd_callno r1]. rewrite Z.eqb_refl, Z.ltb_irrefl. reflexivity. }
  assert (C0 : rfind r0 "corr" <> None).
  { rewrite (rfind_nth _ _ _ _ _ r0 ic "corr" R eq_refl ND IC). cbn.
    apply nth_error_Some. rewrite <- (map_length v_name), (R_names _ _ _ _ _ R). apply nth_error_Some; congruence. }
  destruct (Q_flags _ _ _ _ _ _ _ _ Q) as [FL1 FL2]. cbn [map List.concat fst] in FL2.
  exists r2, (lplay l seg), (pplay p seg), rest, (current r2 nsize).
  split.
  { unfold uvread. fold r0. destruct (rfind r0 "corr"); [|congruence]. now rewrite RL. }
  assert (RF : forall n, rfind r2 n = rfind r1 n) by reflexivity.
  assert (FS : skipn (Z.to_nat (rd_foff r + r_n x)) (rd_flags r) = List.concat (map (fun d => r_fl (fst d)) ds)).
  { rewrite Z2Nat.inj_add by lia. rewrite skipn_add, FL2. unfold zlen in G10.
    replace (Z.to_nat (r_n x)) with (List.length (r_fl x)) by lia. rewrite skipn_app, skipn_all, Nat.sub_diag. reflexivity. }
  split; [|split; [|split; [|split; [|split; [|auto]]]]].
  - constructor; cbn [rd_vars rd_off rd_file rd_max rd_callno rd_foff rd_flags r2]; auto.
    + split; [lia|auto].
    + intros i v' V'. destruct (nth_error (rd_vars r) i) as [v0|] eqn:V0.
      * destruct (C' i v0 v' V0 V') as [C1 C2]. destruct (touched_dec seg i) as [T|T].
        -- rewrite C1 by auto. cbn. lia.
        -- rewrite C2 by auto. pose proof (Q_call _ _ _ _ _ _ _ _ Q i v0 V0). lia.
      * exfalso. apply nth_error_None in V0. rewrite <- (map_length v_name), (R_names _ _ _ _ _ R) in V0.
        assert (i < List.length vs')%nat by (apply nth_error_Some; congruence).
        rewrite <- (map_length v_name), (R_names _ _ _ _ _ R') in H1. lia.
    + split; [lia|exact FS].
  - unfold seen. unfold current. rewrite !RF, A1, B1, D1, K1, NC.
    replace ((r_n x <=? 0) || (r_n x >? nsize)) with false by (rewrite Z.gtb_ltb; lia).
    eexists; split; [reflexivity|]. rewrite A3, B3, D3, K3, K2. cbn [obuf].
    split.
    + cbn [fst]. destruct A7 as (S1 & S2 & S3).
      destruct (d012' x G1 G2 G3) as (Y0 & Y1 & Y2 & _). rewrite Y0 in S1. rewrite Y1 in S2. rewrite Y2 in S3.
      repeat (split; [assumption|]). cbn [r_n r_tscale r_corr r_fl]. split; [auto|]. split; [|split; [auto|]].
      * destruct corrty_ok as [CT|CT]; rewrite CT in *; [exact G11|].
        destruct (TS eq_refl) as (vs & U1 & U2 & U3 & U4). rewrite U1, U3. reflexivity.
      * cbn [rd_foff rd_flags r2]. replace (rd_foff r + r_n x - r_n x) with (rd_foff r) by lia. rewrite FL2.
        unfold zlen in G10. replace (Z.to_nat (r_n x)) with (List.length (r_fl x)) by lia.
        rewrite firstn_app, firstn_all, Nat.sub_diag, firstn_O, app_nil_r. reflexivity.
    + cbn [snd]. intros n t b Lk. unfold uvgetvr. rewrite RF.
      split; [|split; [|split]].
      * intros NP. destruct (match_var _ _ _ _ _ _ _ _ _ _ Rr1 ND M Lk) as (v & c & U1 & U2 & U3 & U4 & U5 & U6 & _).
        rewrite U1, U3, U6; auto.
      * intros ->. rewrite A1, A3. unfold uvw. cbn [r_u r_v r_w]. now rewrite d012_cat.
      * intros ->. rewrite B1, B3. reflexivity.
      * intros ->. rewrite D1, D3. reflexivity.
  - exists seg. split; [reflexivity|]. split; [reflexivity|]. split; [reflexivity|]. split; [exact M|].
    cbn [r2 rd_vars rd_mark]. intros i v' V'. destruct (nth_error (rd_vars r) i) as [v0|] eqn:V0.
    + destruct (C' i v0 v' V0 V') as [C1 C2]. destruct (touched_dec seg i) as [T|T].
      * rewrite C1 by auto. cbn. split; [lia|auto].
      * rewrite C2 by auto. pose proof (Q_call _ _ _ _ _ _ _ _ Q i v0 V0). split; [tauto|lia].
    + exfalso. apply nth_error_None in V0. rewrite <- (map_length v_name), (R_names _ _ _ _ _ R) in V0.
      assert (HL : (i < List.length vs')%nat) by (apply nth_error_Some; congruence).
      rewrite <- (map_length v_name), (R_names _ _ _ _ _ R') in HL. lia.
  - unfold current. rewrite !RF, A1, B1, D1, K1, NC.
    replace ((r_n x <=? 0) || (r_n x >? nsize)) with false by (rewrite Z.gtb_ltb; lia).
    eexists; split; [reflexivity|]. rewrite A3, B3, D3, K3, K2. unfold good_rec. cbn [obuf r_u r_v r_w r_t r_bl r_n r_corr r_tscale r_fl].
    assert (L1 : List.length ct = 8%nat) by (apply B8; right; left; reflexivity).
    assert (L2 : List.length cb = 4%nat) by (apply D8; right; right; reflexivity).
    unfold d0, d1, d2. rewrite !firstn_length, !skipn_length, A8, L1, L2.
    repeat (split; [reflexivity || assumption|]). split.
    + cbn [rd_foff rd_flags r2]. replace (rd_foff r + r_n x - r_n x) with (rd_foff r) by lia. rewrite FL2.
      replace (Z.to_nat (r_n x)) with (List.length (r_fl x)) by (unfold zlen in G10; lia).
      rewrite firstn_app, firstn_all, Nat.sub_diag, firstn_O, app_nil_r. exact G10.
    + destruct corrty_ok as [CT|CT]; rewrite CT in *; [reflexivity|].
      destruct (TS eq_refl) as (vs & U1 & U2 & U3 & U4). rewrite U1, U3. exact G11.
  - intros FR. specialize (F' FR). split; [exact F'|].
    intros n Lk. unfold uvgetvr. unfold rfind. rewrite find_name_map. cbn [rd_vars r2].
    rewrite (R_names _ _ _ _ _ R'). destruct (fnd n N) as [i|] eqn:Fi; auto.
    apply find_some in Fi. destruct (nth_error vs' i) as [v|] eqn:Vi; auto.
    apply (F' i v Vi). eapply (M_none _ _ _ _ _ _ _ _ _ M); eauto.
Qed.

Lemma read_eof nsize N tys r l p L ic :
  RS nsize N tys r l p L [] -> nth_error N ic = Some "corr"%string ->
  exists r', uvread nsize r = (r', RdEof) /\
    map v_name (rd_vars r') = N /\ map v_ty (rd_vars r') = tys /\
    rd_flags r' = rd_flags r /\ rd_file r' = rd_file r /\ rd_max r' = rd_max r /\
    (L = [] -> RS nsize N tys r' l p L []).
Proof.
  intros Q IC. pose proof (Q_segs _ _ _ _ _ _ _ _ Q) as SG. inversion SG as [l0 p0 L0 NE|]; subst.
  pose proof (Q_rel _ _ _ _ _ _ _ _ Q) as R. pose proof (Q_nodup _ _ _ _ _ _ _ _ Q) as ND.
  pose proof (Q_enc _ _ _ _ _ _ _ _ Q) as EN. destruct (Q_off _ _ _ _ _ _ _ _ Q) as [O1 O2].
  pose proof (Q_wf _ _ _ _ _ _ _ _ Q) as WF. pose proof (Q_few _ _ _ _ _ _ _ _ Q) as FEW.
  destruct (enc_len _ _ _ _ O1 O2 EN) as [EL1 _].
  set (r0 := Rd (rd_vars r) (rd_off r) (rd_file r) (rd_max r) (rd_callno r) (rd_callno r + 1)
               (rd_flags r) (rd_foff r) (rd_init r)).
  destruct (scan_tail N tys L (scan_fuel r0) (bumped r0 (rd_callno r + 1)) (rd_off r) l p)
    as (vs' & E & R' & C'); auto.
  { unfold scan_fuel. cbn. unfold zlen in *. lia. }
  assert (C0 : rfind r0 "corr" <> None).
  { rewrite (rfind_nth _ _ _ _ _ r0 ic "corr" R eq_refl ND IC). cbn.
    apply nth_error_Some. rewrite <- (map_length v_name), (R_names _ _ _ _ _ R). apply nth_error_Some; congruence. }
  assert (E0 : uv_scan r0 = ScEof (with_vars (bumped r0 (rd_callno r + 1)) vs')) by exact E.
  exists (with_vars (bumped r0 (rd_callno r + 1)) vs').
  split.
  { unfold uvread. fold r0. destruct (rfind r0 "corr"); [|congruence].
    unfold scan_fuel. cbn [read_loop]. rewrite E0. reflexivity. }
  split; [apply (R_names _ _ _ _ _ R')|]. split; [apply (R_tys _ _ _ _ _ R')|].
  split; [reflexivity|]. split; [reflexivity|]. split; [reflexivity|].
  intros ->. constructor; cbn [with_vars bumped r0 rd_vars rd_off rd_file rd_max rd_callno rd_foff rd_flags]; auto.
  - intros i v' V'. destruct (nth_error (rd_vars r) i) as [v0|] eqn:V0.
    + destruct (C' i v0 v' V0 V') as [_ C2]. rewrite C2.
      * pose proof (Q_call _ _ _ _ _ _ _ _ Q i v0 V0). cbn. lia.
      * intros (s & [] & _).
    + exfalso. apply nth_error_None in V0. rewrite <- (map_length v_name), (R_names _ _ _ _ _ R) in V0.
      assert (i < List.length vs')%nat by (apply nth_error_Some; congruence).
      rewrite <- (map_length v_name), (R_names _ _ _ _ _ R') in H. lia.
  - apply (Q_flags _ _ _ _ _ _ _ _ Q).
Qed.

(* the state after k reads *)
Fixpoint after (nsize : Z) (k : nat) (r : reader) : reader :=
  match k with O => r | S k' => after nsize k' (fst (uvread nsize r)) end.

(* reading any number of records, whatever happens, keeps the file, the flags and
   the variable table *)
Definition frame (r r' : reader) : Prop :=
  map v_name (rd_vars r') = map v_name (rd_vars r) /\ map v_ty (rd_vars r') = map v_ty (rd_vars r) /\
  rd_flags r' = rd_flags r /\ rd_file r' = rd_file r /\ rd_max r' = rd_max r.

Lemma frame_refl r : frame r r. Proof. repeat split. Qed.
Lemma frame_trans a b c : frame a b -> frame b c -> frame a c.
Proof. clear corrty_ok. unfold frame. intros (A & B & C & D & E) (A' & B' & C' & D' & E'). repeat split; congruence. Qed.

Lemma scan_frame fuel : forall r off r', scan_loop fuel r off = ScOk r' \/ scan_loop fuel r off = ScEof r' -> frame r r'.
Proof.
  induction fuel; cbn [scan_loop]; intros r off r' H; [destruct H; discriminate|].
  destruct (off >=? rd_max r); [destruct H as [H|H]; inversion H; apply frame_refl|].
  destruct (fget (rd_file r) off 4) as [s|]; [|destruct H as [H|H]; inversion H; apply frame_refl].
  destruct (nth 2 s 0 =? VAR_EOR).
  { destruct H as [H|H]; inversion H; subst. repeat split. }
  destruct (nth 0 s 0 >=? 128); [destruct H; discriminate|].
  destruct (nth_error (rd_vars r) (Z.to_nat (nth 0 s 0))) as [v|] eqn:V; [|destruct H; discriminate].
  assert (FR : forall fl b c, frame r (with_vars r (upd (rd_vars r) (Z.to_nat (nth 0 s 0)) (RV (v_name v) (v_ty v) fl b c)))).
  { intros. repeat split; cbn; apply map_upd; rewrite nth_error_map, V; reflexivity. }
  destruct (nth 2 s 0 =? VAR_SIZE).
  - destruct (fget (rd_file r) (off + 4) 4); [|destruct H; discriminate].
    destruct (rd4 l <=? 0); [destruct H; discriminate|].
    destruct (negb (rd4 l mod ext (v_ty v) =? 0)); [destruct H; discriminate|].
    eapply frame_trans; [apply FR|]. eapply IHfuel; eauto.
  - destruct (nth 2 s 0 =? VAR_DATA); [|destruct H; discriminate].
    destruct (fget (rd_file r) (off + mroundup 4 (ext (v_ty v))) (v_flen v)); [|destruct H; discriminate].
    eapply frame_trans; [apply FR|]. eapply IHfuel; eauto.
Qed.

Lemma loop_frame fuel : forall r r', read_loop fuel r = ScOk r' \/ read_loop fuel r = ScEof r' -> frame r r'.
Proof.
  induction fuel; cbn [read_loop]; intros r r' H; [destruct H; discriminate|].
  destruct (uv_scan r) as [r1|r1|] eqn:E; [| |destruct H; discriminate].
  - assert (F1 : frame r r1).
    { unfold uv_scan in E. apply (scan_frame _ _ _ _ (or_introl E)). }
    destruct (negb (rd_init r1) && negb (rd_checks r1)); [destruct H; discriminate|].
    destruct (rfind r1 "corr"); [|destruct H; discriminate].
    match goal with H : (if _ then read_loop _ ?x else _) = _ \/ _ |- _ => set (r2 := x) in * end.
    assert (F2 : frame r1 r2) by (repeat split).
    destruct (v_call r0 <? rd_callno r1).
    + eapply frame_trans; [exact F1|]. eapply frame_trans; [exact F2|]. eauto.
    + destruct H as [H|H]; inversion H; subst. eapply frame_trans; eauto.
  - destruct H as [H|H]; inversion H; subst. unfold uv_scan in E. apply (scan_frame _ _ _ _ (or_intror E)).
Qed.

Lemma read_frame nsize r : frame r (fst (uvread nsize r)).
Proof.
  unfold uvread.
  set (r0 := Rd (rd_vars r) (rd_off r) (rd_file r) (rd_max r) (rd_callno r) (rd_callno r + 1)
               (rd_flags r) (rd_foff r) (rd_init r)).
  assert (F0 : frame r r0) by (repeat split).
  destruct (rfind r0 "corr"); [|apply frame_refl].
  destruct (read_loop (scan_fuel r) r0) eqn:E; [| |apply frame_refl]; cbn [fst];
    (eapply frame_trans; [exact F0|]; eapply loop_frame; eauto).
Qed.

Lemma after_frame nsize k : forall r, frame r (after nsize k r).
Proof.
  induction k; intros r; cbn; [apply frame_refl|]. eapply frame_trans; [apply read_frame|apply IHk].
Qed.

(* a whole pass *)
Lemma pass nsize N tys ic : nth_error N ic = Some "corr"%string -> forall ds r l p L,
  RS nsize N tys r l p L ds ->
  Forall2 (fun d o => seen d (uvgetvr (fst o)) (snd o)) ds (reads nsize (List.length ds) r) /\
  (fresh_rel (rd_vars r) l ->
     Forall2 (fun d o => unseen d (uvgetvr (fst o))) ds (reads nsize (List.length ds) r)) /\
  snd (uvread nsize (after nsize (List.length ds) r)) = RdEof /\
  (L = [] \/ (exists L0, L = L0 ++ [SEor]) -> exists l' p', RS nsize N tys (after nsize (List.length ds) r) l' p' [] []).
Proof.
  intros IC. induction ds as [|[x e] ds IH]; intros r l p L Q.
  - cbn. split; [constructor|]. split; [constructor|].
    split.
    { destruct (read_eof _ _ _ _ _ _ _ _ Q IC) as (r' & E & _). now rewrite E. }
    intros HL. pose proof (Q_segs _ _ _ _ _ _ _ _ Q) as SG. inversion SG as [l0 p0 L1 NE|]; subst.
    destruct HL as [->|[L0 ->]]; [exists l, p; exact Q|].
    exfalso. apply NE. apply in_or_app; right; left; auto.
  - destruct (read_rec _ _ _ _ _ _ _ _ _ _ Q) as (r' & l' & p' & L' & y & E & Q' & SN & SP & _ & FR & _).
    destruct (IH _ _ _ _ Q') as (I1 & I2 & I3 & I4). cbn [List.length reads after]. rewrite E. cbn [fst].
    split; [constructor; auto|]. split; [|split; [auto|]].
    + intros F. destruct (FR F) as [F1 F2]. constructor; auto.
    + intros HL. apply I4. destruct SP as (seg & -> & _).
      destruct HL as [HL|[L0 HL]]; [destruct seg; discriminate|].
      destruct L' as [|s L'] using rev_ind; [auto|]. right.
      rewrite app_comm_cons, app_assoc in HL. apply app_inj_tail in HL as [_ ->]. exists L'; auto.
Qed.

Lemma eofs nsize N tys ic l p : nth_error N ic = Some "corr"%string -> forall k r,
  RS nsize N tys r l p [] [] -> Forall (fun o => snd o = RdEof) (reads nsize k r).
Proof.
  intros IC. induction k; intros r Q; cbn [reads]; [constructor|].
  destruct (read_eof _ _ _ _ _ _ _ _ Q IC) as (r' & E & _ & _ & _ & _ & _ & K).
  rewrite E. constructor; [auto|]. apply IHk. apply K. auto.
Qed.

Lemma reads_app nsize k m : forall r, reads nsize (k + m) r = reads nsize k r ++ reads nsize m (after nsize k r).
Proof. induction k; intros r; cbn; auto. now rewrite IHk. Qed.
End Host.

Section Open.
Variable feq8 feq4 : list Z -> list Z -> bool.
Variable add1000 addf1000 : list Z -> list Z.
Variable junk : list Z.
Variable corrty : ty.
Hypothesis corrty_ok : corrty = TReal \/ corrty = TInt2.
Hypothesis sym8 : forall a b, feq8 a b = true -> feq8 b a = true.
Hypothesis sym4 : forall a b, feq4 a b = true -> feq4 b a = true.
Hypothesis trans8 : forall a b c, feq8 a b = true -> feq8 b c = true -> feq8 a c = true.
Hypothesis trans4 : forall a b c, feq4 a b = true -> feq4 b c = true -> feq4 a c = true.
Hypothesis add_len : forall a, List.length (add1000 a) = 8%nat.

(* what a complete history leaves for a reader *)
Definition leaves nsize w T ds : Prop :=
    (forall r, map v_name (rd_vars r) = wnames w -> map v_ty (rd_vars r) = wtys w -> rd_off r = 0 ->
       rd_file r = w_file w -> rd_max r = w_off w -> rd_callno r = 0 ->
       (forall i v, nth_error (rd_vars r) i = Some v -> v_call v = 0) -> rd_flags r = w_flags w -> rd_foff r = 0 ->
       RS feq8 feq4 corrty nsize (wnames w) (wtys w) r none none T ds).

Lemma written_s f0 ops nsize :
  valid_s feq8 feq4 add1000 addf1000 corrty nsize None [] [] ops -> few_variables_s corrty ops ->
  exists w T, srun feq8 feq4 add1000 addf1000 junk (uv_new corrty f0) ops = Ok w /\
    (forall uo, ops = map Op uo -> urun feq8 feq4 add1000 addf1000 junk corrty (uv_new corrty f0) uo = Ok w) /\
    leaves nsize w T (dataset_s corrty [] 0 ops) /\
    ((exists ops0 x, ops = ops0 ++ [Op (URec x)]) -> exists T0, T = T0 ++ [SEor]) /\
    (exists ic, nth_error (wnames w) ic = Some "corr"%string) /\
    NoDup (wnames w) /\ List.length (wtys w) = List.length (wnames w) /\
    (forall n, In n (wnames w) -> In n ("corr"%string :: names_s corrty [] 0 ops)) /\
    (forall i n t, nth_error (wnames w) i = Some n -> nth_error (wtys w) i = Some t -> rty corrty n t).
Proof.
  intros V FEW.
  destruct (run_spec_s feq8 feq4 add1000 addf1000 junk corrty corrty_ok sym8 sym4 trans8 trans4 add_len
              ops _ _ _ _ _ nsize (SI_new feq8 feq4 corrty f0) V)
    as (w & T & E & UO & W & X & F & (prev' & e' & set' & S & HN) & SG).
  destruct (SG [] [] eq_refl) as (G1 & G2 & G3); [intros []|]. cbn [app] in *.
  assert (LEN : List.length (wtys w) = List.length (wnames w)) by (unfold wtys; rewrite map_length, <- wnames_len; reflexivity).
  assert (LK : forall i n t, nth_error (wnames w) i = Some n -> nth_error (wtys w) i = Some t ->
            (n = "corr"%string /\ t = corrty) \/ exists b, look e' n = Some (t, b)).
  { intros i n t Hi Ht. destruct (string_dec n "corr") as [->|Hn].
    - left. split; [auto|]. pose proof (S_hasc _ _ _ _ _ _ _ _ S) as HH. unfold has in HH.
      rewrite (find_nth _ _ _ (W_nodup _ _ W) Hi), Ht in HH. congruence.
    - right. pose proof (S_has _ _ _ _ _ _ _ _ S n Hn) as HH. unfold has in HH.
      rewrite (find_nth _ _ _ (W_nodup _ _ W) Hi), Ht in HH.
      destruct (look e' n) as [[t' b]|]; inversion HH; subst. eauto. }
  assert (NM : forall n, In n (wnames w) -> In n ("corr"%string :: names_s corrty [] 0 ops)).
  { intros n Hn. change 0 with (prevn None). rewrite <- HN. apply In_nth_error in Hn as [i Hi].
    destruct (nth_error (wtys w) i) as [t|] eqn:Ht.
    - destruct (LK _ _ _ Hi Ht) as [[-> _]|[b HH]]; [left; auto|right]. clear -HH.
      induction e' as [|[m y] e' IH]; cbn in *; [congruence|]. destruct (String.eqb_spec m n); [left; auto|right; auto].
    - apply nth_error_None in Ht. rewrite LEN in Ht. assert (i < List.length (wnames w))%nat by (apply nth_error_Some; congruence). lia. }
  exists w, T. split; [exact E|]. split; [exact UO|].
  split; [|split; [exact G2|split; [|split; [apply (W_nodup _ _ W)|split; [exact LEN|split; [exact NM|]]]]]].
  3:{ intros i n t Hi Ht. destruct (LK _ _ _ Hi Ht) as [[-> ->]|[b HH]]; [|eapply (S_ty _ _ _ _ _ _ _ _ S); eauto].
      unfold rty. repeat match goal with |- _ /\ _ => split end; intros Y; try discriminate Y; auto. }
  - intros r RN RT RO RF RM RC RV RFL RFO. constructor.
    + constructor; auto; intros; discriminate.
    + rewrite RO. split; [lia|reflexivity].
    + rewrite RF, RO, RM. apply (W_enc _ _ W).
    + apply (W_wf _ _ W).
    + unfold few_variables_s in FEW. eapply Nat.le_trans; [|exact FEW]. rewrite LEN.
      apply NoDup_incl_length; [apply (W_nodup _ _ W)|].
      intros n Hn. apply nodup_In. apply NM; exact Hn.
    + apply (W_nodup _ _ W).
    + exact G1.
    + intros i v Hv. rewrite (RV _ _ Hv). lia.
    + rewrite RFO, RFL, F. cbn. split; [lia|reflexivity].
  - pose proof (S_hasc _ _ _ _ _ _ _ _ S) as HH. unfold has in HH.
    destruct (fnd "corr" (wnames w)) as [ic|] eqn:FI; [|discriminate]. exists ic. now apply find_some in FI.
Qed.

Lemma written f0 ops nsize :
  valid feq8 feq4 add1000 addf1000 corrty nsize None [] [] ops -> few_variables corrty ops ->
  exists w T, urun feq8 feq4 add1000 addf1000 junk corrty (uv_new corrty f0) ops = Ok w /\
    (forall r, map v_name (rd_vars r) = wnames w -> map v_ty (rd_vars r) = wtys w -> rd_off r = 0 ->
       rd_file r = w_file w -> rd_max r = w_off w -> rd_callno r = 0 ->
       (forall i v, nth_error (rd_vars r) i = Some v -> v_call v = 0) -> rd_flags r = w_flags w -> rd_foff r = 0 ->
       RS feq8 feq4 corrty nsize (wnames w) (wtys w) r none none T (dataset corrty [] 0 ops)) /\
    ((exists ops0 x, ops = ops0 ++ [URec x]) -> exists T0, T = T0 ++ [SEor]) /\
    (dataset corrty [] 0 ops <> [] -> exists ic, nth_error (wnames w) ic = Some "corr"%string) /\
    NoDup (wnames w) /\ List.length (wtys w) = List.length (wnames w) /\
    (forall n, In n (wnames w) -> In n ("corr"%string :: names corrty [] 0 ops)) /\
    (forall i n t, nth_error (wnames w) i = Some n -> nth_error (wtys w) i = Some t -> rty corrty n t).
Proof.
  intros V FEW.
  destruct (written_s f0 (map Op ops) nsize) as (w & T & _ & U & A & B & C & D & E & F & G).
  { apply valid_map. exact V. }
  { unfold few_variables_s. rewrite names_map. exact FEW. }
  rewrite dataset_map in A. rewrite names_map in F.
  exists w, T. split; [now apply U|]. split; [exact A|]. split; [|split; [auto|auto]].
  intros (ops0 & x & ->). apply B. exists (map Op ops0), x. now rewrite map_app.
Qed.

Lemma hist_frame h : forall r, frame r (fold_left rstep h r).
Proof.
  induction h as [|o h IH]; intros r; cbn [fold_left]; [apply frame_refl|].
  eapply frame_trans; [|apply IH]. destruct o; cbn [rstep]; [apply read_frame|].
  unfold frame, uvrewind; cbn. rewrite !map_map. repeat split.
Qed.
End Open.
