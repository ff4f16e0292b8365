From Verif Require Import Base.
From Coq Require Import String.
From Verif Require Import UvModel UvSpec UvProofs UvProofs2 UvProofs3 UvProofs4 UvProofs5 PipeModel PipeSpec PipeProofs.
Ltac Zify.zify_post_hook ::= idtac.
Open Scope Z_scope.
Local Notation length := List.length.



Lemma look_rec_pre oc e pn y n : preamble_name n -> look (env_rec oc e pn y) n = Some (pre_ty n, pre_val n y).
Proof. intros [ -> | [ -> | -> ] ]; reflexivity. Qed.

Lemma look_skip m y e n : m <> n -> look ((m, y) :: e) n = look e n.
Proof. intros H. cbn. destruct (String.eqb_spec m n); congruence. Qed.

Lemma look_rec_user oc e pn x n : user_name n -> look (env_rec oc e pn x) n = look e n.
Proof.
  intros (A & B & C & D). unfold preamble_name in A.
  unfold env_rec. rewrite !look_skip by (intros <-; tauto).
  destruct oc; try rewrite look_skip by congruence; destruct (r_n x =? pn); auto; rewrite look_skip by congruence; auto.
Qed.

Lemma look_rec_nchan oc e pn x : look (env_rec oc e pn x) "nchan" =
  if r_n x =? pn then look e "nchan" else Some (TInt, be4 (r_n x)).
Proof.
  unfold env_rec. rewrite !look_skip by discriminate.
  destruct oc; try rewrite look_skip by discriminate; destruct (r_n x =? pn); reflexivity.
Qed.

Lemma look_rec_ty oc e pn x n t b : look (env_rec oc e pn x) n = Some (t, b) ->
  n = "corr"%string \/ (preamble_name n /\ t = pre_ty n) \/ (n = "tscale"%string /\ t = TReal) \/
  (n = "nchan"%string /\ t = TInt) \/ look e n = Some (t, b).
Proof.
  assert (S : forall m y e0, look ((m, y) :: e0) n = Some (t, b) -> (m = n /\ y = (t, b)) \/ look e0 n = Some (t, b)).
  { intros m y e0. cbn. destruct (String.eqb_spec m n); [|auto]. intros X; inversion X; auto. }
  unfold env_rec. intros H. apply S in H as [[<- _]|H]; [auto|].
  apply S in H as [[<- X]|H]; [inversion X; right; left; split; [left; reflexivity|reflexivity]|].
  apply S in H as [[<- X]|H]; [inversion X; right; left; split; [right; left; reflexivity|reflexivity]|].
  apply S in H as [[<- X]|H]; [inversion X; right; left; split; [right; right; reflexivity|reflexivity]|].
  assert (H2 : (n = "tscale"%string /\ t = TReal) \/
    look (if r_n x =? pn then e else ("nchan"%string, (TInt, be4 (r_n x))) :: e) n = Some (t, b)).
  { destruct oc; auto. apply S in H as [[<- X]|H]; [inversion X; auto|auto]. }
  destruct H2 as [H2|H2]; [tauto|]. destruct (r_n x =? pn); [tauto|].
  apply S in H2 as [[<- X]|H2]; [inversion X; subst; tauto|tauto].
Qed.

Lemma rec_names oc e pn x NS : incl (builtins oc) NS -> incl (map fst e) NS -> incl (map fst (env_rec oc e pn x)) NS.
Proof.
  intros B E n Hn. unfold env_rec in Hn. cbn [map fst In] in Hn.
  assert (BI : forall m, In m (builtins oc) -> In m NS) by exact B.
  destruct Hn as [<-|[<-|[<-|[<-|Hn]]]]; try (apply BI; cbn; tauto).
  assert (H2 : n = "tscale"%string \/ In n (map fst (if r_n x =? pn then e else ("nchan"%string, (TInt, be4 (r_n x))) :: e))).
  { destruct oc; auto. destruct Hn as [<-|Hn]; auto. }
  assert (H3 : n = "tscale"%string -> oc <> TInt2 -> In n (map fst (if r_n x =? pn then e else ("nchan"%string, (TInt, be4 (r_n x))) :: e))).
  { intros -> Ho. destruct oc; auto. congruence. }
  destruct H2 as [->|H2].
  { destruct (ty_eqb oc TInt2) eqn:Q; [apply ty_eqb_eq in Q; subst oc; apply BI; cbn; tauto|].
    specialize (H3 eq_refl). assert (Q' : oc <> TInt2) by (intros ->; discriminate Q). specialize (H3 Q').
    destruct (r_n x =? pn); [auto|]. destruct H3 as [H3|H3]; [discriminate H3|auto]. } destruct (r_n x =? pn); [auto|].
  destruct H2 as [<-|H2]; [apply BI; cbn; tauto|auto].
Qed.

Section Pipe.
Variable feq8 feq4 : list Z -> list Z -> bool.
Variable add1000 addf1000 : list Z -> list Z.
Variable junk : list Z.
Variable sc oc : ty.
Hypothesis sc_ok : sc = TReal \/ sc = TInt2.
Variable mf : nat -> reader -> urec -> list put * option urec.
Variable jc : nat -> list Z.
Variable jf : nat -> list bool.
Variable nsize nsize' : Z.
Variable N : list string.
Variable tys : list ty.
Variable T : string -> ty.
Variable tr : list string.
Variable NS : list string.
Variable NC : Prop.
Hypothesis short : forall n, In n N -> (String.length n <= 8)%nat.
Hypothesis RT : forall i n t, nth_error N i = Some n -> nth_error tys i = Some t -> rty sc n t.
Hypothesis HT : forall i n t, nth_error N i = Some n -> nth_error tys i = Some t -> n <> "corr"%string -> t = T n.
Hypothesis Tts : T "tscale" = TReal.
Hypothesis Tnc : T "nchan" = TInt.
Hypothesis trN : forall n, In n tr -> In n N /\ n <> "corr"%string.
Hypothesis trp : forall n, preamble_name n -> In n tr.
Hypothesis NSN : incl N NS.
Hypothesis NSB : incl (builtins oc) NS.
Hypothesis IC : exists ic, nth_error N ic = Some "corr"%string.
Hypothesis LEN : length tys = length N.
Hypothesis NDN : NoDup N.

Notation f := (fun k r x => mf k r (widen jc jf sc nsize k x)).
Notation trk := (fun n => In n tr).
Notation RS := (RS feq8 feq4 sc nsize N tys).
Notation urun := (urun feq8 feq4 add1000 addf1000 junk oc).
Notation valid := (valid feq8 feq4 add1000 addf1000 oc nsize').
Notation pipe_loop := (pipe_loop feq8 feq4 add1000 addf1000 junk oc mf jc jf).
Notation good_outs := (good_outs feq8 feq4 oc f T trk nsize').
Notation expected := (expected f).

Definition want (n : string) : Prop := user_name n \/ (n = "nchan"%string /\ NC).

Record INV (e : env) (set : list (string * list Z)) (prev : option urec) (p : pmap)
    (past : string -> list Z -> Prop) (U : string -> option (list Z)) : Prop := {
  I_tr : forall i n t c, nth_error N i = Some n -> nth_error tys i = Some t -> p i = Some c ->
           In n tr -> want n -> look e n = Some (t, c);
  I_pre : forall i n c, preamble_name n -> nth_error N i = Some n -> p i = Some c -> In n (map fst set) ->
           look e n = Some (pre_ty n, c);
  I_un : forall n, user_name n /\ ~ In n tr -> option_map snd (look e n) = U n;
  I_ty : forall n t b, look e n = Some (t, b) -> n = "corr"%string \/ t = T n;
  I_past : prev = None -> forall n b, preamble_name n -> In (n, b) set -> past n b;
  I_set : prev = None -> forall i n c, preamble_name n -> nth_error N i = Some n -> p i = Some c -> In n (map fst set);
  I_ns : incl (map fst e) NS }.

Lemma Tpre n : preamble_name n -> pre_ty n = T n.
Proof.
  intros Hn. destruct (trN n (trp n Hn)) as [HN Hc]. apply In_nth_error in HN as [i Hi].
  destruct (nth_error tys i) as [t|] eqn:Ht.
  - rewrite <- (HT _ _ _ Hi Ht Hc). destruct (RT _ _ _ Hi Ht) as (A & B & C & _).
    destruct Hn as [ -> | [ -> | -> ] ]; unfold pre_ty; cbn; symmetry; auto.
  - exfalso. apply nth_error_None in Ht. rewrite LEN in Ht.
    assert (i < length N)%nat by (apply nth_error_Some; congruence). lia.
Qed.

(* what copyvr writes after a record has been read *)
Lemma copies r' l' p' x e0 seg l p :
  rel N tys (rd_vars r') l' p' -> Match feq8 feq4 sc N tys l' p' x e0 ->
  (forall i v', nth_error (rd_vars r') i = Some v' -> (touched seg i <-> rd_mark r' <= v_call v')) ->
  goodl tys l' -> wf tys l seg -> l' = lplay l seg -> p' = pplay p seg ->
  let cs := cputs tr (rd_mark r') (rd_vars r') in
  (forall n t b, In (n, t, b) cs -> exists i, nth_error N i = Some n /\ nth_error tys i = Some t /\ p' i = Some b /\
      In n tr /\ touched seg i /\ good_put n t b /\ b <> [] /\ t = T n) /\
  (forall i n t c, nth_error N i = Some n -> nth_error tys i = Some t -> p' i = Some c -> In n tr -> touched seg i ->
      In (n, t, c) cs) /\
  NoDup (map pname cs).
Proof.
  intros R M TM G W El Ep cs.
  assert (A : forall i v', nth_error (rd_vars r') i = Some v' -> nth_error N i = Some (v_name v') /\ nth_error tys i = Some (v_ty v')).
  { intros i v' Hv. rewrite <- (R_names _ _ _ _ _ R), <- (R_tys _ _ _ _ _ R), !nth_error_map, Hv. auto. }
  split; [|split].
  - intros n t b Hin. apply cputs_in in Hin as (v & V1 & V2 & V3 & V4). inversion V4; subst n t b; clear V4.
    apply In_nth_error in V1 as [i V1]. destruct (A i v V1) as [A1 A2]. apply (TM i v V1) in V2.
    assert (NL : l' i <> None) by (rewrite El; eapply lplay_touched; eauto).
    assert (LK : exists t b, look e0 (v_name v) = Some (t, b)).
    { destruct (look e0 (v_name v)) as [[t b]|] eqn:LK; [eauto|]. exfalso. apply NL.
      eapply (M_none _ _ _ _ _ _ _ _ _ M); eauto. }
    destruct LK as (t0 & b0 & LK).
    destruct (M_some _ _ _ _ _ _ _ _ _ M _ _ _ LK) as (j & c & C1 & C2 & C3 & C4 & C5 & C6 & C7 & C8).
    assert (j = i).
    { apply (proj1 (NoDup_nth_error N) NDN); [apply nth_error_Some; congruence|congruence]. }
    subst j. assert (t0 = v_ty v) by congruence. subst t0.
    rewrite (R_buf _ _ _ _ _ R _ _ _ C3 V1). cbn [obuf].
    destruct (trN _ V3) as [V5 V6].
    exists i. repeat (split; [assumption|]). destruct (G _ _ C4) as (t1 & T1 & T2 & T3).
    assert (t1 = v_ty v) by congruence. subst t1. destruct (RT _ _ _ A1 A2) as (Y1 & Y2 & Y3 & Y4 & Y5 & _).
    split; [|split].
    + unfold good_put. split; [apply short; exact V5|]. split; [exact V6|]. split; [lia|]. split; [exact T3|].
      assert (PL : forall m, v_name v = m -> preamble_name m -> length c = pre_len m) by (intros m <- Hm; auto).
      split; [intros X; split; [auto|rewrite (PL _ X); [reflexivity|left; reflexivity]]|].
      split; [intros X; split; [auto|rewrite (PL _ X); [reflexivity|right; left; reflexivity]]|].
      split; [intros X; split; [auto|rewrite (PL _ X); [reflexivity|right; right; reflexivity]]|].
      split; auto.
    + intros ->. unfold zlen in C5. cbn in C5. lia.
    + eapply HT; eauto.
  - intros i n t c H1 H2 H3 H4 H5. destruct (rel_nth _ _ _ _ _ _ _ R H2) as (v & V1 & V2).
    destruct (A i v V1) as [A1 A2]. apply cputs_in. exists v. split; [eapply nth_error_In; eauto|].
    split; [apply (TM i v V1); exact H5|]. assert (n = v_name v) by congruence. subst n. split; [exact H4|].
    rewrite (R_buf _ _ _ _ _ R _ _ _ H3 V1). cbn. congruence.
  - apply cputs_nodup. rewrite (R_names _ _ _ _ _ R). exact NDN.
Qed.

Definition Rout (q : (urec * env) * urec * (string -> option (list Z))) (o : urec * env) : Prop :=
  let '(d, y, U) := q in
  fst o = y /\ (forall n t b, In n tr -> want n -> look (snd d) n = Some (t, b) -> look (snd o) n = Some (t, b)) /\
  (forall n, user_name n -> ~ In n tr -> option_map snd (look (snd o) n) = U n) /\
  (forall n, preamble_name n -> look (snd o) n = Some (pre_ty n, pre_val n y)).


Lemma pipe_ops : forall ds r l p L k e set prev past U fuel,
  RS r l p L ds -> goodl tys l -> (length L < fuel)%nat ->
  INV e set prev p past U ->
  good_outs prev past k (reads nsize (length ds) r) ->
  incl (put_names f k (reads nsize (length ds) r)) NS ->
  (NC -> nchan_agrees (expected U k ds (reads nsize (length ds) r))) ->
  exists ops, (forall w, pipe_loop fuel sc nsize tr k r w = urun w ops) /\
    valid prev e set ops /\
    Forall2 Rout (expected U k ds (reads nsize (length ds) r)) (dataset oc e (prevn prev) ops) /\
    incl (names oc e (prevn prev) ops) NS.
Proof.
  induction ds as [|[x0 e0] ds IH]; intros r l p L k e set prev past U fuel Q GL FU I GO PN NCH.
  - destruct IC as [ic Hic]. destruct (read_eof feq8 feq4 sc nsize N tys r l p L ic Q Hic) as (r' & E & _).
    exists []. destruct fuel as [|fuel]; [lia|]. cbn. rewrite E. split; [reflexivity|]. split; [exact Logic.I|].
    split; [constructor|]. apply (I_ns _ _ _ _ _ _ I).
  - destruct (read_rec feq8 feq4 sc sc_ok nsize N tys r l p L x0 e0 ds Q)
      as (r' & l' & p' & L' & a & E & Q' & SN & (seg & EL & El & Ep & M & TM) & (x & EA & GX) & _).
    subst a. destruct SN as (x' & X1 & SR & SN). inversion X1; subst x'; clear X1. cbn [fst snd] in *.
    cbn [length reads] in GO, PN, NCH |- *. rewrite E in GO, PN, NCH |- *. cbn [fst] in GO, PN, NCH |- *.
    cbn [PipeSpec.good_outs PipeSpec.expected put_names] in GO, PN, NCH |- *.
    set (m := mf k r' (widen jc jf sc nsize k x)) in *. destruct GO as [GP GO].
    pose proof (Q_wf _ _ _ _ _ _ _ _ _ _ _ Q) as WF. rewrite EL in WF. apply wf_app in WF as [WF _].
    assert (GL' : goodl tys l') by (rewrite El; apply lplay_good; auto).
    pose proof (Q_rel _ _ _ _ _ _ _ _ _ _ _ Q') as R'.
    destruct (copies r' l' p' x0 e0 seg l p R' M TM GL' WF El Ep) as (C1 & C2 & C3).
    set (cs := cputs tr (rd_mark r') (rd_vars r')) in *.
    set (e2 := eputs (eputs e (fst m)) cs). set (set2 := sputs (sputs set (fst m)) cs).
    set (U' := fold_left assign (fst m) U) in *.
    set (past' := fun n b => past n b \/ b = pre_val n x) in *.
    (* values of preamble variables as read *)
    assert (PV : forall i n c, preamble_name n -> nth_error N i = Some n -> p' i = Some c -> c = pre_val n x).
    { intros i n c Hn Hi Hc.
      assert (HG : uvgetvr r' n = Some c).
      { unfold uvgetvr. rewrite (rfind_nth _ _ _ _ _ r' i n R' eq_refl NDN Hi).
        destruct (nth_error (rd_vars r') i) as [v|] eqn:V; [apply (R_buf _ _ _ _ _ R' _ _ _ Hc V)|].
        exfalso. apply nth_error_None in V. rewrite <- (map_length v_name), (R_names _ _ _ _ _ R') in V.
        assert (i < length N)%nat by (apply nth_error_Some; congruence). lia. }
      destruct Hn as [ -> | [ -> | -> ] ]; unfold pre_val; cbn [String.eqb Ascii.eqb Bool.eqb].
      - destruct (SN _ _ _ (M_coord _ _ _ _ _ _ _ _ _ M)) as (_ & K & _). rewrite K in HG by reflexivity. inversion HG. reflexivity.
      - destruct (SN _ _ _ (M_time _ _ _ _ _ _ _ _ _ M)) as (_ & _ & K & _). rewrite K in HG by reflexivity. inversion HG. reflexivity.
      - destruct (SN _ _ _ (M_bl _ _ _ _ _ _ _ _ _ M)) as (_ & _ & _ & K). rewrite K in HG by reflexivity. inversion HG. reflexivity. }
    assert (PX : forall n, preamble_name n -> exists i, nth_error N i = Some n /\ nth_error tys i = Some (pre_ty n) /\ p' i = Some (pre_val n x)).
    { intros n Hn.
      assert (K : exists t b, look e0 n = Some (t, b) /\ t = pre_ty n).
      { destruct Hn as [ -> | [ -> | -> ] ]; eexists; eexists; split;
          [apply (M_coord _ _ _ _ _ _ _ _ _ M)|reflexivity|apply (M_time _ _ _ _ _ _ _ _ _ M)|reflexivity|apply (M_bl _ _ _ _ _ _ _ _ _ M)|reflexivity]. }
      destruct K as (t & b & K & ->). destruct (M_some _ _ _ _ _ _ _ _ _ M _ _ _ K) as (i & c & D1 & D2 & D3 & _).
      exists i. split; [exact D1|]. split; [exact D2|]. rewrite (PV i n c Hn D1 D3) in D3. exact D3. }
    (* the function's own assignments do not touch what is copied *)
    assert (NP : forall n, In n tr -> ~ In n (map pname (fst m))).
    { intros n Hn Hi. apply in_map_iff in Hi as (q & <- & Hq). rewrite Forall_forall in GP.
      destruct (GP _ Hq) as (_ & _ & Z1 & _). auto. }
    assert (NPS : forall n b, preamble_name n -> In (n, b) (sputs set (fst m)) -> In (n, b) set).
    { intros n b Hn Hi. apply sputs_in in Hi as [Hi|[t Hi]]; [exact Hi|]. exfalso. apply (NP n (trp n Hn)).
      apply in_map_iff. exists (n, t, b). auto. }
    assert (CN : forall n, ~ In n tr -> ~ In n (map pname cs)) by (intros n Hn Hi; apply cputs_names in Hi; tauto).
    (* looking up after the assignments *)
    assert (LT : forall i n t c, nth_error N i = Some n -> nth_error tys i = Some t -> p' i = Some c -> In n tr -> touched seg i ->
              look e2 n = Some (t, c)).
    { intros i n t c H1 H2 H3 H4 H5. pose proof (C2 _ _ _ _ H1 H2 H3 H4 H5) as HC. apply eputs_in; auto.
      destruct (C1 _ _ _ HC) as (_ & _ & _ & _ & _ & _ & _ & HB & _). exact HB. }
    assert (LU : forall i n, nth_error N i = Some n -> In n tr -> ~ touched seg i -> look e2 n = look e n).
    { intros i n H1 H2 H3. unfold e2. rewrite !eputs_out; auto.
      intros HI. apply in_map_iff in HI as ([[n' t] b] & H4 & H5). cbn in H4; subst n'.
      destruct (C1 _ _ _ H5) as (j & J1 & _ & _ & _ & J5 & _).
      assert (j = i) by (apply (proj1 (NoDup_nth_error N) NDN); [apply nth_error_Some; congruence|congruence]). congruence. }
    assert (PU : forall i, ~ touched seg i -> p' i = p i) by (intros i Hi; rewrite Ep; apply pplay_untouched; exact Hi).
    (* the invariant after the assignments *)
    assert (I2 : INV e2 set2 prev p' past' U').
    { constructor.
      - intros i n t c H1 H2 H3 H4 H5. destruct (touched_dec seg i) as [HH|HH]; [eapply LT; eauto|].
        rewrite (LU i n H1 H4 HH). rewrite (PU i HH) in H3. eapply (I_tr _ _ _ _ _ _ I); eauto.
      - intros i n c Hn H1 H3 H4. destruct (PX n Hn) as (i' & K1 & K2 & K3).
        assert (i' = i) by (apply (proj1 (NoDup_nth_error N) NDN); [apply nth_error_Some; congruence|congruence]). subst i'.
        destruct (touched_dec seg i) as [HH|HH]; [eapply LT; eauto|].
        rewrite (LU i n H1 (trp n Hn) HH). rewrite (PU i HH) in H3. eapply (I_pre _ _ _ _ _ _ I); eauto.
        apply in_map_iff in H4 as ([n' b] & H4 & H5). cbn in H4; subst n'. unfold set2 in H5.
        apply sputs_in in H5 as [H5|[t H5]].
        + apply in_map_iff. exists (n, b). split; [reflexivity|]. apply NPS; auto.
        + exfalso. destruct (C1 _ _ _ H5) as (j & J1 & _ & _ & _ & J5 & _).
          assert (j = i) by (apply (proj1 (NoDup_nth_error N) NDN); [apply nth_error_Some; congruence|congruence]). congruence.
      - intros n Hn. unfold e2. rewrite (eputs_out cs) by (apply CN; tauto).
        apply (eputs_U (fun n => user_name n /\ ~ In n tr)); [|exact Hn]. apply (I_un _ _ _ _ _ _ I).
      - unfold e2. apply eputs_ty.
        + apply Forall_forall. intros [[n t] b] Hq. cbn [pty pname fst snd]. apply C1 in Hq as (_ & _ & _ & _ & _ & _ & _ & _ & Hq). exact Hq.
        + apply eputs_ty; [|apply (I_ty _ _ _ _ _ _ I)]. eapply Forall_impl; [|exact GP]. intros q (_ & Hq & _). exact Hq.
      - intros Hp n b Hn Hi. unfold set2 in Hi. apply sputs_in in Hi as [Hi|[t Hi]].
        + left. apply (I_past _ _ _ _ _ _ I); auto.
        + right. destruct (C1 _ _ _ Hi) as (j & J1 & J2 & J3 & _). eapply PV; eauto.
      - intros Hp i n c Hn H1 H3. apply in_map_iff.
        destruct (touched_dec seg i) as [HH|HH].
        + exists (n, c). split; [reflexivity|]. destruct (PX n Hn) as (i' & K1 & K2 & K3).
          assert (i' = i) by (apply (proj1 (NoDup_nth_error N) NDN); [apply nth_error_Some; congruence|congruence]). subst i'.
          pose proof (C2 _ _ _ _ H1 K2 H3 (trp n Hn) HH) as HC. unfold set2. eapply sputs_put; [exact HC|].
          destruct (C1 _ _ _ HC) as (_ & _ & _ & _ & _ & _ & _ & HB & _). exact HB.
        + rewrite (PU i HH) in H3. pose proof (I_set _ _ _ _ _ _ I Hp i n c Hn H1 H3) as HS.
          apply in_map_iff in HS as ([n' b] & HS1 & HS2). cbn in HS1; subst n'. exists (n, b). split; [reflexivity|].
          unfold set2. apply sputs_mono. apply sputs_mono. exact HS2.
      - unfold e2. apply eputs_names; [|apply eputs_names; [|apply (I_ns _ _ _ _ _ _ I)]].
        + intros n Hn. apply cputs_names in Hn as [Hn _]. apply NSN. now rewrite <- (R_names _ _ _ _ _ R').
        + intros n Hn. apply PN. apply in_or_app. left. exact Hn. }
    assert (V1 : Forall (fun q => good_put (pname q) (pty q) (snd q) /\ pty q = T (pname q)) (fst m)).
    { eapply Forall_impl; [|exact GP]. intros q (Hq1 & Hq2 & _). split; [exact Hq1|exact Hq2]. }
    assert (V2 : Forall (fun q => good_put (pname q) (pty q) (snd q) /\ pty q = T (pname q)) cs).
    { apply Forall_forall. intros [[n t] b] Hq. cbn [pty pname fst snd].
      apply C1 in Hq as (_ & _ & _ & _ & _ & _ & Hq1 & _ & Hq2). split; [exact Hq1|exact Hq2]. }
    assert (TY1 : forall n t b, look (eputs e (fst m)) n = Some (t, b) -> n = "corr"%string \/ t = T n).
    { apply eputs_ty; [|apply (I_ty _ _ _ _ _ _ I)]. eapply Forall_impl; [|exact GP]. intros q (_ & Hq & _). exact Hq. }
    assert (PN' : incl (put_names f (S k) (reads nsize (length ds) r')) NS).
    { intros n Hn. apply PN. apply in_or_app. right. exact Hn. }
    assert (FU' : exists fuel', fuel = S fuel' /\ (length L' < fuel')%nat).
    { destruct fuel as [|fuel']; [lia|]. exists fuel'. split; [reflexivity|]. rewrite EL, app_length in FU. cbn [length] in FU. lia. }
    destruct FU' as (fuel' & -> & FU').
    cbn [PipeModel.pipe_loop]. 
    destruct (snd m) as [y|] eqn:OUT.
    + (* a record comes out *)
      destruct GO as (GY & GPRE & GO).
      set (e3 := env_rec oc e2 (prevn prev) y).
      assert (NCy : NC -> look e0 "nchan" = Some (TInt, be4 (r_n y))).
      { intros HN. specialize (NCH HN). inversion NCH; subst. assumption. }
      assert (I3 : INV e3 [] (Some y) p' past' U').
      { constructor; try discriminate.
        - intros i n t c H1 H2 H3 H4 H5. destruct H5 as [H5|[-> H5]].
          + unfold e3. rewrite look_rec_user by exact H5. eapply (I_tr _ _ _ _ _ _ I2); eauto. left; exact H5.
          + unfold e3. rewrite look_rec_nchan.
            pose proof (I_tr _ _ _ _ _ _ I2 i _ t c H1 H2 H3 H4 (or_intror (conj eq_refl H5))) as K. rewrite K.
            destruct (M_some _ _ _ _ _ _ _ _ _ M _ _ _ (NCy H5)) as (j & c' & J1 & J2 & J3 & _ & _ & J4 & _).
            assert (j = i) by (apply (proj1 (NoDup_nth_error N) NDN); [apply nth_error_Some; congruence|congruence]). subst j.
            assert (c' = be4 (r_n y)) by (apply J4; intros [X|[X|X]]; discriminate X). subst c'.
            assert (t = TInt) by congruence. assert (c = be4 (r_n y)) by congruence. subst t c.
            destruct (r_n y =? prevn prev); reflexivity.
        - intros i n c _ _ _ HI. destruct HI.
        - intros n [Hn1 Hn2]. unfold e3. rewrite look_rec_user by exact Hn1. apply (I_un _ _ _ _ _ _ I2). auto.
        - intros n t b Hl. apply look_rec_ty in Hl as [Hl|[[Hl ->]|[[-> ->]|[[-> ->]|Hl]]]].
          + left; exact Hl.
          + right. apply Tpre; exact Hl.
          + right. symmetry; exact Tts.
          + right. symmetry; exact Tnc.
          + eapply (I_ty _ _ _ _ _ _ I2); exact Hl.
        - unfold e3. apply rec_names; [exact NSB|]. apply (I_ns _ _ _ _ _ _ I2). }
      assert (NCH' : NC -> nchan_agrees (expected U' (S k) ds (reads nsize (length ds) r'))).
      { intros HN. specialize (NCH HN). inversion NCH; subst. assumption. }
      destruct (IH r' l' p' L' (S k) e3 [] (Some y) past' U' fuel' Q' GL' FU' I3 GO PN' NCH') as (ops & O1 & O2 & O3 & O4).
      exists (map toput (fst m) ++ map toput cs ++ URec y :: ops).
      split; [|split; [|split]].
      * intros w. rewrite E. fold m. rewrite OUT. rewrite urun_app. change (map (fun p0 => UPut (fst (fst p0)) (snd (fst p0)) (snd p0)) (fst m)) with (map toput (fst m)).
        destruct (urun w (map toput (fst m))) as [w1|]; cbn [bind]; [|reflexivity].
        rewrite urun_app. unfold copyvr. rewrite (copy_run feq8 feq4 add1000 addf1000 junk oc). fold cs.
        destruct (urun w1 (map toput cs)) as [w2|]; cbn [bind]; [|reflexivity].
        cbn [UvModel.urun ustep]. destruct (uvwrite _ _ _ _ _ _ w2 y) as [w3|]; cbn [bind]; [apply O1|reflexivity].
      * eapply valid_puts; [exact V1|apply (I_ty _ _ _ _ _ _ I)|]. eapply valid_puts; [exact V2|exact TY1|].
        fold e2 set2. cbn [UvSpec.valid]. split; [exact GY|]. split; [|exact O2].
        split.
        -- intros n Hn Hs. destruct (PX n Hn) as (i & K1 & K2 & K3).
           destruct (GPRE n Hn) as [Hq|Hq].
           ++ left. rewrite Hq. eapply (I_pre _ _ _ _ _ _ I2); eauto.
           ++ right. destruct prev as [q|]; [exact Hq|]. intros b Hb. apply Hq. apply (I_past _ _ _ _ _ _ I2); auto.
        -- intros HP. assert (HS : forall n, preamble_name n -> In n (map fst set2)).
           { intros n Hn. destruct (PX n Hn) as (i & K1 & K2 & K3). eapply (I_set _ _ _ _ _ _ I2); eauto. }
           split; [|split]; intros HX; exfalso; apply HX; apply HS; unfold preamble_name; auto.
      * rewrite dataset_puts, dataset_puts. fold e2. cbn [dataset]. fold e3. constructor; [|exact O3].
        cbn [Rout fst snd]. split; [reflexivity|]. split; [|split].
        -- intros n t b Hn Hw Hl. destruct (M_some _ _ _ _ _ _ _ _ _ M _ _ _ Hl) as (i & c & J1 & J2 & J3 & _ & _ & J4 & _).
           assert (NPn : ~ preamble_name n).
           { destruct Hw as [Hw|[-> _]]; [apply Hw|intros [X|[X|X]]; discriminate X]. }
           rewrite (J4 NPn) in J3. eapply (I_tr _ _ _ _ _ _ I3); eauto.
        -- intros n Hn1 Hn2. apply (I_un _ _ _ _ _ _ I3). auto.
        -- intros n Hn. unfold e3. apply look_rec_pre; exact Hn.
      * rewrite names_puts, names_puts. fold e2. cbn [names]. fold e3. exact O4.
    + (* the record is dropped *)
      destruct (IH r' l' p' L' (S k) e2 set2 prev past' U' fuel' Q' GL' FU' I2 GO PN' NCH) as (ops & O1 & O2 & O3 & O4).
      exists (map toput (fst m) ++ map toput cs ++ ops).
      split; [|split; [|split]].
      * intros w. rewrite E. fold m. rewrite OUT. rewrite urun_app. change (map (fun p0 => UPut (fst (fst p0)) (snd (fst p0)) (snd p0)) (fst m)) with (map toput (fst m)).
        destruct (urun w (map toput (fst m))) as [w1|]; cbn [bind]; [|reflexivity].
        rewrite urun_app. unfold copyvr. rewrite (copy_run feq8 feq4 add1000 addf1000 junk oc). fold cs.
        destruct (urun w1 (map toput cs)) as [w2|]; cbn [bind]; [apply O1|reflexivity].
      * eapply valid_puts; [exact V1|apply (I_ty _ _ _ _ _ _ I)|]. eapply valid_puts; [exact V2|exact TY1|]. exact O2.
      * rewrite dataset_puts, dataset_puts. exact O3.
      * rewrite names_puts, names_puts. exact O4.
Qed.
End Pipe.
