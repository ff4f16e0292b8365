From Verif Require Import Base.
From Coq Require Import String.
From Verif Require Import UvModel UvSpec UvProofs UvProofs2 UvProofs3 UvProofs4 UvProofs5 UvProps
  PipeModel PipeSpec PipeProofs PipeProofs2 PipeProofs3.
Ltac Zify.zify_post_hook ::= idtac.
Open Scope Z_scope.
Local Notation length := List.length.

Lemma good_outs_ext feq8 feq4 oc f T (t1 t2 : string -> Prop) ns : (forall n, t1 n -> t2 n) ->
  forall rs prev past k, good_outs feq8 feq4 oc f T t2 ns prev past k rs -> good_outs feq8 feq4 oc f T t1 ns prev past k rs.
Proof.
  intros H. induction rs as [|[r [x| |]] rs IH]; intros prev past k G; cbn in *; auto. destruct G as [G1 G2]. split.
  - eapply Forall_impl; [|exact G1]. intros p (A & B & C & D). repeat (split; auto).
  - destruct (snd (f k r x)); [|auto]. destruct G2 as (A & B & C). auto.
Qed.

Lemma Forall2_mp {A B} (P Q : A -> B -> Prop) l m : (forall a b, P a b -> Q a b) -> Forall2 P l m -> Forall2 Q l m.
Proof. intros H F. induction F; constructor; auto. Qed.

Lemma Forall2_length {A B} (P : A -> B -> Prop) l m : Forall2 P l m -> length l = length m.
Proof. intros F. induction F; cbn; congruence. Qed.

Lemma Forall2_comp {A B C} (P : A -> B -> Prop) (Q : B -> C -> Prop) l m n :
  Forall2 P l m -> Forall2 Q m n -> Forall2 (fun a c => exists b, P a b /\ Q b c) l n.
Proof. intros F. revert n. induction F; intros n G; inversion G; subst; constructor; eauto. Qed.

Lemma incl_few ops oc NS : In "corr"%string NS -> incl (names oc [] 0 ops) NS -> (length NS <= 128)%nat -> few_variables oc ops.
Proof.
  intros HC H L. unfold few_variables. eapply Nat.le_trans; [|exact L]. apply NoDup_incl_length; [apply NoDup_nodup|].
  intros n Hn. apply nodup_In in Hn. destruct Hn as [<-|Hn]; [exact HC|apply H; exact Hn].
Qed.

Lemma names_mono oc ops : forall e pn n, In n (map fst e) -> In n (names oc e pn ops).
Proof.
  induction ops as [|[m t b|x] ops IH]; intros e pn n H; cbn [names]; auto.
  - apply IH. destruct b; cbn; auto.
  - apply IH. unfold env_rec. cbn [map fst In]. do 4 right.
    destruct oc; cbn; repeat right; destruct (r_n x =? pn); cbn; auto.
Qed.

Lemma look_in (e : env) n : look e n <> None -> In n (map fst e).
Proof. induction e as [|[m y] e IH]; cbn; [congruence|]. destruct (String.eqb_spec m n); auto. Qed.

Lemma look_of_in (e : env) n : In n (map fst e) -> look e n <> None.
Proof. induction e as [|[m y] e IH]; cbn; [tauto|]. intros [->|H]; [now rewrite String.eqb_refl|]. destruct (String.eqb m n); [discriminate|auto]. Qed.

Lemma dataset_names oc ops : forall e pn d n, In d (dataset oc e pn ops) -> look (snd d) n <> None -> In n (names oc e pn ops).
Proof.
  induction ops as [|[m t b|x] ops IH]; intros e pn d n Hd H; cbn [dataset names] in *; [destruct Hd|eapply IH; eauto|].
  destruct Hd as [<-|Hd]; [|eapply IH; eauto]. apply names_mono. apply look_in. exact H.
Qed.

Lemma corr_named oc ops : forall e pn, dataset oc e pn ops <> [] -> In "corr"%string (names oc e pn ops).
Proof.
  intros e pn H. destruct (dataset oc e pn ops) as [|[x e'] l] eqn:D; [congruence|].
  apply (dataset_names oc ops e pn (x, e')); [rewrite D; left; reflexivity|].
  clear -D. revert e pn D. induction ops as [|[n t bs|y] ops IH]; intros e pn D; cbn [dataset] in D; [discriminate|eauto|].
  inversion D; subst. cbn [snd]. unfold env_rec. cbn [look]. rewrite String.eqb_refl. discriminate.
Qed.

Lemma pipe_main feq8 feq4 add1000 addf1000 junk sc oc f0 f0' nsize nsize' ops hs ks ov ex mf jc jf T NS :
  host_ok feq8 feq4 add1000 sc -> host_ok feq8 feq4 add1000 oc ->
  valid feq8 feq4 add1000 addf1000 sc nsize None [] [] ops -> few_variables sc ops ->
  let ds := dataset sc [] 0 ops in
  ds <> [] -> Forall (fun k => (k <= length ds)%nat) hs ->
  exists w, urun feq8 feq4 add1000 addf1000 junk sc (uv_new sc f0) ops = Ok w /\
  let r0 := fold_left rstep (sessions nsize hs) (uv_open w) in
  let rs := reads nsize (length ds) r0 in
  let f := fun k r x => mf k r (widen jc jf sc nsize k x) in
  let out := expected f (start ks ov ex) 0 ds rs in
  Forall2 (fun d o => exists x, snd o = RdRec x /\ same_rec feq8 feq4 (fst d) x /\ good_rec sc nsize x) ds rs /\
  (NoDup (map v_name (rd_vars r0)) /\ incl (map v_name (rd_vars r0)) (names sc [] 0 ops) /\
   (forall v, In v (rd_vars r0) -> rty sc (v_name v) (v_ty v)) /\
   (forall n, (forall d, In d ds -> look (snd d) n <> None) -> In n (map v_name (rd_vars r0)))) /\
  (same_members ks r0 ->
  (forall v, In v (rd_vars r0) -> v_name v <> "corr"%string -> v_ty v = T (v_name v)) ->
  T "tscale"%string = TReal -> T "nchan"%string = TInt ->
  copyable ks ov ex ds ->
  (forall n b, In n ks -> ~ In n ex -> getov ov n = Some b -> n <> "corr"%string -> ~ preamble_name n /\ good_put n (T n) b) ->
  (forall n, preamble_name n -> ~ In n ex) ->
  good_outs feq8 feq4 oc f T (tracked ks ov ex) nsize' None (fun n b => uvgetvr r0 n = Some b) 0 rs ->
  incl (map v_name (rd_vars r0) ++ builtins oc ++ put_names f 0 rs) NS -> (length NS <= 128)%nat ->
  exists w', clone feq8 feq4 add1000 addf1000 junk oc mf jc jf sc nsize r0 ks ov ex f0' = Ok w' /\
    (out <> [] -> exists res last, reads nsize' (S (length out)) (uv_open w') = res ++ [(last, RdEof)] /\
       Forall2 (fun q o => comes_out feq8 feq4 (tracked ks ov ex) (nchan_agrees out) q (uvgetvr (fst o)) (snd o)) out res)).
Proof.
  intros [HC H1 H2 H3 H4 H5] HO V FEW ds NE HK.
  destruct (written feq8 feq4 add1000 addf1000 junk sc HC H1 H2 H3 H4 H5 f0 ops nsize V FEW)
    as (w & L & E & OPEN & TAIL & CI & NDN & LEN & NMS & RT). destruct (CI NE) as [ic IC].
  assert (NMS' : incl (wnames w) (names sc [] 0 ops)).
  { intros n Hn. destruct (NMS n Hn) as [<-|Hn']; [apply corr_named; exact NE|exact Hn']. }
  clear NMS. rename NMS' into NMS. fold ds in OPEN.
  exists w. split; [exact E|]. intros r0 rs f out.
  set (N := wnames w) in *. set (tys := wtys w) in *.
  assert (OP : forall r, ready w r -> RS feq8 feq4 sc nsize N tys r none none L ds).
  { intros r (A1 & A2 & A3 & A4 & A5 & A6 & A7 & A8 & A9). apply OPEN; auto. }
  assert (DL : (1 <= length ds)%nat) by (destruct ds; [congruence|cbn; lia]).
  destruct (sess_J feq8 feq4 sc HC nsize N tys w L ds hs OP DL HK) as [RD JJ].
  assert (ER : r0 = fold_left (sess nsize) (1%nat :: hs) (uv_open w)) by (unfold r0, sessions; apply fold_sess).
  rewrite <- ER in RD, JJ. clear ER. pose proof (OP r0 RD) as Q.
  assert (RDS : forall ds r l p L, RS feq8 feq4 sc nsize N tys r l p L ds ->
    Forall2 (fun d o => exists x, snd o = RdRec x /\ same_rec feq8 feq4 (fst d) x /\ good_rec sc nsize x) ds (reads nsize (length ds) r)).
  { clear -HC. induction ds as [|[x e] ds IH]; intros r l p L Q; cbn [reads length]; constructor.
    - destruct (read_rec feq8 feq4 sc HC nsize N tys r l p L x e ds Q)
        as (r' & l' & p' & L' & a & E & Q' & (x' & X1 & X2 & _) & _ & (y & Y1 & Y2) & _). rewrite E. cbn [snd fst].
      assert (y = x') by congruence. subst y. exists x'. auto.
    - destruct (read_rec feq8 feq4 sc HC nsize N tys r l p L x e ds Q) as (r' & l' & p' & L' & a & E & Q' & _).
      rewrite E. cbn [fst]. eapply IH; exact Q'. }
  split; [eapply RDS; exact Q|]. clear RDS.
  assert (RN : map v_name (rd_vars r0) = N) by apply RD.
  assert (RTY : map v_ty (rd_vars r0) = tys) by apply RD.
  split.
  { rewrite RN. split; [exact NDN|]. split; [exact NMS|]. split.
    - intros v Hv. apply In_nth_error in Hv as [i Hi]. apply (RT i).
      + rewrite <- RN, nth_error_map, Hi. reflexivity.
      + rewrite <- RTY, nth_error_map, Hi. reflexivity.
    - intros n Hn. destruct (JJ n Hn) as (i & _ & _ & _ & _ & _ & Hi & _). eapply nth_error_In; eauto. }
  intros [KND KM] HT Tts Tnc [CP1 CP2] HOV HEX GO NSI NSL.
  rewrite RN in NSI.
  assert (SH : forall n, In n N -> (String.length n <= 8)%nat).
  { intros n Hn. eapply (names_short feq8 feq4 add1000 addf1000 sc nsize ops None [] []); [exact V|intros ? []|]. apply NMS; exact Hn. }
  assert (HT' : forall i n t, nth_error N i = Some n -> nth_error tys i = Some t -> n <> "corr"%string -> t = T n).
  { intros i n t Hi Ht Hc. rewrite <- RTY in Ht. destruct (nth_map v_ty _ _ _ Ht) as (v & V1 & V2).
    assert (v_name v = n). { rewrite <- RN, nth_error_map, V1 in Hi. cbn in Hi. congruence. } subst n t.
    apply HT; [eapply nth_error_In; eauto|exact Hc]. }
  (* values and types of the source's variables *)
  assert (D0 : exists d0, nth_error ds 0 = Some d0) by (destruct ds; [congruence|cbn; eauto]). destruct D0 as [d0 D0].
  assert (TS : forall n, tracked ks ov ex n -> forall d, In d ds -> look (snd d) n <> None).
  { intros n Hn. eapply dataset_first; [exact D0|]. eapply CP1; eauto. }
  pose (P := fun k b' => good_put k (T k) b' /\ (preamble_name k -> uvgetvr r0 k = Some b')).
  assert (IN : forall k, In k ks -> ~ In k ex -> k <> "corr"%string -> exists v, rfind r0 k = Some v /\ v_ty v = T k /\
     (getov ov k = None -> exists b b', v_buf v = Some b /\ reput (T k) b = Ok b' /\ P k b')).
  { intros k Hk Hx Hc. apply KM in Hk as HkN. rewrite RN in HkN. apply In_nth_error in HkN as [i Hi].
    assert (HV : exists v, nth_error (rd_vars r0) i = Some v /\ v_name v = k).
    { apply nth_map. now rewrite RN. }
    destruct HV as (v & V1 & V2). exists v. split; [|split].
    - rewrite (rfind_nth _ _ _ _ _ r0 i k (Q_rel _ _ _ _ _ _ _ _ _ _ _ Q) eq_refl NDN Hi). exact V1.
    - rewrite <- V2. apply HT; [eapply nth_error_In; eauto|congruence].
    - intros OV. assert (TK : tracked ks ov ex k) by (repeat split; auto).
      destruct (JJ k (TS k TK)) as (i' & v' & c & d & t & b & J1 & J2 & J3 & J4 & J5 & J6 & J7 & J8 & J9 & J10).
      assert (i' = i) by (apply (proj1 (NoDup_nth_error N) NDN); [apply nth_error_Some; congruence|congruence]). subst i'.
      assert (v' = v) by congruence. subst v'. pose proof (HT' _ _ _ J1 J2 Hc) as Tt.
      destruct (RT _ _ _ J1 J2) as (Y1 & Y2 & Y3 & Y4 & Y5 & _).
      destruct (CP2 k d t b TK J5 J6) as [CA CB].
      assert (MX : zlen c <= MAXVAR).
      { destruct (in_dec string_dec k ["coord"; "time"; "baseline"]%string) as [I|I].
        - unfold zlen. rewrite J8.
          + cbn in I. destruct I as [<-|[<-|[<-|[]]]]; vm_compute; discriminate.
          + cbn in I. unfold preamble_name. destruct I as [<-|[<-|[<-|[]]]]; auto.
        - rewrite J7; [exact CA|]. intros [X|[X|X]]; apply I; subst k; cbn; auto. }
      assert (NP : t = TInt \/ t = TInt2 \/ t = TByte -> ~ preamble_name k).
      { intros Ht [X|[X|X]]; [rewrite (Y1 X) in Ht|rewrite (Y2 X) in Ht|rewrite (Y3 X) in Ht]; intuition discriminate. }
      assert (GP : good_put k t c).
      { unfold good_put. split; [apply SH; eapply nth_error_In; eauto|]. split; [exact Hc|]. split; [lia|]. split; [exact J10|].
        assert (PL : forall m, k = m -> preamble_name m -> length c = pre_len m) by (intros m <- Hm; auto).
        split; [intros X; split; [auto|rewrite (PL _ X); [reflexivity|left; reflexivity]]|].
        split; [intros X; split; [auto|rewrite (PL _ X); [reflexivity|right; left; reflexivity]]|].
        split; [intros X; split; [auto|rewrite (PL _ X); [reflexivity|right; right; reflexivity]]|].
        split; auto. }
      assert (GV : uvgetvr r0 k = Some c).
      { unfold uvgetvr. rewrite (rfind_nth _ _ _ _ _ r0 i k (Q_rel _ _ _ _ _ _ _ _ _ _ _ Q) eq_refl NDN Hi), V1. exact J4. }
      exists c, (match t with TByte => c ++ [0] | _ => c end). rewrite <- Tt. split; [exact J4|].
      unfold reput, P. rewrite Z.gtb_ltb. replace (MAXVAR <? zlen c) with false by lia. rewrite <- Tt. split.
      + destruct t; try reflexivity; (rewrite J7 by (apply NP; auto); rewrite CB by auto; rewrite Z.eqb_refl; reflexivity).
      + split.
        * destruct t; try exact GP. destruct GP as (G1 & G2 & G3 & G4 & _).
          unfold good_put. split; [exact G1|]. split; [exact G2|].
          assert (ZL : zlen (c ++ [0]) = zlen c + 1) by apply zlen_app. unfold MAXVAR in MX.
          split; [lia|]. split; [cbn [ext]; apply Z.mod_1_r|].
          assert (NPk : ~ preamble_name k) by (apply NP; auto).
          split; [intros X; exfalso; apply NPk; left; exact X|].
          split; [intros X; exfalso; apply NPk; right; left; exact X|].
          split; [intros X; exfalso; apply NPk; right; right; exact X|].
          split; intros X; [exact (Y4 X)|exact (Y5 X)].
        * intros HP. rewrite GV. destruct t; auto. exfalso. apply NP; auto. }
  destruct (init_ops feq8 feq4 add1000 addf1000 junk oc r0 ov ex T P ks KND IN) as (ps & tr & I1 & I2 & I3 & I4 & I5).
  assert (LK0 : forall n d, In d ds -> preamble_name n -> look (snd d) n <> None).
  { intros n d Hd Hn. eapply (dataset_first sc ops n [] 0 d0 D0); [|exact Hd].
    destruct d0 as [xx ee]. destruct (after_match feq8 feq4 sc HC nsize N tys 0 ds r0 none none L Q (goodl_none tys) DL) as (l' & p' & x1 & e1 & _).
    clear -D0 Hn. unfold ds in D0. revert D0. generalize (@nil (string * (ty * list Z))) 0. induction ops as [|[m t b|y] o IH]; intros e pn D0; cbn in D0; [discriminate|eapply IH; exact D0|].
    inversion D0; subst. cbn [snd]. rewrite look_rec_pre by exact Hn. discriminate. }
  assert (PK : forall n, preamble_name n -> In n tr).
  { intros n Hn. apply I2. assert (NI : In n N).
    { destruct (JJ n (fun d Hd => LK0 n d Hd Hn)) as (i & _ & _ & _ & _ & _ & Hi & _). eapply nth_error_In; eauto. }
    assert (NC : n <> "corr"%string) by (destruct Hn as [ -> | [ -> | -> ] ]; discriminate).
    assert (NK : In n ks) by (apply KM; rewrite RN; exact NI).
    repeat split; auto. destruct (getov ov n) eqn:OV; auto. exfalso. apply (proj1 (HOV n l NK (HEX n Hn) OV NC)); exact Hn. }
  set (e1 := eputs [] ps). set (set1 := sputs [] ps).
  assert (TYE : forall n t b, look e1 n = Some (t, b) -> n = "corr"%string \/ t = T n).
  { apply eputs_ty; [|intros ? ? ? X; discriminate X]. apply Forall_forall. intros [[n t] b] Hq. cbn [pty pname fst snd]. apply I3 in Hq. tauto. }
  assert (INVI : INV N tys T tr NS (nchan_agrees out) e1 set1 None none (fun n b => uvgetvr r0 n = Some b) (start ks ov ex)).
  { constructor.
    - intros; discriminate.
    - intros; discriminate.
    - intros n [Hn Ht]. unfold start.
      destruct (in_dec string_dec n (map pname ps)) as [IP|IP].
      + apply in_map_iff in IP as ([[n' t] b] & IP1 & IP2). cbn in IP1; subst n'. unfold e1. rewrite (eputs_at _ _ _ _ I5 IP2).
        destruct (I3 _ _ _ IP2) as (A & B & C & D & F).
        destruct F as [F|[F _]]; [|exfalso; apply Ht; apply I2; repeat split; auto].
        apply mem_In in A. rewrite A. assert (ME : mem n ex = false) by (destruct (mem n ex) eqn:X; auto; apply mem_In in X; contradiction).
        rewrite ME, F. destruct b; reflexivity.
      + unfold e1. rewrite eputs_out by exact IP. cbn. destruct (mem n ks) eqn:MK; [|reflexivity]. destruct (mem n ex) eqn:ME; [reflexivity|].
        apply mem_In in MK. assert (NX : ~ In n ex) by (rewrite <- mem_In; congruence). destruct Hn as (Hn1 & Hn2 & _).
        destruct (getov ov n) as [b|] eqn:OV; cbn.
        * exfalso. apply IP. apply in_map_iff. exists (n, T n, b). split; [reflexivity|]. apply I4; auto.
        * reflexivity.
    - exact TYE.
    - intros _ n b Hn Hi. apply sputs_in in Hi as [[]|[t Hi]]. destruct (I3 _ _ _ Hi) as (A & B & C & D & [F|[F G]]).
      + exfalso. apply (proj1 (HOV _ _ A B F C)). exact Hn.
      + apply G. exact Hn.
    - intros; discriminate.
    - apply eputs_names; [|intros ? []]. intros n Hn. apply in_map_iff in Hn as ([[n' t] b] & IP1 & IP2). cbn in IP1; subst n'.
      apply I3 in IP2 as (A & _). apply KM in A. rewrite RN in A. apply NSI. apply in_or_app. left; exact A. }
  assert (GO' : good_outs feq8 feq4 oc f T (fun n => In n tr) nsize' None (fun n b => uvgetvr r0 n = Some b) 0 rs).
  { eapply good_outs_ext; [|exact GO]. intros n Hn. apply I2; exact Hn. }
  assert (LF : (length L < scan_fuel r0)%nat).
  { pose proof (Q_enc _ _ _ _ _ _ _ _ _ _ _ Q) as EN. destruct (Q_off _ _ _ _ _ _ _ _ _ _ _ Q) as [O1 O2].
    destruct (enc_len _ _ _ _ O1 O2 EN) as [EL _]. unfold scan_fuel. unfold zlen in EL. lia. }
  destruct (pipe_ops feq8 feq4 add1000 addf1000 junk sc oc HC mf jc jf nsize nsize' N tys T tr NS (nchan_agrees out) SH RT HT' Tts Tnc)
    with (ds := ds) (r := r0) (l := @none Z) (p := @none (list Z)) (L := L) (k := 0%nat) (e := e1) (set := set1) (prev := @None urec)
         (past := fun n b => uvgetvr r0 n = Some b) (U := start ks ov ex) (fuel := scan_fuel r0)
    as (op & O1 & O2 & O3 & O4); auto.
  { intros n Hn. apply I2 in Hn as (A & _ & _ & B). split; [|exact B]. apply KM in A. now rewrite RN in A. }
  { intros n Hn. apply NSI. apply in_or_app. left; exact Hn. }
  { intros n Hn. apply NSI. apply in_or_app. right. apply in_or_app. left; exact Hn. }
  { apply goodl_none. }
  { intros n Hn. apply NSI. apply in_or_app. right. apply in_or_app. right; exact Hn. }
  set (full := map toput ps ++ op).
  assert (VF : valid feq8 feq4 add1000 addf1000 oc nsize' None [] [] full).
  { apply valid_puts with (T := T); [|intros ? ? ? X; discriminate X|exact O2].
    apply Forall_forall. intros [[n t] b] Hq. cbn [pty pname fst snd]. destruct (I3 _ _ _ Hq) as (A & B & C & D & F). subst t.
    split; [|reflexivity]. destruct F as [F|[F G]]; [apply (HOV _ _ A B F C)|apply G]. }
  assert (FF : few_variables oc full).
  { apply incl_few with (NS := NS); [apply NSI; apply in_or_app; right; apply in_or_app; left; left; reflexivity| |exact NSL]. unfold full. rewrite names_puts. exact O4. }
  assert (DF : dataset oc [] 0 full = dataset oc e1 0 op) by (unfold full; rewrite dataset_puts; reflexivity).
  assert (CL : clone feq8 feq4 add1000 addf1000 junk oc mf jc jf sc nsize r0 ks ov ex f0' =
               urun feq8 feq4 add1000 addf1000 junk oc (uv_new oc f0') full).
  { unfold clone. rewrite I1. unfold full. rewrite urun_app.
    destruct (urun feq8 feq4 add1000 addf1000 junk oc (uv_new oc f0') (map toput ps)) as [w1|]; cbn [bind fst snd app]; [apply O1|reflexivity]. }
  destruct HO as [GC G1 G2 G3 G4 G5].
  destruct (written feq8 feq4 add1000 addf1000 junk oc GC G1 G2 G3 G4 G5 f0' full nsize' VF FF) as (w' & _ & E' & _).
  exists w'. rewrite CL. split; [exact E'|]. intros NO.
  assert (ND : dataset oc [] 0 full <> []).
  { rewrite DF. intros X. cbn [prevn] in O3. rewrite X in O3. apply Forall2_length in O3. apply NO. apply length_zero_iff_nil. exact O3. }
  assert (HO' : host_ok feq8 feq4 add1000 oc) by (constructor; assumption).
  destruct (C12_records_in_order feq8 feq4 add1000 addf1000 junk oc f0' nsize' full HO' VF FF ND)
    as (w2 & E2 & res & last & RR & F2 & _).
  assert (w2 = w') by congruence. subst w2. exists res, last. rewrite DF in RR, F2. cbn [prevn] in O3.
  fold rs f out in O3.
  assert (LE : length out = length (dataset oc e1 0 op)) by (eapply Forall2_length; exact O3).
  rewrite LE. split; [exact RR|].
  eapply Forall2_mp; [|exact (Forall2_comp _ _ _ _ _ O3 F2)].
  intros [[d y] U] o ([y1 ey] & (R1 & R2 & R3 & R4) & (y' & Y1 & Y2 & Y3) & UN). cbn [fst snd] in *. subst y1.
  cbn [comes_out]. exists y'. split; [exact Y1|]. split; [exact Y2|]. split; [|split].
  - intros n t b Hn Hw Hl. apply I2 in Hn. specialize (R2 n t b Hn Hw Hl). destruct (Y3 _ _ _ R2) as (K & _). apply K.
    destruct Hw as [Hw|[-> _]]; [apply Hw|intros [X|[X|X]]; discriminate X].
  - intros n Hu Hn. rewrite <- (R3 n Hu) by (rewrite I2; exact Hn).
    destruct (look ey n) as [[t b]|] eqn:LK; cbn; [|apply UN; exact LK]. destruct (Y3 _ _ _ LK) as (K & _). apply K. apply Hu.
  - intros n Hn. specialize (R4 n Hn). destruct (Y3 _ _ _ R4) as (_ & K1 & K2 & K3).
    destruct Hn as [ -> | [ -> | -> ] ]; unfold pre_val; cbn; auto.
Qed.
