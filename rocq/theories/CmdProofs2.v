From Coq Require Import String.
From Verif Require Import Base UvModel UvSpec UvProofs UvProofs2 UvProofs3 UvProofs4 UvProofs5 UvProps
  PipeModel PipeSpec PipeProofs PipeProofs2 PipeProofs3 PipeProofs4 PipeProps CmdModel CmdSpec CmdProofs.
Ltac Zify.zify_post_hook ::= idtac.
Open Scope Z_scope.
Local Notation length := List.length.

Section Main.
Variable feq8 feq4 : list Z -> list Z -> bool.
Variable add1000 addf1000 : list Z -> list Z.
Variable junk : list Z.

(* what is known of a record read from the source *)
Definition src_row (nsize : Z) (d : row) (o : reader * rdres) : Prop :=
  exists x, snd o = RdRec x /\ same_rec feq8 feq4 (fst d) x /\ good_rec TReal nsize x /\ r_n x = nsize /\
    (forall n t b, look (snd d) n = Some (t, b) -> ~ preamble_name n -> uvgetvr (fst o) n = Some b).

(* opening and reading any number of times, then the records in order *)
Lemma source_rows f0 nsize ops hs :
  host_ok feq8 feq4 add1000 TReal -> valid feq8 feq4 add1000 addf1000 TReal nsize None [] [] ops -> plain nsize ops ->
  Forall (fun k => (k <= length (dataset TReal [] 0 ops))%nat) hs ->
  exists w, urun feq8 feq4 add1000 addf1000 junk TReal (uv_new TReal f0) ops = Ok w /\
    exists out last, reads nsize (S (length (dataset TReal [] 0 ops))) (fold_left rstep (sessions nsize hs) (uv_open w)) = (out ++ [(last, RdEof)])%list /\
      Forall2 (src_row nsize) (dataset TReal [] 0 ops) out.
Proof.
  intros H V (NE & FEW & HN & _) HK. destruct (sessions_rewind nsize hs) as [h EH].
  destruct (C13_rewind_restarts feq8 feq4 add1000 addf1000 junk TReal f0 nsize ops h H V FEW NE) as (w & E & out & last & R & S).
  exists w. split; [exact E|]. exists out, last. rewrite EH, fold_left_app. cbn [fold_left rstep]. split; [exact R|].
  destruct (pipe_main feq8 feq4 add1000 addf1000 junk TReal TReal f0 f0 nsize nsize ops hs [] [] [] (echo_if (fun _ => true)) (fun _ => []) (fun _ => [])
      (fun _ => TReal) [] H H V FEW NE HK) as (w1 & E1 & F & _ & _).
  assert (w1 = w) by congruence. subst w1. rewrite EH, fold_left_app in F. cbn [fold_left rstep] in F.
  assert (EO : reads nsize (length (dataset TReal [] 0 ops)) (uvrewind (fold_left rstep h (uv_open w))) = out).
  { pose proof (Forall2_length _ _ _ S) as L. clear -R L.
    rewrite <- Nat.add_1_r, reads_app in R.
    assert (A : forall (a b c d : list (reader * rdres)), (a ++ b = c ++ d)%list -> length a = length c -> a = c).
    { induction a as [|q a IH]; intros b [|q' c] d E LE; try discriminate; [reflexivity|]. cbn in E. injection E as -> E. f_equal. eapply IH; [exact E|]. cbn in LE. congruence. }
    eapply A; [exact R|]. rewrite <- L. clear. generalize (uvrewind (fold_left rstep h (uv_open w))). induction (length (dataset TReal [] 0 ops)); intros r; cbn; auto. }
  rewrite EO in F.
  assert (SF : Forall2 (fun d o => seen feq8 feq4 d (uvgetvr (fst o)) (snd o) /\
     exists x, snd o = RdRec x /\ same_rec feq8 feq4 (fst d) x /\ good_rec TReal nsize x) (dataset TReal [] 0 ops) out).
  { clear -S F. induction S as [|d o ds out S1 S2 IH]; [constructor|]. inversion F; subst. constructor; [auto|apply IH; assumption]. }
  eapply Forall2_mp; [|exact (Forall2_in _ _ _ SF)]. intros d o (((r' & S1 & S2 & S3) & x & X1 & X2 & X3) & I).
  exists x. split; [exact X1|]. split; [exact X2|]. split; [exact X3|]. split.
  - destruct (HN d I) as [A _]. destruct X2 as (_ & _ & _ & _ & _ & X2 & _). congruence.
  - intros n t b L NP. destruct (S3 n t b L) as [A _]. exact (A NP).
Qed.

Lemma plain_max nsize ops : plain nsize ops ->
  forall n d t b, In d (dataset TReal [] 0 ops) -> look (snd d) n = Some (t, b) -> n <> "corr"%string ->
     zlen b <= MAXVAR /\ (t = TInt \/ t = TInt2 -> zlen b = ext t).
Proof. intros (_ & _ & _ & _ & H). exact H. Qed.

Theorem rewrite_main f0 f0' nsize ops hs ks outs :
  host_ok feq8 feq4 add1000 TReal -> valid feq8 feq4 add1000 addf1000 TReal nsize None [] [] ops -> plain nsize ops ->
  let ds := dataset TReal [] 0 ops in
  Forall (fun k => (k <= length ds)%nat) hs ->
  exists w, urun feq8 feq4 add1000 addf1000 junk TReal (uv_new TReal f0) ops = Ok w /\
  let r0 := fold_left rstep (sessions nsize hs) (uv_open w) in
  exists out last, reads nsize (S (length ds)) r0 = (out ++ [(last, RdEof)])%list /\ Forall2 (src_row nsize) ds out /\
  (same_members ks r0 ->
   (forall i y, nth i outs None = Some y -> exists r x, nth_error out i = Some (r, RdRec x) /\ good_out nsize x y) ->
   exists w', (forall St mf (s0 : St),
       (forall i, (i < length (fst (steps mf s0 out)))%nat -> nth i outs None = nth i (fst (steps mf s0 out)) None) ->
       if snd (steps mf s0 out)
       then script feq8 feq4 add1000 addf1000 junk mf (Ok tt) nsize r0 ks [] f0' s0 = Finished w'
       else exists w'', script feq8 feq4 add1000 addf1000 junk mf (Ok tt) nsize r0 ks [] f0' s0 = Raised w'') /\
     (forall St (mf : St -> reader -> urec -> res (St * option urec)) s0, exists w'', script feq8 feq4 add1000 addf1000 junk mf Err nsize r0 ks [] f0' s0 = Raised w'') /\
     (kept_rows outs 0 ds <> [] ->
      exists res last, reads nsize (S (length (kept_rows outs 0 ds))) (uv_open w') = (res ++ [(last, RdEof)])%list /\
       Forall2 (fun q o => exists y, same_rec feq8 feq4 (snd q) y /\ snd o = RdRec y /\
           (forall n t b, user_name n \/ n = "nchan"%string -> look (snd (fst q)) n = Some (t, b) -> uvgetvr (fst o) n = Some b) /\
           (forall n, user_name n -> look (snd (fst q)) n = None -> uvgetvr (fst o) n = None) /\
           (forall n, preamble_name n -> uvgetvr (fst o) n = Some (pre_val n y)))
         (kept_rows outs 0 ds) res)).
Proof.
  intros H V PL ds HK. destruct (source_rows f0 nsize ops hs H V PL HK) as (w & E & out & last & R & SR).
  pose proof (plain_max nsize ops PL) as HC. destruct PL as (NE & FEW & HN & HS & _). fold ds in NE, HN, HS, HC, SR, R.
  exists w. split; [exact E|]. intros r0. fold r0 in R. exists out, last. split; [exact R|]. split; [exact SR|].
  pose (Tdef := fun r0 n => match rfind r0 n with Some v => v_ty v
     | None => if String.eqb n "nchan" then TInt else TReal end).
  destruct (pipe_main feq8 feq4 add1000 addf1000 junk TReal TReal f0 f0' nsize nsize ops hs ks [] [] (play outs) (fun _ => []) (fun _ => [])
      (Tdef r0) (nodup string_dec (names TReal [] 0 ops)) H H V FEW NE HK) as (w1 & E1 & _ & (ND & NM & RT & JN) & M).
  assert (w1 = w) by congruence. subst w1. fold r0 in ND, NM, RT, JN, M. fold ds in JN, M.
  assert (LO : length ds = length out) by (eapply Forall2_length; exact SR).
  assert (ER : reads nsize (length ds) r0 = out).
  { rewrite <- Nat.add_1_r, reads_app in R.
    assert (A : forall (a b c d : list (reader * rdres)), (a ++ b = c ++ d)%list -> length a = length c -> a = c).
    { induction a as [|q a IH]; intros b [|q' c] d EE LE; try discriminate; [reflexivity|]. cbn in EE. injection EE as -> EE. f_equal. eapply IH; [exact EE|]. cbn in LE. congruence. }
    eapply A; [exact R|]. rewrite <- LO. clear. generalize r0. induction (length ds); intros r; cbn; auto. }
  rewrite ER in M. change (fun k r x => play outs k r (widen (fun _ => []) (fun _ => []) TReal nsize k x)) with (play outs) in M.
  assert (FR : Forall (fun o : reader * rdres => exists x, snd o = RdRec x) out).
  { apply Forall_forall. intros o Ho. apply In_nth_error in Ho as [i Hi].
    destruct (Forall2_nth _ _ _ _ _ (Forall2_flip _ _ _ SR) Hi) as (d & _ & x & X & _). eauto. }
  intros SM GO.
  assert (SETALL : forall n, In n (names TReal [] 0 ops) -> forall d, In d ds -> look (snd d) n <> None).
  { intros n Hn. destruct (nth_error ds 0) as [d0|] eqn:D0; [|destruct ds; [congruence|discriminate]].
    eapply dataset_first; [exact D0|]. eapply HS; eauto. }
  assert (INK : forall n d, In d ds -> look (snd d) n <> None -> In n ks).
  { intros n d Hd Hl. apply SM. apply JN. apply SETALL. eapply dataset_names; eauto. }
  pose proof (play_expected outs (start ks [] []) ds out LO FR 0) as XP.
  set (ex := expected (play outs) (start ks [] []) 0 ds out) in *.
  assert (KI : forall q, In q (kept_rows outs 0 ds) -> In (fst q) ds /\ r_n (snd q) = nsize).
  { intros q Hq. destruct (kept_rows_in outs ds 0 q Hq) as (i & A1 & A2). split; [eapply nth_error_In; exact A1|].
    destruct (GO i (snd q) A2) as (r & x & _ & G). apply G. }
  assert (NCA : nchan_agrees ex).
  { unfold nchan_agrees. apply Forall_forall. intros e He.
    apply In_nth_error in He as [i Hi]. destruct (Forall2_nth _ _ _ _ _ (Forall2_flip _ _ _ XP) Hi) as (q & D1 & D2 & D3 & D4).
    apply nth_error_In in D1. destruct (KI q D1) as [K1 K2]. rewrite D2, D3, K2. apply HN. exact K1. }
  destruct M as (w' & C & RD).
  - exact SM.
  - intros v Hv Hc. unfold Tdef. apply In_nth_error in Hv as [i Hi].
    assert (RF : rfind r0 (v_name v) = Some v).
    { unfold rfind. rewrite find_name_map, (find_nth _ _ i ND); [exact Hi|]. now rewrite nth_error_map, Hi. }
    now rewrite RF.
  - unfold Tdef. destruct (rfind r0 "tscale") as [v|] eqn:RF; [|reflexivity].
    apply rfind_in in RF as [A B]. destruct (RT v A) as (_ & _ & _ & _ & X & _). apply X; exact B.
  - unfold Tdef. destruct (rfind r0 "nchan") as [v|] eqn:RF; [|reflexivity].
    apply rfind_in in RF as [A B]. destruct (RT v A) as (_ & _ & _ & X & _). apply X; exact B.
  - split.
    + intros n d (A & _) D0. apply (HS n d); [|exact D0]. apply NM. apply SM; exact A.
    + intros n d t b (_ & _ & _ & A) Hd Hl. eapply HC; eauto.
  - intros n b _ _ X. discriminate X.
  - intros n _ [].
  - apply play_good; [exact FR|]. exact GO.
  - rewrite (play_puts outs out FR). rewrite app_nil_r. intros n Hn. apply nodup_In.
    apply in_app_or in Hn as [Hn|Hn]; [apply NM; exact Hn|].
    destruct (nth_error ds 0) as [d0|] eqn:D0; [|destruct ds; [congruence|discriminate]].
    eapply dataset_names; [eapply nth_error_In; exact D0|].
    cbn in Hn. destruct Hn as [Hn|[Hn|[Hn|[Hn|[Hn|[]]]]]]; subst n; try (eapply dataset_corr; [eapply nth_error_In; exact D0|cbn; tauto]).
    destruct (HN d0 (nth_error_In _ _ D0)) as [_ A]. rewrite A. discriminate.
  - unfold few_variables in FEW. cbn [nodup] in FEW.
    destruct (in_dec string_dec "corr"%string (names TReal [] 0 ops)) as [_|X]; [exact FEW|].
    exfalso. apply X. apply corr_named. exact NE.
  - exists w'. split; [|split].
    + intros St mf s0 ST. unfold clone in C. unfold script.
      destruct (init_from_uv r0 ks [] [] (uv_new TReal f0') []) as [[wi tr]|]; [|discriminate C]. cbn [bind fst snd] in C.
      eapply (run_loop feq8 feq4 add1000 addf1000 junk nsize mf outs tr (fun _ => []) (fun _ => []) (length ds));
        [exact C|exact R|symmetry; exact LO|exact FR|exact ST].
    + intros St mf s0. unfold clone in C. unfold script.
      destruct (init_from_uv r0 ks [] [] (uv_new TReal f0') []) as [[wi tr]|]; [|discriminate C]. eauto.
    + intros KN. assert (LE : length (kept_rows outs 0 ds) = length ex) by (eapply Forall2_length; exact XP).
      destruct RD as (res & last' & R1 & R2).
      { intros X. rewrite X in LE. destruct (kept_rows outs 0 ds); [congruence|discriminate]. }
      exists res, last'. rewrite LE. split; [exact R1|].
      eapply Forall2_mp; [|exact (Forall2_comp _ _ _ _ _ (Forall2_in _ _ _ XP) R2)].
      intros q o ([[d' y] U] & ((D1 & D2 & D4) & D5) & y' & Y1 & Y2 & Y3 & Y4 & Y5). cbn [fst snd] in *. subst d' y U.
      apply KI in D5 as [D5 _].
      exists y'. split; [exact Y2|]. split; [exact Y1|]. split; [|split; [|exact Y5]].
      * intros n t b Hn Hl. eapply Y3; [|destruct Hn as [Hn|Hn]; [left; exact Hn|right; split; [exact Hn|exact NCA]]|exact Hl].
        split; [eapply INK; [exact D5|congruence]|]. split; [intros []|]. split; [reflexivity|].
        destruct Hn as [Hn|Hn]; [apply Hn|subst n; discriminate].
      * intros n Hn Hl. rewrite Y4; [|exact Hn|].
        -- unfold start. destruct (mem n ks && negb (mem n [])); reflexivity.
        -- intros (A & _). apply SM in A. exact (SETALL n (NM n A) (fst q) D5 Hl).
Qed.
End Main.
