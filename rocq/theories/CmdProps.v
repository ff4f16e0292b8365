From Coq Require Import String.
From Verif Require Import Base UvModel UvSpec UvProofs UvProofs2 UvProofs3 UvProofs4 UvProofs5 UvProps
  PipeModel PipeSpec PipeProofs PipeProofs2 PipeProofs3 PipeProofs4 PipeProps BaselineModel BaselineProps CmdModel CmdSpec CmdProofs CmdProofs2 CmdProofs3 CmdProofs4 CmdProofs5 CmdProofs6.
Ltac Zify.zify_post_hook ::= idtac.
Open Scope Z_scope.
Local Notation length := List.length.

(* C59. Each theorem: a data set of float visibilities, written by any history of calls (valid, plain), is opened,
   read any number of times (hs) and given to a script, which lists its variables in some order (ks). *)

Lemma nth_combine_r {A B} (l : list A) (m : list B) i p : nth_error (combine l m) i = Some p -> nth_error m i = Some (snd p).
Proof.
  revert m i. induction l as [|a l IH]; intros [|b m] [|i] P; try discriminate; [injection P as <-; reflexivity|exact (IH m i P)].
Qed.

(* uv_addsub: the second data set has at least as many records, and the same number of channels.
   The output is the first data set, each record combined with the second's record at the same place. *)
Theorem C59_addsub feq8 feq4 add1000 addf1000 junk cadd csub sub f0 f2 f0' nsize ops ops2 hs hs2 ks :
  host_ok feq8 feq4 add1000 TReal -> op8 cadd -> op8 csub ->
  valid feq8 feq4 add1000 addf1000 TReal nsize None [] [] ops -> plain nsize ops ->
  valid feq8 feq4 add1000 addf1000 TReal nsize None [] [] ops2 -> plain nsize ops2 ->
  let ds := dataset TReal [] 0 ops in let ds2 := dataset TReal [] 0 ops2 in
  Forall (fun k => (k <= length ds)%nat) hs -> Forall (fun k => (k <= length ds2)%nat) hs2 -> (length ds <= length ds2)%nat ->
  exists w w2, urun feq8 feq4 add1000 addf1000 junk TReal (uv_new TReal f0) ops = Ok w /\
    urun feq8 feq4 add1000 addf1000 junk TReal (uv_new TReal f2) ops2 = Ok w2 /\
  let r0 := fold_left rstep (sessions nsize hs) (uv_open w) in let r2 := fold_left rstep (sessions nsize hs2) (uv_open w2) in
  (same_members ks r0 ->
   exists w', script feq8 feq4 add1000 addf1000 junk (addsub cadd csub sub nsize) (Ok tt) nsize r0 ks [] f0' r2 = Finished w' /\
     rewritten feq8 feq4 fst (fun dd => combined (if sub then csub else cadd) (fst (fst dd)) (fst (snd dd))) (combine ds ds2) nsize w').
Proof.
  intros H HA HS V PL V2 PL2 ds ds2 HK HK2 LE.
  destruct (source_rows feq8 feq4 add1000 addf1000 junk f2 nsize ops2 hs2 H V2 PL2 HK2) as (w2 & E2 & out2 & l2 & R2 & S2). fold ds2 in R2, S2.
  destruct (source_rows feq8 feq4 add1000 addf1000 junk f0 nsize ops hs H V PL HK) as (w & E & out & last & R & S1). fold ds in R, S1.
  exists w, w2. split; [exact E|]. split; [exact E2|]. intros r0 r2 SM. fold r0 in R. fold r2 in R2.
  destruct (addsub_steps feq8 feq4 cadd csub sub nsize HA HS ds out S1 ds2 out2 r2 S2 LE ltac:(eauto)) as (ys & ST & F).
  destruct (rewrite_main feq8 feq4 add1000 addf1000 junk f0 f0' nsize ops hs ks (map Some ys) H V PL HK) as (w1 & E1 & out1 & last1 & R1 & _ & M).
  assert (w1 = w) by congruence. subst w1. fold ds in R1, M. fold r0 in R1, M.
  assert (out1 = out /\ last1 = last) as [-> ->]. { rewrite R in R1. apply app_inj_tail in R1 as [A B]. split; congruence. }
  assert (LD : length ds = length out) by (eapply Forall2_length; exact S1).
  assert (LC : length (@combine row row ds ds2) = length ds) by (rewrite combine_length; apply Nat.min_l; exact LE).
  assert (LY : length ds = length ys) by (rewrite <- (Forall2_length _ _ _ F); rewrite combine_length; rewrite LC, LD; symmetry; apply Nat.min_id).
  destruct M as (w' & M1 & _ & M3); [exact SM| |].
  - intros i y Hi. rewrite nth_all_some in Hi. destruct (Forall2_nth _ _ _ _ _ (Forall2_flip _ _ _ F) Hi) as (p & P1 & x & X1 & _ & _ & X2 & _).
    assert (P2 : nth_error out i = Some (snd p)).
    { exact (nth_combine_r _ _ _ _ P1). }
    destruct p as [p [r o]]. cbn [snd] in *. subst o. eauto.
  - exists w'. split.
    + specialize (M1 reader (addsub cadd csub sub nsize) r2). rewrite ST in M1. cbn [fst snd] in M1. apply M1. auto.
    + assert (KA : kept_rows (map Some ys) 0 ds = combine ds ys) by (rewrite kept_all; [reflexivity|rewrite LY; reflexivity]).
      rewrite KA in M3. eapply (finish feq8 feq4 add1000); [exact H| |apply M3].
      * clear -F LC LD LY. clearbody ds ds2. revert out ys ds2 F LC LD LY. induction ds as [|d ds IH]; intros out ys ds2 F LC LD LY.
        { destruct ds2; constructor. }
        { destruct out as [|o out]; [discriminate|]. destruct ys as [|y ys]; [discriminate|]. destruct ds2 as [|d2 ds2]; [discriminate|].
          cbn [combine] in *. apply f2cons in F as (b & m' & B & (x & X1 & X2 & X3 & X4 & X5) & F). injection B as <- <-. cbn [fst snd] in *.
          constructor; [cbn [fst snd]; split; [reflexivity|]; split; [eauto|exact X5]|]. eapply IH; cbn in *; eauto. }
      * destruct PL as (NE & _). fold ds in NE. destruct ds; [congruence|]. destruct ys; [discriminate LY|]. discriminate.
Qed.
Print Assumptions C59_addsub.

(* a second data set with fewer records: the script raises (IOError) *)
Theorem C59_addsub_too_short feq8 feq4 add1000 addf1000 junk cadd csub sub f0 f2 f0' nsize ops ops2 hs hs2 ks :
  host_ok feq8 feq4 add1000 TReal -> op8 cadd -> op8 csub ->
  valid feq8 feq4 add1000 addf1000 TReal nsize None [] [] ops -> plain nsize ops ->
  valid feq8 feq4 add1000 addf1000 TReal nsize None [] [] ops2 -> plain nsize ops2 ->
  let ds := dataset TReal [] 0 ops in let ds2 := dataset TReal [] 0 ops2 in
  Forall (fun k => (k <= length ds)%nat) hs -> Forall (fun k => (k <= length ds2)%nat) hs2 -> (length ds2 < length ds)%nat ->
  exists w w2, urun feq8 feq4 add1000 addf1000 junk TReal (uv_new TReal f0) ops = Ok w /\
    urun feq8 feq4 add1000 addf1000 junk TReal (uv_new TReal f2) ops2 = Ok w2 /\
  let r0 := fold_left rstep (sessions nsize hs) (uv_open w) in let r2 := fold_left rstep (sessions nsize hs2) (uv_open w2) in
  (same_members ks r0 ->
   exists w', script feq8 feq4 add1000 addf1000 junk (addsub cadd csub sub nsize) (Ok tt) nsize r0 ks [] f0' r2 = Raised w').
Proof.
  intros H HA HS V PL V2 PL2 ds ds2 HK HK2 LT.
  destruct (source_rows feq8 feq4 add1000 addf1000 junk f2 nsize ops2 hs2 H V2 PL2 HK2) as (w2 & E2 & out2 & l2 & R2 & S2). fold ds2 in R2, S2.
  destruct (source_rows feq8 feq4 add1000 addf1000 junk f0 nsize ops hs H V PL HK) as (w & E & out & last & R & S1). fold ds in R, S1.
  exists w, w2. split; [exact E|]. split; [exact E2|]. intros r0 r2 SM. fold r0 in R. fold r2 in R2.
  destruct (addsub_short feq8 feq4 cadd csub sub nsize HA HS ds out S1 ds2 out2 r2 l2 S2 LT R2) as (ys & ST & LY & F).
  destruct (rewrite_main feq8 feq4 add1000 addf1000 junk f0 f0' nsize ops hs ks (map Some ys) H V PL HK) as (w1 & E1 & out1 & last1 & R1 & _ & M).
  assert (w1 = w) by congruence. subst w1. fold ds in R1, M. fold r0 in R1, M.
  assert (out1 = out /\ last1 = last) as [-> ->]. { rewrite R in R1. apply app_inj_tail in R1 as [A B]. split; congruence. }
  destruct M as (w' & M1 & _ & M3); [exact SM| |].
  - intros i y Hi. rewrite nth_all_some in Hi. destruct (Forall2_nth _ _ _ _ _ (Forall2_flip _ _ _ F) Hi) as (p & P1 & x & X1 & _ & _ & X2).
    assert (P2 : nth_error out i = Some (snd p)).
    { exact (nth_combine_r _ _ _ _ P1). }
    destruct p as [p [r o]]. cbn [snd] in *. subst o. eauto.
  - specialize (M1 reader (addsub cadd csub sub nsize) r2). rewrite ST in M1. cbn [fst snd] in M1. apply M1. auto.
Qed.
Print Assumptions C59_addsub_too_short.

(* a record whose number of channels goes with neither equal counts nor a single channel is refused *)
Theorem C59_addsub_channels feq8 feq4 add1000 addf1000 junk cadd csub sub f0' nsize n2 r0 r2 r1 x r2' x2 ks w tr :
  init_from_uv r0 ks [] [] (uv_new TReal f0') [] = Ok (w, tr) -> scan_fuel r0 <> O ->
  uvread nsize r0 = (r1, RdRec x) -> uvread n2 r2 = (r2', RdRec x2) ->
  length (r_fl x) <> length (r_fl x2) -> length (r_fl x) <> 1%nat -> length (r_fl x2) <> 1%nat ->
  script feq8 feq4 add1000 addf1000 junk (addsub cadd csub sub n2) (Ok tt) nsize r0 ks [] f0' r2 = Raised w.
Proof.
  intros HI HF E E2 L1 L2 L3. unfold script. rewrite HI. destruct (scan_fuel r0) as [|n]; [congruence|]. cbn [pipe_run]. rewrite E.
  rewrite (addsub_shapes cadd csub sub n2 r2 r1 x x2 r2' E2 L1 L2 L3). reflexivity.
Qed.
Print Assumptions C59_addsub_channels.

(* pull_pol: exactly the records of the named polarisations, unchanged and in order *)
Lemma kept_filter feq8 feq4 nsize (sel : row -> bool) ds out : Forall2 (src_row feq8 feq4 nsize) ds out ->
  forall k outs, (forall i, nth (k + i) outs None = nth i (map (fun p : row * (reader * rdres) => if sel (fst p) then match snd (snd p) with RdRec x => Some x | _ => None end else None) (combine ds out)) None) ->
  Forall2 (fun d q => d = fst q /\ exists x, snd q = x /\ same_rec feq8 feq4 (fst d) x /\ good_rec TReal nsize x /\ r_n x = nsize) (filter sel ds) (kept_rows outs k ds).
Proof.
  intros F. induction F as [|d [r o] ds out (x & X1 & X2 & X3 & X4 & _) F IH]; intros k outs HN; [constructor|].
  cbn [snd] in X1. subst o. cbn [filter kept_rows]. pose proof (HN 0%nat) as H0. rewrite Nat.add_0_r in H0. cbn [combine map nth fst snd] in H0.
  assert (T : Forall2 (fun d q => d = fst q /\ exists x, snd q = x /\ same_rec feq8 feq4 (fst d) x /\ good_rec TReal nsize x /\ r_n x = nsize) (filter sel ds) (kept_rows outs (S k) ds)).
  { apply IH. intros i. specialize (HN (S i)). rewrite Nat.add_succ_r in HN. exact HN. }
  rewrite H0. destruct (sel d); [|exact T]. constructor; [|exact T]. cbn [fst snd]. split; [reflexivity|]. eauto.
Qed.

Lemma pull_steps feq8 feq4 nsize pols (sel : row -> bool) ds out : Forall2 (src_row feq8 feq4 nsize) ds out ->
  (forall d, In d ds -> exists p k, pol_at d k /\ In (p, k) pol_names /\ (sel d = true <-> In p pols)) ->
  steps (pull_pol pols) tt out = (map (fun p : row * (reader * rdres) => if sel (fst p) then match snd (snd p) with RdRec x => Some x | _ => None end else None) (combine ds out), true).
Proof.
  intros F. induction F as [|d [r o] ds out S F IH]; intros HP; [reflexivity|].
  pose proof S as S'. destruct S' as (x & X1 & _). cbn [snd] in X1. subst o. destruct (HP d (or_introl eq_refl)) as (p & k & P1 & P2 & P3).
  cbn [steps combine map fst snd]. assert (PP : pull_pol pols tt r x = Ok (tt, if existsb (String.eqb p) pols then Some x else None)).
  { unfold pull_pol. rewrite (pol_read feq8 feq4 nsize d (r, RdRec x) k S P1 : uv_pol r = Ok k). cbn [bind]. now rewrite (pol2str_spec p k P2). }
  rewrite PP. rewrite IH by (intros d' Hd; apply HP; right; exact Hd). cbn [fst snd].
  assert (B : existsb (String.eqb p) pols = sel d).
  { apply Bool.eq_true_iff_eq. rewrite P3, existsb_exists. split; [intros (q & Q1 & Q2); apply String.eqb_eq in Q2; subst q; exact Q1|intros Q; exists p; split; [exact Q|apply String.eqb_refl]]. }
  rewrite B. reflexivity.
Qed.

Theorem C59_pull_pol feq8 feq4 add1000 addf1000 junk pols f0 f0' nsize ops hs ks (sel : row -> bool) :
  host_ok feq8 feq4 add1000 TReal ->
  valid feq8 feq4 add1000 addf1000 TReal nsize None [] [] ops -> plain nsize ops ->
  let ds := dataset TReal [] 0 ops in
  Forall (fun k => (k <= length ds)%nat) hs ->
  (forall d, In d ds -> exists p k, pol_at d k /\ In (p, k) pol_names /\ (sel d = true <-> In p pols)) ->
  (exists d, In d ds /\ sel d = true) ->
  exists w, urun feq8 feq4 add1000 addf1000 junk TReal (uv_new TReal f0) ops = Ok w /\
  let r0 := fold_left rstep (sessions nsize hs) (uv_open w) in
  (same_members ks r0 ->
   exists w', script feq8 feq4 add1000 addf1000 junk (pull_pol pols) (Ok tt) nsize r0 ks [] f0' tt = Finished w' /\
     rewritten feq8 feq4 (fun d => d) (fun d => unchanged (fst d)) (filter sel ds) nsize w').
Proof.
  intros H V PL ds HK HP (d0 & D0 & D1).
  destruct (source_rows feq8 feq4 add1000 addf1000 junk f0 nsize ops hs H V PL HK) as (w & E & out & last & R & S1). fold ds in R, S1.
  exists w. split; [exact E|]. intros r0 SM. fold r0 in R.
  set (outs := map (fun p : row * (reader * rdres) => if sel (fst p) then match snd (snd p) with RdRec x => Some x | _ => None end else None) (combine ds out)).
  destruct (rewrite_main feq8 feq4 add1000 addf1000 junk f0 f0' nsize ops hs ks outs H V PL HK) as (w1 & E1 & out1 & last1 & R1 & _ & M).
  assert (w1 = w) by congruence. subst w1. fold ds in R1, M. fold r0 in R1, M.
  assert (out1 = out /\ last1 = last) as [-> ->]. { rewrite R in R1. apply app_inj_tail in R1 as [A B]. split; congruence. }
  destruct M as (w' & M1 & _ & M3); [exact SM| |].
  - intros i y Hi. unfold outs in Hi. clear -S1 Hi. revert i Hi. induction S1 as [|d [r o] ds out (x & X1 & X2 & X3 & X4 & _) F IH]; intros i Hi; [destruct i; discriminate|].
    cbn [snd] in X1. subst o. destruct i as [|i]; cbn [combine map nth fst snd] in Hi.
    + destruct (sel d); [|discriminate]. injection Hi as <-. exists r, x. split; [reflexivity|]. apply echo_out; assumption.
    + exact (IH i Hi).
  - exists w'. split.
    + specialize (M1 unit (pull_pol pols) tt). rewrite (pull_steps feq8 feq4 nsize pols sel ds out S1 HP) in M1. cbn [fst snd] in M1. apply M1. auto.
    + pose proof (kept_filter feq8 feq4 nsize sel ds out S1 0%nat outs (fun i => eq_refl)) as KF.
      eapply (finish feq8 feq4 add1000); [exact H| |apply M3].
      * eapply Forall2_mp; [|exact KF]. intros d [q1 q2] (Q1 & x & Q2 & Q3 & Q4 & Q5). cbn [fst snd] in *. subst q2 q1. split; [reflexivity|]. split.
        { exists x. split; [exact Q3|]. split; [exact Q5|]. apply echo_out; assumption. }
        intros y' Y. exact (echo_same feq8 feq4 d x y' Q3 Y).
      * intros K. apply Forall2_length in KF. apply (f_equal (@length _)) in K. assert (KL : length (filter sel ds) = 0%nat) by (etransitivity; [exact KF|exact K]). assert (I : In d0 (filter sel ds)) by (apply filter_In; auto).
        clear -I KL. destruct (filter sel ds); [destruct I|discriminate KL].
Qed.
Print Assumptions C59_pull_pol.

(* xtalk3 -i: a record loses the entry for its antennas (in either order) and polarisation; its flags
   stay; without an entry it is unchanged *)
Theorem C59_xtalk feq8 feq4 add1000 addf1000 junk csub fl2int es f0 f0' nsize ops hs ks :
  host_ok feq8 feq4 add1000 TReal -> op8 csub -> (forall a b, same4 feq4 a b -> fl2int a = fl2int b) ->
  valid feq8 feq4 add1000 addf1000 TReal nsize None [] [] ops -> plain nsize ops ->
  let ds := dataset TReal [] 0 ops in
  Forall (fun k => (k <= length ds)%nat) hs ->
  Forall xrange es -> Forall (fun e => spectrum nsize (snd e)) es ->
  (forall d, In d ds -> exists k i j, pairing fl2int mkbl d k i j /\ -9 <= k <= 6) ->
  exists w, urun feq8 feq4 add1000 addf1000 junk TReal (uv_new TReal f0) ops = Ok w /\
  let r0 := fold_left rstep (sessions nsize hs) (uv_open w) in
  (same_members ks r0 ->
   exists w', script feq8 feq4 add1000 addf1000 junk (xtalk csub fl2int (xfile es)) (Ok tt) nsize r0 ks [] f0' tt = Finished w' /\
     rewritten feq8 feq4 (fun d => d) (fun d y => forall k i j, pairing fl2int mkbl d k i j ->
       (forall e, In e es -> ~ for_pair e i j k) /\ unchanged (fst d) y \/
       exists e, In e es /\ for_pair e i j k /\ adjusted csub (fst d) (fun c => nth (Z.to_nat c) (snd e) []) y) ds nsize w').
Proof.
  intros H HS FS V PL ds HK XR XS HP.
  apply (all_rows feq8 feq4 add1000 addf1000 junk f0 f0' nsize ops hs ks); [exact H|exact V|exact PL|exact HK|].
  intros d o Hd S. destruct (HP d Hd) as (k & i & j & P & K). pose proof P as (P1 & P2).
  destruct (xtalk_one feq8 feq4 csub fl2int FS es nsize d o k i j HS XR XS S P1 K P2) as (x & y & X1 & X2 & X3 & X4).
  exists x, y. split; [exact X1|]. split; [exact X2|]. split; [exact X3|]. intros y' Y k' i' j' P'.
  destruct (pairing_fun fl2int d k i j k' i' j' P P') as (<- & <- & <-). exact (X4 y' Y).
Qed.
Print Assumptions C59_xtalk.

(* xrfi -m val, when no two records have the same antennas, polarisation and time. extra: the flags of
   outliers. The masks are gathered in one reading (hs1) and applied in another (hs). *)
Theorem C59_xrfi feq8 feq4 add1000 addf1000 junk ciszero fl2int reflag chans extra f0 f0' nsize ops hs1 hs ks :
  host_ok feq8 feq4 add1000 TReal -> (forall a b, same4 feq4 a b -> fl2int a = fl2int b) ->
  Forall (fun c => - nsize <= c < nsize) chans ->
  (forall k, length (extra k) = Z.to_nat nsize) -> (forall k b t t', feq8 t t' = true -> extra (k, b, t) = extra (k, b, t')) ->
  valid feq8 feq4 add1000 addf1000 TReal nsize None [] [] ops -> plain nsize ops ->
  let ds := dataset TReal [] 0 ops in
  Forall (fun k => (k <= length ds)%nat) hs1 -> Forall (fun k => (k <= length ds)%nat) hs ->
  (forall d, In d ds -> (exists k i j, pairing fl2int mkbl d k i j) /\ feq8 (r_t (fst d)) (r_t (fst d)) = true) ->
  (forall a b d d', nth_error ds a = Some d -> nth_error ds b = Some d' -> same_key feq8 fl2int mkbl d d' -> a = b) ->
  exists w, urun feq8 feq4 add1000 addf1000 junk TReal (uv_new TReal f0) ops = Ok w /\
  let r1 := fold_left rstep (sessions nsize hs1) (uv_open w) in
  let r0 := fold_left rstep (sessions nsize hs) (uv_open w) in
  (same_members ks r0 ->
   exists m, gather ciszero fl2int reflag chans (reads nsize (S (length ds)) r1) [] = Ok m /\
   exists w', script feq8 feq4 add1000 addf1000 junk (rfi_apply feq8 fl2int (more_flags extra m)) (Ok tt) nsize r0 ks [] f0' tt = Finished w' /\
     rewritten feq8 feq4 (fun d => d) (fun d y => forall k i j, pairing fl2int mkbl d k i j ->
       masked (fun c => (reflag = false /\ good (fst d) c = false) \/ ciszero (chan (fst d) c) = true \/ lists_chan chans nsize c \/
                        nth (Z.to_nat c) (extra (k, ij2bl i j, r_t (fst d))) false = true) (fst d) y) ds nsize w').
Proof.
  intros H FS FC EL ET V PL ds HK1 HK KEY DIST.
  destruct (source_rows feq8 feq4 add1000 addf1000 junk f0 nsize ops hs1 H V PL HK1) as (w & E & out & last & R & S1). fold ds in R, S1.
  exists w. split; [exact E|]. intros r1 r0 SM. fold r1 in R. rewrite R.
  destruct (rfi_main feq8 feq4 add1000 ciszero fl2int FS H reflag chans extra nsize ds out last FC EL ET S1 KEY DIST) as (m & M1 & M2).
  exists m. split; [exact M1|].
  destruct (all_rows feq8 feq4 add1000 addf1000 junk f0 f0' nsize ops hs ks (rfi_apply feq8 fl2int (more_flags extra m))
     (fun d y => forall k i j, pairing fl2int mkbl d k i j ->
       masked (fun c => (reflag = false /\ good (fst d) c = false) \/ ciszero (chan (fst d) c) = true \/ lists_chan chans nsize c \/
                        nth (Z.to_nat c) (extra (k, ij2bl i j, r_t (fst d))) false = true) (fst d) y) H V PL HK) as (w1 & E1 & A).
  - intros d o Hd S. destruct (KEY d Hd) as ((k & i & j & P) & _). destruct (M2 d o k i j Hd S P) as (x & y & X1 & X2 & X3 & X4).
    exists x, y. split; [exact X1|]. split; [exact X2|]. split; [exact X3|]. intros y' Y k' i' j' P'.
    destruct (pairing_fun fl2int d k i j k' i' j' P P') as (<- & <- & <-). exact (X4 y' Y).
  - assert (w1 = w) by congruence. subst w1. exact (A SM).
Qed.
Print Assumptions C59_xrfi.

(* mdlvis: cross-correlations become the model, or lose or gain it, and are zero where flagged;
   autocorrelations are unchanged in every mode *)
Theorem C59_mdlvis feq8 feq4 add1000 addf1000 junk cadd csub fl2int mode flagopt sd f0 f0' nsize ops hs ks :
  host_ok feq8 feq4 add1000 TReal -> op8 cadd -> op8 csub -> (forall a b, same4 feq4 a b -> fl2int a = fl2int b) ->
  mode <> MOther -> (forall p i j t t', feq8 t t' = true -> sd p i j t = sd p i j t') -> (forall p i j t, spectrum nsize (sd p i j t)) ->
  valid feq8 feq4 add1000 addf1000 TReal nsize None [] [] ops -> plain nsize ops ->
  let ds := dataset TReal [] 0 ops in
  Forall (fun k => (k <= length ds)%nat) hs ->
  (forall d, In d ds -> exists p k i j, pairing fl2int mkbl d k i j /\ In (p, k) pol_names) ->
  exists w, urun feq8 feq4 add1000 addf1000 junk TReal (uv_new TReal f0) ops = Ok w /\
  let r0 := fold_left rstep (sessions nsize hs) (uv_open w) in
  (same_members ks r0 ->
   exists w', script feq8 feq4 add1000 addf1000 junk (mdl cadd csub fl2int mode flagopt sd) (Ok tt) nsize r0 ks [] f0' tt = Finished w' /\
     rewritten feq8 feq4 (fun d => d) (fun d y => forall p k i j, pairing fl2int mkbl d k i j -> In (p, k) pol_names ->
       if i =? j then unchanged (fst d) y else
       forall c, 0 <= c < r_n y ->
         good y c = match mode with MSim => if flagopt then good (fst d) c else true | _ => good (fst d) c end /\
         chan y c = if good y c then (let s := nth (Z.to_nat c) (sd p i j (r_t (fst d))) [] in
                    match mode with MSim => s | MSub => csub (chan (fst d) c) s | _ => cadd (chan (fst d) c) s end) else zero) ds nsize w').
Proof.
  intros H HA HS FS MO ST SP V PL ds HK HP.
  apply (all_rows feq8 feq4 add1000 addf1000 junk f0 f0' nsize ops hs ks); [exact H|exact V|exact PL|exact HK|].
  intros d o Hd S. destruct (HP d Hd) as (p & k & i & j & P & K). pose proof P as (P1 & P2).
  assert (X : exists x y, snd o = RdRec x /\ mdl cadd csub fl2int mode flagopt sd tt (fst o) x = Ok (tt, Some y) /\ good_out nsize x y /\
    forall y', same_rec feq8 feq4 y y' -> if i =? j then unchanged (fst d) y' else
       forall c, 0 <= c < r_n y' ->
         good y' c = match mode with MSim => if flagopt then good (fst d) c else true | _ => good (fst d) c end /\
         chan y' c = if good y' c then (let s := nth (Z.to_nat c) (sd p i j (r_t (fst d))) [] in
                    match mode with MSim => s | MSub => csub (chan (fst d) c) s | _ => cadd (chan (fst d) c) s end) else zero).
  { destruct (Z.eqb_spec i j) as [<-|NE].
    - exact (mdl_auto feq8 feq4 cadd csub fl2int FS mode flagopt sd nsize d o k p i S P1 K P2).
    - exact (mdl_cross feq8 feq4 cadd csub fl2int FS mode flagopt sd nsize d o k p i j HA HS MO (ST p i j) (SP p i j) S P1 K P2 NE). }
  destruct X as (x & y & X1 & X2 & X3 & X4).
  exists x, y. split; [exact X1|]. split; [exact X2|]. split; [exact X3|]. intros y' Y p' k' i' j' P' K'.
  destruct (pairing_fun fl2int d k i j k' i' j' P P') as (<- & <- & <-).
  assert (p' = p) by (apply pol2str_spec in K, K'; congruence). subst p'. exact (X4 y' Y).
Qed.
Print Assumptions C59_mdlvis.

(* apply_cal: the gains are divided out of the spectrum, then it is phased; flags stay *)
Theorem C59_apply_cal feq8 feq4 add1000 addf1000 junk fl2int nogain nophs gain phase f0 f0' nsize ops hs ks :
  host_ok feq8 feq4 add1000 TReal -> (forall a b, same4 feq4 a b -> fl2int a = fl2int b) ->
  (forall p i j s, spectrum nsize s -> exists s', gain p i j s = Ok s' /\ spectrum nsize s') ->
  (forall p i j s, spectrum nsize s -> exists s', phase p i j s = Ok s' /\ spectrum nsize s') ->
  valid feq8 feq4 add1000 addf1000 TReal nsize None [] [] ops -> plain nsize ops ->
  let ds := dataset TReal [] 0 ops in
  Forall (fun k => (k <= length ds)%nat) hs ->
  (forall d, In d ds -> exists p k i j, pairing fl2int mkbl d k i j /\ In (p, k) pol_names) ->
  exists w, urun feq8 feq4 add1000 addf1000 junk TReal (uv_new TReal f0) ops = Ok w /\
  let r0 := fold_left rstep (sessions nsize hs) (uv_open w) in
  (same_members ks r0 ->
   exists w', script feq8 feq4 add1000 addf1000 junk (apply_cal fl2int nogain nophs gain phase) (Ok tt) nsize r0 ks [] f0' tt = Finished w' /\
     rewritten feq8 feq4 (fun d => d) (fun d y => forall p k i j, pairing fl2int mkbl d k i j -> In (p, k) pol_names ->
       exists s s1 s2, length s = Z.to_nat nsize /\ (forall c, 0 <= c < nsize -> nth (Z.to_nat c) s [] = chan (fst d) c) /\
         (if nogain then s1 = s else gain p i j s = Ok s1) /\ (if nophs then s2 = s1 else phase p i j s1 = Ok s2) /\
         forall c, 0 <= c < r_n y -> good y c = good (fst d) c /\ chan y c = nth (Z.to_nat c) s2 []) ds nsize w').
Proof.
  intros H FS HG HP' V PL ds HK HP.
  apply (all_rows feq8 feq4 add1000 addf1000 junk f0 f0' nsize ops hs ks); [exact H|exact V|exact PL|exact HK|].
  intros d o Hd S. destruct (HP d Hd) as (p & k & i & j & P & K). pose proof P as (P1 & P2).
  destruct (cal_one feq8 feq4 fl2int FS nogain nophs gain phase nsize d o k p i j (HG p i j) (HP' p i j) S P1 K P2) as (x & y & X1 & X2 & X3 & X4).
  exists x, y. split; [exact X1|]. split; [exact X2|]. split; [exact X3|]. intros y' Y p' k' i' j' P' K'.
  destruct (pairing_fun fl2int d k i j k' i' j' P P') as (<- & <- & <-).
  assert (p' = p) by (apply pol2str_spec in K, K'; congruence). subst p'. destruct (X4 y' Y) as (s1 & s2 & A1 & A2 & A3).
  exists (cells nsize (r_corr (fst d))), s1, s2. split; [apply cells_len|]. split; [|auto]. intros c Hc. apply cells_nth. lia.
Qed.
Print Assumptions C59_apply_cal.

(* combine_freqs with the data set's own number of channels copies it *)
Theorem C59_combine_freqs_same feq8 feq4 add1000 addf1000 junk ov f0 f0' nsize ops hs ks :
  host_ok feq8 feq4 add1000 TReal ->
  valid feq8 feq4 add1000 addf1000 TReal nsize None [] [] ops -> plain nsize ops ->
  let ds := dataset TReal [] 0 ops in
  Forall (fun k => (k <= length ds)%nat) hs ->
  exists w, urun feq8 feq4 add1000 addf1000 junk TReal (uv_new TReal f0) ops = Ok w /\
  let r0 := fold_left rstep (sessions nsize hs) (uv_open w) in
  (same_members ks r0 ->
   exists w', combine_freqs feq8 feq4 add1000 addf1000 junk nsize nsize r0 ks ov f0' = Finished w' /\
     rewritten feq8 feq4 (fun d => d) (fun d => unchanged (fst d)) ds nsize w').
Proof.
  intros H V PL ds HK. unfold combine_freqs. rewrite Z.eqb_refl.
  apply (all_rows feq8 feq4 add1000 addf1000 junk f0 f0' nsize ops hs ks (fun _ _ x => Ok (tt, Some x))); [exact H|exact V|exact PL|exact HK|].
  intros d o Hd (x & X1 & X2 & X3 & X4 & _). exists x, x. split; [exact X1|]. split; [reflexivity|]. split; [apply echo_out; assumption|].
  intros y' Y. exact (echo_same feq8 feq4 d x y' X2 Y).
Qed.
Print Assumptions C59_combine_freqs_same.

(* pull_ants looks up an option it never defines: it raises for every data set. *)
Theorem C59_pull_ants_refuted feq8 feq4 add1000 addf1000 junk f0 f0' nsize ops hs ks :
  host_ok feq8 feq4 add1000 TReal ->
  valid feq8 feq4 add1000 addf1000 TReal nsize None [] [] ops -> plain nsize ops ->
  Forall (fun k => (k <= length (dataset TReal [] 0 ops))%nat) hs ->
  exists w, urun feq8 feq4 add1000 addf1000 junk TReal (uv_new TReal f0) ops = Ok w /\
  let r0 := fold_left rstep (sessions nsize hs) (uv_open w) in
  (same_members ks r0 -> exists w', pull_ants feq8 feq4 add1000 addf1000 junk nsize r0 ks f0' = Raised w').
Proof.
  intros H V PL HK.
  destruct (rewrite_main feq8 feq4 add1000 addf1000 junk f0 f0' nsize ops hs ks [] H V PL HK) as (w & E & out & last & R & _ & M).
  exists w. split; [exact E|]. intros r0 SM. destruct M as (w' & _ & M2 & _); [exact SM|intros [|i] y Hi; discriminate|].
  exact (M2 unit (fun _ _ _ => Err) tt).
Qed.
Print Assumptions C59_pull_ants_refuted.

(* combine_freqs divides numbers of channels with /, which gives a float under Python 3: it raises at the
   first record whenever the number of channels asked for is not the data set's, for every data set. *)
Theorem C59_combine_freqs_refuted feq8 feq4 add1000 addf1000 junk want nsize r0 ks ov f0' w tr r1 x :
  want <> nsize -> init_from_uv r0 ks ov [] (uv_new TReal f0') [] = Ok (w, tr) -> scan_fuel r0 <> O -> uvread nsize r0 = (r1, RdRec x) ->
  combine_freqs feq8 feq4 add1000 addf1000 junk want nsize r0 ks ov f0' = Raised w.
Proof.
  intros NE HI HF E. unfold combine_freqs. rewrite (proj2 (Z.eqb_neq want nsize) NE). unfold script. rewrite HI.
  destruct (scan_fuel r0) as [|n]; [congruence|]. cbn [pipe_run]. rewrite E. reflexivity.
Qed.
Print Assumptions C59_combine_freqs_refuted.

(* a mode that mdlvis does not know raises at the first cross-correlation *)
Theorem C59_mdlvis_mode cadd csub fl2int flagopt sd feq8 feq4 nsize d o k p i j x :
  (forall a b, same4 feq4 a b -> fl2int a = fl2int b) ->
  src_row feq8 feq4 nsize d o -> snd o = RdRec x -> pairing fl2int mkbl d k i j -> In (p, k) pol_names -> i <> j ->
  mdl cadd csub fl2int MOther flagopt sd tt (fst o) x = Err.
Proof.
  intros FS S X [P OP] K NE. pose proof (pol_read feq8 feq4 nsize d o k S P) as PR. destruct S as (x' & X1 & X2 & _). assert (x' = x) by congruence. subst x'.
  destruct (ants_read feq8 feq4 fl2int FS d x i j X2 OP) as (A1 & A2). unfold mdl. rewrite PR. cbn [bind]. rewrite (pol2str_spec p k K). cbn [bind].
  rewrite A1, A2, (proj2 (Z.eqb_neq i j) NE). reflexivity.
Qed.
Print Assumptions C59_mdlvis_mode.

(* ---------- concrete cases ---------- *)
Definition x_src : list uop :=
  [UPut "pol" TInt (be4 (-5)); UPut "lst" TDble (dbl 5); URec (rec1 10 20 30); UPut "pol" TInt (be4 (-6)); URec (rec1 10 21 40);
   UPut "lst" TDble (dbl 6); URec (rec1 11 20 50); UPut "pol" TInt (be4 (-5)); URec (rec1 11 21 60)].
(* other times and antennas *)
Definition x_other : list uop :=
  [UPut "pol" TInt (be4 (-7)); URec (rec1 90 21 1); URec (rec1 91 20 2); URec (rec1 92 21 3); URec (rec1 93 20 4); URec (rec1 94 20 5)].
Definition x_short : list uop := [UPut "pol" TInt (be4 (-5)); URec (rec1 10 20 7)].
(* two records of the same antennas, polarisation and time *)
Definition x_twice : list uop :=
  [UPut "pol" TInt (be4 (-5)); URec (rec1 10 20 30);
   URec (Rec (dbl 1) (dbl 2) (dbl 3) (dbl 10) (flt 20) 2 [] (flt 70 ++ flt 71 ++ flt 72 ++ flt 73) [false; true])].
Definition x_add (a b : list Z) : list Z := map (fun p => (fst p + snd p) mod 256) (combine a b).
Definition x_sub (a b : list Z) : list Z := map (fun p => (fst p - snd p) mod 256) (combine a b).
Definition x_int (b : list Z) : Z := if hd 0 b =? 20 then 258 else if hd 0 b =? 21 then 257 else 0.
Definition x_zero (c : list Z) : bool := forallb (Z.eqb 0) c.
Definition x_extra (k : mkey) : list bool := [fst (fst k) =? -6; false].

Lemma op8_zip f : op8 (fun a b => map (fun p : Z * Z => f (fst p) (snd p)) (combine a b)).
Proof. intros a b A B. rewrite map_length, combine_length, A, B. reflexivity. Qed.
Lemma x_int_same a b : same4 list_eqb a b -> x_int a = x_int b.
Proof. intros [->|[H|H]]; [reflexivity| |]; apply list_eqb_eq in H; subst; reflexivity. Qed.

Ltac plain_tac := split; [vm_compute; discriminate|]; split; [unfold few_variables; vm_compute; lia|];
  split; [intros d H; cbn in H; repeat (destruct H as [<-|H]; [split; vm_compute; reflexivity|]); destruct H|];
  split; [intros n d Hn Hd; cbn in Hd; injection Hd as <-; apply look_of_in; cbn in Hn; cbn; tauto|
    intros n d t b Hd Hl _; eapply env_ok_spec; [|exact Hl]; cbn in Hd; repeat (destruct Hd as [<-|Hd]; [vm_compute; reflexivity|]); destruct Hd].

Lemma x_src_plain : plain 2 x_src. Proof. plain_tac. Qed.
Lemma x_other_plain : plain 2 x_other. Proof. plain_tac. Qed.
Lemma x_short_plain : plain 2 x_short. Proof. plain_tac. Qed.
Lemma x_twice_plain : plain 2 x_twice. Proof. plain_tac. Qed.
Lemma x_valid : valid list_eqb list_eqb h_add h_addf TReal 2 None [] [] x_src /\ valid list_eqb list_eqb h_add h_addf TReal 2 None [] [] x_other /\
  valid list_eqb list_eqb h_add h_addf TReal 2 None [] [] x_short /\ valid list_eqb list_eqb h_add h_addf TReal 2 None [] [] x_twice.
Proof.
  split; [unfold x_src; cbn [valid]; vstep|]. split; [unfold x_other; cbn [valid]; vstep|].
  split; [unfold x_short; cbn [valid]; vstep|unfold x_twice; cbn [valid]; vstep].
Qed.
Lemma x_pairs : forall d, In d (dataset TReal [] 0 x_src) -> exists p k i j, pairing x_int mkbl d k i j /\ In (p, k) pol_names /\ -9 <= k <= 6.
Proof.
  intros d H. cbn in H.
  repeat (destruct H as [<-|H]; [first
    [exists "xx"%string, (-5), 0, 1; split; [split; [split; [vm_compute; reflexivity|lia]|split; [lia|]; split; [lia|vm_compute; reflexivity]]|split; [cbn; tauto|lia]]
    |exists "xx"%string, (-5), 0, 0; split; [split; [split; [vm_compute; reflexivity|lia]|split; [lia|]; split; [lia|vm_compute; reflexivity]]|split; [cbn; tauto|lia]]
    |exists "yy"%string, (-6), 0, 1; split; [split; [split; [vm_compute; reflexivity|lia]|split; [lia|]; split; [lia|vm_compute; reflexivity]]|split; [cbn; tauto|lia]]
    |exists "yy"%string, (-6), 0, 0; split; [split; [split; [vm_compute; reflexivity|lia]|split; [lia|]; split; [lia|vm_compute; reflexivity]]|split; [cbn; tauto|lia]]]|]).
  destruct H.
Qed.

Example C59_hyps : host_ok list_eqb list_eqb h_add TReal /\ op8 x_add /\ op8 x_sub /\ (forall a b, same4 list_eqb a b -> x_int a = x_int b) /\
  (length (dataset TReal [] 0 x_src) <= length (dataset TReal [] 0 x_other))%nat /\ (length (dataset TReal [] 0 x_short) < length (dataset TReal [] 0 x_src))%nat /\
  same_members (rev (all_vars (opened x_src [2%nat; 0%nat]))) (opened x_src [2%nat; 0%nat]).
Proof.
  split; [apply h_ok; auto|]. split; [exact (op8_zip (fun a b => (a + b) mod 256))|]. split; [exact (op8_zip (fun a b => (a - b) mod 256))|]. split; [apply x_int_same|].
  split; [vm_compute; lia|]. split; [vm_compute; lia|]. apply all_ks. vm_compute. reflexivity.
Qed.
Definition x_sel (d : row) : bool := match look (snd d) "pol" with Some (_, b) => list_eqb b (be4 (-6)) | None => false end.
Example C59_pull_pol_hyps :
  (forall d, In d (dataset TReal [] 0 x_src) -> exists p k, pol_at d k /\ In (p, k) pol_names /\ (x_sel d = true <-> In p ["yy"%string; "I"%string])) /\
  (exists d, In d (dataset TReal [] 0 x_src) /\ x_sel d = true).
Proof.
  split.
  - intros d H. cbn in H. repeat (destruct H as [<-|H]; [first
      [exists "xx"%string, (-5); split; [split; [vm_compute; reflexivity|lia]|]; split; [cbn; tauto|vm_compute; intuition discriminate]
      |exists "yy"%string, (-6); split; [split; [vm_compute; reflexivity|lia]|]; split; [cbn; tauto|vm_compute; intuition]]|]).
    destruct H.
  - exists (nth 1 (dataset TReal [] 0 x_src) (rec1 0 0 0, [])). split; [right; left; reflexivity|vm_compute; reflexivity].
Qed.
Example C59_xrfi_hyps : (forall k, length (x_extra k) = Z.to_nat 2) /\
  (forall k b t t', list_eqb t t' = true -> x_extra (k, b, t) = x_extra (k, b, t')) /\
  (forall d, In d (dataset TReal [] 0 x_src) -> (exists k i j, pairing x_int mkbl d k i j) /\ list_eqb (r_t (fst d)) (r_t (fst d)) = true) /\
  (forall a b d d', nth_error (dataset TReal [] 0 x_src) a = Some d -> nth_error (dataset TReal [] 0 x_src) b = Some d' ->
     same_key list_eqb x_int mkbl d d' -> a = b).
Proof.
  split; [reflexivity|]. split; [reflexivity|]. split.
  { intros d H. split; [destruct (x_pairs d H) as (p & k & i & j & P & _); eauto|apply list_eqb_eq; reflexivity]. }
  intros a b d d' A B (k & i & j & i' & j' & [[P1 _] (_ & _ & P2)] & [[Q1 _] (_ & _ & Q2)] & IJ & T). apply list_eqb_eq in T.
  assert (PP : look (snd d) "pol" = look (snd d') "pol") by congruence. clear P1 Q1 P2 Q2 IJ.
  destruct a as [|[|[|[|a]]]]; destruct b as [|[|[|[|b]]]]; try reflexivity; cbn in A, B;
    try (injection A as <-); try (injection B as <-); try (destruct a; discriminate); try (destruct b; discriminate); exfalso; revert T PP; vm_compute; congruence.
Qed.
Example C59_mdl_hyps : (forall p i j t t', list_eqb t t' = true -> (fun (_ : string) (_ _ : Z) t => [firstn 8 (t ++ dbl 0); dbl 3]) p i j t = (fun (_ : string) (_ _ : Z) t => [firstn 8 (t ++ dbl 0); dbl 3]) p i j t') /\
  (forall p i j t, spectrum 2 ((fun (_ : string) (_ _ : Z) t => [firstn 8 (t ++ dbl 0); dbl 3]) p i j t)).
Proof.
  split; [intros p i j t t' E; apply list_eqb_eq in E; now subst|]. intros p i j t. split; [reflexivity|].
  constructor; [|constructor; [reflexivity|constructor]]. rewrite firstn_length, app_length. apply Nat.min_l. change (length (dbl 0)) with 8%nat. lia.
Qed.

(* what the scripts write, in full: time, data (the bytes that are not 0 of each channel), good, pol *)
Definition nz (c : list Z) : list Z := map (fun k => nth k c 0) [0%nat; 4%nat].
Definition x_shown (e : ended) (n : nat) : option (list (option (Z * list (list Z) * list bool * Z))) :=
  match e with
  | Finished w | Raised w => Some (map (fun o => match snd o, uv_pol (fst o) with
      | RdRec x, Ok p => Some (hd 0 (r_t x), map nz (cells (r_n x) (r_corr x)), r_fl x, p) | _, _ => None end) (reads 2 n (uv_open w)))
  | Broken => None
  end.
Definition x_script {St} (mf : St -> reader -> urec -> res (St * option urec)) (ops : list uop) (s0 : St) : ended :=
  script list_eqb list_eqb h_add h_addf [] mf (Ok tt) 2 (opened ops [1%nat]) (all_vars (opened ops [1%nat])) [] f_empty s0.

Example C59_addsub_run : x_shown (x_script (addsub x_add x_sub true 2) x_src (opened x_src [1%nat])) 5 =
  Some [Some (10, [[0; 0]; [0; 0]], [true; false], -5); Some (10, [[0; 0]; [0; 0]], [true; false], -6);
        Some (11, [[0; 0]; [0; 0]], [true; false], -6); Some (11, [[0; 0]; [0; 0]], [true; false], -5); None].
Proof. vm_compute. reflexivity. Qed.
Example C59_pull_pol_run : x_shown (x_script (pull_pol ["yy"%string; "I"%string]) x_src tt) 3 =
  Some [Some (10, [[40; 41]; [42; 43]], [true; false], -6); Some (11, [[50; 51]; [52; 53]], [true; false], -6); None].
Proof. vm_compute. reflexivity. Qed.
Example C59_xtalk_run : x_shown (x_script (xtalk x_sub x_int (xfile [(1, 0, -6, [dbl 9; dbl 8])])) x_src tt) 5 =
  Some [Some (10, [[30; 31]; [32; 33]], [true; false], -5); Some (10, [[40; 41]; [42; 43]], [true; false], -6);
        Some (11, [[41; 51]; [44; 53]], [true; false], -6); Some (11, [[60; 61]; [62; 63]], [true; false], -5); None].
Proof. vm_compute. reflexivity. Qed.
Definition x_rfi (reflag : bool) (chans : list Z) (ops : list uop) : ended :=
  match gather x_zero x_int reflag chans (reads 2 (S (length (dataset TReal [] 0 ops))) (opened ops [1%nat])) [] with
  | Ok m => x_script (rfi_apply list_eqb x_int (more_flags x_extra m)) ops tt
  | Err => Broken
  end.
Example C59_xrfi_run : x_shown (x_rfi true [-1] x_src) 5 =
  Some [Some (10, [[30; 31]; [0; 0]], [true; false], -5); Some (10, [[0; 0]; [0; 0]], [false; false], -6);
        Some (11, [[0; 0]; [0; 0]], [false; false], -6); Some (11, [[60; 61]; [0; 0]], [true; false], -5); None].
Proof. vm_compute. reflexivity. Qed.
Example C59_mdl_run : x_shown (x_script (mdl x_add x_sub x_int MSim false (fun _ _ _ _ => [dbl 1; dbl 3])) x_src tt) 5 =
  Some [Some (10, [[1; 0]; [3; 0]], [true; true], -5); Some (10, [[40; 41]; [42; 43]], [true; false], -6);
        Some (11, [[1; 0]; [3; 0]], [true; true], -6); Some (11, [[60; 61]; [62; 63]], [true; false], -5); None].
Proof. vm_compute. reflexivity. Qed.
Example C59_cal_run : x_shown (x_script (apply_cal x_int false true (fun _ _ j s => Ok (map (fun c => x_add c (dbl j)) s)) (fun _ _ _ _ => Err)) x_src tt) 5 =
  Some [Some (10, [[31; 31]; [33; 33]], [true; false], -5); Some (10, [[40; 41]; [42; 43]], [true; false], -6);
        Some (11, [[51; 51]; [53; 53]], [true; false], -6); Some (11, [[60; 61]; [62; 63]], [true; false], -5); None].
Proof. vm_compute. reflexivity. Qed.

(* uv_addsub never compares times, antennas or polarisations: data sets of other times and antennas are
   added without a word. *)
Theorem C59_addsub_unchecked_refuted :
  valid list_eqb list_eqb h_add h_addf TReal 2 None [] [] x_src /\ plain 2 x_src /\
  valid list_eqb list_eqb h_add h_addf TReal 2 None [] [] x_other /\ plain 2 x_other /\
  (forall d d', In d (dataset TReal [] 0 x_src) -> In d' (dataset TReal [] 0 x_other) -> r_t (fst d) <> r_t (fst d')) /\
  (exists w, x_script (addsub x_add x_sub false 2) x_src (opened x_other [1%nat]) = Finished w) /\
  x_shown (x_script (addsub x_add x_sub false 2) x_src (opened x_other [1%nat])) 5 =
  Some [Some (10, [[31; 33]; [0; 0]], [true; false], -5); Some (10, [[42; 44]; [0; 0]], [true; false], -6);
        Some (11, [[53; 55]; [0; 0]], [true; false], -6); Some (11, [[64; 66]; [0; 0]], [true; false], -5); None].
Proof.
  split; [exact (proj1 x_valid)|]. split; [exact x_src_plain|]. split; [exact (proj1 (proj2 x_valid))|]. split; [exact x_other_plain|].
  split; [intros d d' A B; cbn in A, B; repeat (destruct A as [<-|A]; [repeat (destruct B as [<-|B]; [vm_compute; discriminate|]); destruct B|]); destruct A|].
  split; [|vm_compute; reflexivity].
  destruct (x_script (addsub x_add x_sub false 2) x_src (opened x_other [1%nat])) as [w|w|] eqn:E; [eauto| |]; exfalso; revert E; vm_compute; discriminate.
Qed.
Print Assumptions C59_addsub_unchecked_refuted.

(* When the second data set of uv_addsub is too short the script raises half way. What it has written
   stays as a data set that reads without error, and the next run skips it (File exists). *)
Theorem C59_addsub_partial_output_refuted :
  valid list_eqb list_eqb h_add h_addf TReal 2 None [] [] x_src /\ plain 2 x_src /\
  valid list_eqb list_eqb h_add h_addf TReal 2 None [] [] x_short /\ plain 2 x_short /\
  (exists w, x_script (addsub x_add x_sub false 2) x_src (opened x_short [1%nat]) = Raised w) /\
  x_shown (x_script (addsub x_add x_sub false 2) x_src (opened x_short [1%nat])) 2 =
  Some [Some (10, [[37; 39]; [0; 0]], [true; false], -5); None].
Proof.
  split; [exact (proj1 x_valid)|]. split; [exact x_src_plain|]. split; [exact (proj1 (proj2 (proj2 x_valid)))|]. split; [exact x_short_plain|].
  split; [|vm_compute; reflexivity].
  destruct (x_script (addsub x_add x_sub false 2) x_src (opened x_short [1%nat])) as [w|w|] eqn:E; [|eauto|]; exfalso; revert E; vm_compute; discriminate.
Qed.
Print Assumptions C59_addsub_partial_output_refuted.

(* xrfi keeps its masks by polarisation, antennas and time: of two such records both get the mask of
   the later one, so flags of the first are lost. *)
Theorem C59_xrfi_repeated_refuted :
  valid list_eqb list_eqb h_add h_addf TReal 2 None [] [] x_twice /\ plain 2 x_twice /\
  map (fun d => r_fl (fst d)) (dataset TReal [] 0 x_twice) = [[true; false]; [false; true]] /\
  x_shown (x_rfi false [] x_twice) 3 = Some [Some (10, [[0; 0]; [32; 33]], [false; true], -5); Some (10, [[0; 0]; [72; 73]], [false; true], -5); None].
Proof.
  split; [exact (proj2 (proj2 (proj2 x_valid)))|]. split; [exact x_twice_plain|]. split; vm_compute; reflexivity.
Qed.
Print Assumptions C59_xrfi_repeated_refuted.
