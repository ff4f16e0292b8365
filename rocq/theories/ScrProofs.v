From Coq Require Import String.
From Verif Require Import Base UvModel UvSpec UvProofs UvProofs2 UvProofs3 UvProofs4 UvProofs5 UvProps
  PipeModel PipeSpec PipeProofs PipeProofs2 PipeProofs3 PipeProofs4 PipeProps BaselineModel BaselineProps CmdModel CmdSpec CmdProofs CmdProofs2 CmdProofs3 CmdProofs4 CmdProofs5 ScrModel.
Ltac Zify.zify_post_hook ::= idtac.
Open Scope Z_scope.
Local Notation length := List.length.

Section All.
Variable feq8 feq4 : list Z -> list Z -> bool.
Variable add1000 addf1000 : list Z -> list Z.
Variable junk : list Z.

(* a function with a state that answers every record, whatever the state *)
Lemma all_rows_st {St} (s0 : St) f0 f0' nsize ops hs ks (mf : St -> reader -> urec -> res (St * option urec)) (W : row -> urec -> Prop) :
  host_ok feq8 feq4 add1000 TReal -> valid feq8 feq4 add1000 addf1000 TReal nsize None [] [] ops -> plain nsize ops ->
  let ds := dataset TReal [] 0 ops in
  Forall (fun k => (k <= length ds)%nat) hs ->
  (forall s d o, In d ds -> src_row feq8 feq4 nsize d o -> exists x y s', snd o = RdRec x /\ mf s (fst o) x = Ok (s', Some y) /\ good_out nsize x y /\
     forall y', same_rec feq8 feq4 y y' -> W d y') ->
  exists w, urun feq8 feq4 add1000 addf1000 junk TReal (uv_new TReal f0) ops = Ok w /\
  let r0 := fold_left rstep (sessions nsize hs) (uv_open w) in
  (same_members ks r0 ->
   exists w', script feq8 feq4 add1000 addf1000 junk mf (Ok tt) nsize r0 ks [] f0' s0 = Finished w' /\
     rewritten feq8 feq4 (fun d => d) W ds nsize w').
Proof.
  intros H V PL ds HK HM.
  destruct (source_rows feq8 feq4 add1000 addf1000 junk f0 nsize ops hs H V PL HK) as (w & E & out & last & R & SR). fold ds in R, SR.
  pose (Q := fun (d : row) (o : reader * rdres) y => exists x, snd o = RdRec x /\ same_rec feq8 feq4 (fst d) x /\ r_n x = nsize /\ good_out nsize x y /\
     forall y', same_rec feq8 feq4 y y' -> W d y').
  assert (Y : exists ys, steps mf s0 out = (map Some ys, true) /\ Forall2 (fun o y => exists d, Q d o y) out ys /\ Forall2 (fun d y => exists o, Q d o y) ds ys).
  { clear R PL HK. clearbody ds. revert HM. generalize s0. induction SR as [|d o ds out S SR IH]; intros s HM.
    - exists []. repeat split; constructor.
    - destruct (HM s d o (or_introl eq_refl) S) as (x & y & s' & X1 & X2 & X3 & X4).
      destruct (IH s') as (ys & I1 & I2 & I3); [intros s1 d1 o1 I; apply HM; right; exact I|].
      assert (Z : Q d o y). { destruct S as (x' & S1 & S2 & S3 & S4 & _). assert (x' = x) by congruence. subst x'. exists x. auto. }
      exists (y :: ys). split; [|split; constructor; eauto]. destruct o as [r o]. cbn [snd fst] in *. subst o. cbn [steps]. rewrite X2, I1. reflexivity. }
  destruct Y as (ys & ST & Y1 & Y2).
  exists w. split; [exact E|]. intros r0 SM.
  destruct (rewrite_main feq8 feq4 add1000 addf1000 junk f0 f0' nsize ops hs ks (map Some ys) H V PL HK) as (w1 & E1 & out1 & last1 & R1 & _ & M).
  assert (w1 = w) by congruence. subst w1. fold ds in R1, M. fold r0 in R, R1, M.
  assert (out1 = out /\ last1 = last) as [-> ->]. { rewrite R in R1. apply app_inj_tail in R1 as [A B]. split; congruence. }
  destruct M as (w' & M1 & _ & M3).
  - exact SM.
  - intros i y Hi. rewrite nth_all_some in Hi. destruct (Forall2_nth _ _ _ _ _ (Forall2_flip _ _ _ Y1) Hi) as ([r o] & O1 & d & x & X1 & _ & _ & X2 & _).
    cbn [snd] in X1. subst o. eauto.
  - exists w'. split.
    + specialize (M1 St mf s0). rewrite ST in M1. cbn [fst snd] in M1. apply M1. auto.
    + assert (LY : length ds = length ys) by (eapply Forall2_length; exact Y2).
      assert (KA : kept_rows (map Some ys) 0 ds = combine ds ys) by (rewrite kept_all; [reflexivity|rewrite LY; reflexivity]).
      rewrite KA in M3. eapply (finish feq8 feq4 add1000); [exact H| |apply M3].
      * clear -Y2. induction Y2 as [|d y ds ys (o & x & X1 & X2 & X3 & X5 & X6) F IH]; [constructor|]. cbn [combine].
        constructor; [|exact IH]. cbn [fst snd]. split; [reflexivity|]. split; [eauto|exact X6].
      * destruct PL as (NE & _). fold ds in NE. destruct ds; [congruence|]. destruct ys; [discriminate LY|]. discriminate.
Qed.

Variable fl2int : list Z -> Z.
Hypothesis fl2int_same : forall a b, same4 feq4 a b -> fl2int a = fl2int b.
Variable active : string -> bool.

Lemma time_same {A} (f : list Z -> A) cur d x : (forall t t', feq8 t t' = true -> f t = f t') -> same_rec feq8 feq4 (fst (d : row)) x ->
  f (array_time feq8 cur (r_t x)) = f (r_t (fst d)).
Proof.
  intros FT (_ & _ & _ & T & _). transitivity (f (r_t x)).
  - unfold array_time. destruct cur as [c|]; [|reflexivity]. destruct (feq8 c (r_t x)) eqn:E; [apply FT, E|reflexivity].
  - destruct T as [T|[T|T]]; [now rewrite T|symmetry; now apply FT|now apply FT].
Qed.

Lemma phs_one (setphs has_src : bool) (unphs offs turn : string -> list Z -> Z -> Z -> list (list Z) -> turned) (zeroed : list Z -> list Z) nsize cur d o k p i j :
  let f := if setphs then unphs else if has_src then turn else offs in
  (forall c : list Z, length c = 8%nat -> length (zeroed c) = 8%nat) -> active p = true ->
  (forall t t', feq8 t t' = true -> f p t i j = f p t' i j) ->
  (i <> j -> forall t s, spectrum nsize s -> match f p t i j s with Turned s' => spectrum nsize s' | Below => True | Raises => False end) ->
  src_row feq8 feq4 nsize d o -> pol_at d k -> In (p, k) pol_names -> of_pair fl2int mkbl (fst d) i j ->
  exists x y s', snd o = RdRec x /\ phs feq8 fl2int active setphs has_src unphs offs turn zeroed cur (fst o) x = Ok (s', Some y) /\ good_out nsize x y /\
   forall y', same_rec feq8 feq4 y y' -> if i =? j then unchanged (fst d) y' else
     forall c, 0 <= c < r_n y' -> good y' c = good (fst d) c /\
       chan y' c = match f p (r_t (fst d)) i j (cells nsize (r_corr (fst d))) with Turned s => nth (Z.to_nat c) s [] | _ => zeroed (chan (fst d) c) end.
Proof.
  intros f Z8 AC FT SP S P K OP. pose proof (pol_read feq8 feq4 nsize d o k S P) as PR. destruct S as (x & X1 & X2 & X3 & X4 & _).
  destruct (ants_read feq8 feq4 fl2int fl2int_same d x i j X2 OP) as (A1 & A2). exists x. unfold phs. rewrite PR. cbn [bind]. rewrite (pol2str_spec p k K). cbn [bind]. rewrite AC. cbn [negb].
  rewrite A1, A2. fold f. destruct (Z.eqb_spec i j) as [<-|NE].
  - exists x. eexists. split; [exact X1|]. split; [reflexivity|]. split; [apply echo_out; assumption|]. intros y' Y. exact (echo_same feq8 feq4 d x y' X2 Y).
  - rewrite (time_same (fun t => f p t i j) cur d x FT X2).
    destruct (good_parts _ _ X3 X4) as (Q & C1 & C2 & C3). pose proof (same_rec_data _ _ _ _ X2) as (B1 & B2 & B3).
    assert (S0 : spectrum nsize (cells (r_n x) (r_corr x))) by (split; assumption). specialize (SP NE (r_t (fst d)) _ S0).
    assert (EC : cells nsize (r_corr (fst d)) = cells (r_n x) (r_corr x)) by (rewrite B2, X4; reflexivity). rewrite EC.
    destruct (f p (r_t (fst d)) i j (cells (r_n x) (r_corr x))) as [s| |]; [| |destruct SP].
    + destruct SP as [SL S8]. destruct (new_spectrum feq8 feq4 nsize x s (r_fl x) X3 X4 S8 SL C3) as (N1 & N3).
      eexists. eexists. split; [exact X1|]. split; [reflexivity|]. split; [exact N1|]. intros y' Y c Hc. destruct (N3 y' Y) as (N4 & N5). rewrite N4 in Hc. destruct (N5 c Hc) as (N6 & N7).
      split; [|exact N7]. rewrite N6. unfold good. now rewrite B3.
    + assert (M8 : all8 (map zeroed (cells (r_n x) (r_corr x)))) by (unfold all8 in *; rewrite Forall_forall in *; intros c I; apply in_map_iff in I as (c' & <- & I); auto).
      destruct (new_spectrum feq8 feq4 nsize x (map zeroed (cells (r_n x) (r_corr x))) (r_fl x) X3 X4 M8 ltac:(rewrite map_length; exact C2) C3) as (N1 & N3).
      eexists. eexists. split; [exact X1|]. split; [reflexivity|]. split; [exact N1|]. intros y' Y c Hc. destruct (N3 y' Y) as (N4 & N5). rewrite N4 in Hc. destruct (N5 c Hc) as (N6 & N7).
      split; [rewrite N6; unfold good; now rewrite B3|]. rewrite N7, (nth_indep _ [] (zeroed [])) by (rewrite map_length, C2; lia). rewrite map_nth. f_equal.
      rewrite cells_nth by lia. unfold chan. now rewrite B2.
Qed.

Variable cmul cdiv : list Z -> list Z -> list Z.
Variable ciszero : list Z -> bool.
Variable one : list Z.
(* the gain of a channel *)
Definition gain_at (passband srcflux : bool) (pb : list (list Z)) (bm : option (list (list Z))) (sp : list (list Z)) (c : nat) : list Z :=
  let a := if passband then match bm with Some b => cmul (nth c pb []) (nth c b []) | None => nth c pb [] end else match bm with Some b => nth c b [] | None => one end in
  if srcflux then match passband, bm with false, None => nth c sp [] | _, _ => cmul a (nth c sp []) end else a.

Lemma zip_nth (f : list Z -> list Z -> list Z) (a b : list (list Z)) c : length a = length b -> (c < length a)%nat -> nth c (map (fun p => f (fst p) (snd p)) (combine a b)) [] = f (nth c a []) (nth c b []).
Proof.
  intros L C. rewrite (nth_indep _ [] (f [] [])) by (rewrite map_length, combine_length, <- L, Nat.min_id; exact C).
  rewrite (map_nth (fun p => f (fst p) (snd p)) _ ([], [])). rewrite combine_nth by exact L. reflexivity.
Qed.
Lemma times_nth a b nsize : op8 cmul -> (forall s, a = Some s -> spectrum nsize s) -> (forall s, b = Some s -> spectrum nsize s) ->
  exists g, times cmul a b = Ok g /\ (forall s, g = Some s -> spectrum nsize s) /\
    match a, b with None, _ => g = b | _, None => g = a | Some x, Some y => exists s, g = Some s /\ forall c, (c < Z.to_nat nsize)%nat -> nth c s [] = cmul (nth c x []) (nth c y []) end.
Proof.
  intros O8 A B. destruct a as [x|]; [|exists b; auto]. destruct b as [y|]; [|exists (Some x); auto]. destruct (A x eq_refl) as [L1 E1]. destruct (B y eq_refl) as [L2 E2].
  exists (Some (map (fun p => cmul (fst p) (snd p)) (combine x y))). split; [|split].
  - cbn [times]. rewrite bcast_same by congruence. reflexivity.
  - intros s [= <-]. split; [rewrite zip_len by congruence; exact L1|]. apply zip_88; [exact E1|exact E2|congruence|exact O8].
  - eexists. split; [reflexivity|]. intros c C. apply zip_nth; lia || congruence.
Qed.

Lemma flux_one (passband beam srcflux : bool) pb resp (spec : list Z -> list (list Z)) nsize cur d o k p i j bm :
  op8 cmul -> op8 cdiv -> length one = 8%nat -> active p = true ->
  (forall t t', feq8 t t' = true -> resp p t i j = resp p t' i j) -> (forall t t', feq8 t t' = true -> spec t = spec t') ->
  (beam = true -> srcflux = true) -> (if beam then exists b, bm = Some b /\ resp p (r_t (fst d)) i j = Some b /\ spectrum nsize b else bm = None) ->
  spectrum nsize (pb p i j) -> spectrum nsize (spec (r_t (fst d))) ->
  src_row feq8 feq4 nsize d o -> pol_at d k -> In (p, k) pol_names -> of_pair fl2int mkbl (fst d) i j ->
  exists x y s', snd o = RdRec x /\ flux_cal feq8 fl2int active cmul cdiv ciszero one passband beam srcflux pb resp spec cur (fst o) x = Ok (s', Some y) /\ good_out nsize x y /\
   forall y', same_rec feq8 feq4 y y' -> forall c, 0 <= c < r_n y' -> good y' c = good (fst d) c /\
       chan y' c = let g := gain_at passband srcflux (pb p i j) bm (spec (r_t (fst d))) (Z.to_nat c) in cdiv (chan (fst d) c) (if ciszero g then one else g).
Proof.
  intros O8 D8 L1 AC RT ST BS BM SPB SSP S P K OP. pose proof (pol_read feq8 feq4 nsize d o k S P) as PR. destruct S as (x & X1 & X2 & X3 & X4 & _).
  destruct (ants_read feq8 feq4 fl2int fl2int_same d x i j X2 OP) as (A1 & A2). exists x. unfold flux_cal. rewrite PR. cbn [bind]. rewrite (pol2str_spec p k K). cbn [bind]. rewrite AC. cbn [negb].
  rewrite A1, A2. cbv zeta. rewrite (time_same (fun t => resp p t i j) cur d x RT X2), (time_same spec cur d x ST X2).
  destruct (good_parts _ _ X3 X4) as (Q & C1 & C2 & C3). pose proof (same_rec_data _ _ _ _ X2) as (B1 & B2 & B3).
  assert (EB : (if beam then if srcflux then match resp p (r_t (fst d)) i j with Some b => Ok (Some b) | None => Err end else Err else Ok None) = Ok bm).
  { destruct beam; [rewrite (BS eq_refl); destruct BM as (b & -> & -> & _)|rewrite BM]; reflexivity. }
  rewrite EB. cbn [bind].
  destruct (times_nth (if passband then Some (pb p i j) else None) bm nsize O8) as (g1 & T1 & T2 & T3).
  { intros s E. destruct passband; [injection E as <-; exact SPB|discriminate]. }
  { intros s ->. destruct beam; [destruct BM as (b & E & _ & B); injection E as ->; exact B|discriminate]. }
  rewrite T1. cbn [bind]. destruct (times_nth g1 (if srcflux then Some (spec (r_t (fst d))) else None) nsize O8 T2) as (g2 & T4 & T5 & T6).
  { intros s E. destruct srcflux; [injection E as <-; exact SSP|discriminate]. }
  rewrite T4. cbn [bind].
  assert (GA : forall c, (c < Z.to_nat nsize)%nat -> match g2 with None => one | Some s => nth c s [] end = gain_at passband srcflux (pb p i j) bm (spec (r_t (fst d))) c).
  { clear T1 T2 T4 T5 EB. intros c C. unfold gain_at. destruct passband, bm as [b|], srcflux; cbn [times] in T3.
    - destruct T3 as (s & -> & T3). destruct T6 as (s2 & -> & T6). rewrite T6, T3 by exact C. reflexivity.
    - destruct T3 as (s & -> & T3). rewrite T6. apply T3, C.
    - rewrite T3 in T6. destruct T6 as (s2 & -> & T6). apply T6, C.
    - rewrite T3 in T6. rewrite T6. reflexivity.
    - rewrite T3 in T6. destruct T6 as (s2 & -> & T6). apply T6, C.
    - rewrite T3 in T6. rewrite T6. reflexivity.
    - rewrite T3 in T6. rewrite T6. reflexivity.
    - rewrite T3 in T6. rewrite T6. reflexivity. }
  set (dv := fun c g => cdiv c (if ciszero g then one else g)).
  assert (DV : forall a b, length a = 8%nat -> length b = 8%nat -> length (dv a b) = 8%nat) by (intros a b A B; unfold dv; apply D8; [exact A|destruct (ciszero b); assumption]).
  assert (BC : exists q, bcast dv (cells (r_n x) (r_corr x)) (match g2 with None => [one] | Some g => g end) = Ok q /\ all8 q /\ length q = Z.to_nat nsize /\
     forall c, (c < Z.to_nat nsize)%nat -> nth c q [] = dv (nth c (cells (r_n x) (r_corr x)) []) (gain_at passband srcflux (pb p i j) bm (spec (r_t (fst d))) c)).
  { destruct g2 as [g|].
    - destruct (T5 g eq_refl) as [G1 G2]. exists (map (fun p => dv (fst p) (snd p)) (combine (cells (r_n x) (r_corr x)) g)). split; [apply bcast_same; congruence|].
      split; [apply zip_88; [exact C1|exact G2|congruence|exact DV]|]. split; [rewrite zip_len by congruence; exact C2|].
      intros c C. rewrite zip_nth by (congruence || lia). rewrite <- (GA c C). reflexivity.
    - exists (map (fun a => dv a one) (cells (r_n x) (r_corr x))). split; [|split; [|split]].
      + unfold bcast. destruct (cells (r_n x) (r_corr x)) as [|a [|b l]]; cbn; try reflexivity.
      + unfold all8 in *. rewrite Forall_forall in *. intros c I. apply in_map_iff in I as (c' & <- & I). auto.
      + rewrite map_length. exact C2.
      + intros c C. rewrite (nth_indep _ [] (dv [] one)) by (rewrite map_length, C2; exact C). rewrite (map_nth (fun a => dv a one)). rewrite <- (GA c C). reflexivity. }
  destruct BC as (q & Q1 & Q2 & Q3 & Q4). rewrite Q1. cbn [bind]. destruct (new_spectrum feq8 feq4 nsize x q (r_fl x) X3 X4 Q2 Q3 C3) as (N1 & N3).
  eexists. eexists. split; [exact X1|]. split; [reflexivity|]. split; [exact N1|]. intros y' Y c Hc. destruct (N3 y' Y) as (N4 & N5). rewrite N4 in Hc. destruct (N5 c Hc) as (N6 & N7).
  split; [rewrite N6; unfold good; now rewrite B3|]. rewrite N7, Q4 by lia. unfold dv. cbv zeta. f_equal. rewrite cells_nth by lia. unfold chan. now rewrite B2.
Qed.
End All.
