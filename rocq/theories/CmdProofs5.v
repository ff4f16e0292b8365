From Coq Require Import String.
From Verif Require Import Base UvModel UvSpec UvProofs UvProofs2 UvProofs3 UvProofs4 UvProofs5 UvProps
  PipeModel PipeSpec PipeProofs PipeProofs2 PipeProofs3 PipeProofs4 PipeProps BaselineModel BaselineProps CmdModel CmdSpec CmdProofs CmdProofs2 CmdProofs3 CmdProofs4.
Ltac Zify.zify_post_hook ::= idtac.
Open Scope Z_scope.
Local Notation length := List.length.

Lemma f2cons {A B} (P : A -> B -> Prop) a l m : Forall2 P (a :: l) m -> exists b m', m = b :: m' /\ P a b /\ Forall2 P l m'.
Proof. intros H. inversion H; subst; eauto. Qed.

Lemma good_parts nsize x : good_rec TReal nsize x -> r_n x = nsize ->
  0 < nsize /\ all8 (cells (r_n x) (r_corr x)) /\ length (cells (r_n x) (r_corr x)) = Z.to_nat nsize /\ length (r_fl x) = Z.to_nat nsize.
Proof.
  intros (G1 & G2 & G3 & G4 & G5 & G6 & G7 & G8 & G9 & G10 & G11) N. cbn [ext] in G9. split; [lia|]. split; [apply cells_8; lia|].
  split; [rewrite cells_len, N; reflexivity|]. unfold zlen in G10. lia.
Qed.

Section Host.
Variable feq8 feq4 : list Z -> list Z -> bool.

(* a new spectrum and new flags in place of the old ones *)
Lemma new_spectrum nsize x d g : good_rec TReal nsize x -> r_n x = nsize -> all8 d -> length d = Z.to_nat nsize -> length g = Z.to_nat nsize ->
  good_out nsize x (same_preamble_as x d g) /\
  forall y, same_rec feq8 feq4 (same_preamble_as x d g) y -> r_n y = nsize /\
    forall c, 0 <= c < nsize -> good y c = nth (Z.to_nat c) g false /\ chan y c = nth (Z.to_nat c) d [].
Proof.
  intros G N D L1 L2. destruct (good_parts _ _ G N) as (P & _).
  assert (ZD : zlen d = nsize) by (unfold zlen; lia). assert (ZG : zlen g = nsize) by (unfold zlen; lia).
  split; [apply spa_good; assumption|].
  intros y Y. apply same_rec_data in Y as (Y1 & Y2 & Y3). split; [rewrite <- Y1; exact ZD|].
  intros c Hc. split.
  - rewrite <- (same_good _ _ c Y3). reflexivity.
  - rewrite <- (same_chan _ _ c Y2). apply spa_chan; [exact D|]. lia.
Qed.

Lemma echo_out nsize x : good_rec TReal nsize x -> r_n x = nsize -> good_out nsize x x.
Proof. intros G N. unfold good_out. do 5 (split; [reflexivity|]). auto. Qed.
Lemma echo_same (d : row) x y : same_rec feq8 feq4 (fst d) x -> same_rec feq8 feq4 x y -> unchanged (fst d) y.
Proof.
  intros A B c _. apply same_rec_data in A as (A1 & A2 & A3). apply same_rec_data in B as (B1 & B2 & B3).
  split; [apply same_good; congruence|apply same_chan; congruence].
Qed.

Variable cadd csub : list Z -> list Z -> list Z.
(* ---------- uv_addsub ---------- *)
Lemma addsub_one sub nsize r2 r x x2 r2' (d d2 : row) :
  op8 cadd -> op8 csub -> uvread nsize r2 = (r2', RdRec x2) ->
  same_rec feq8 feq4 (fst d) x -> good_rec TReal nsize x -> r_n x = nsize ->
  same_rec feq8 feq4 (fst d2) x2 -> good_rec TReal nsize x2 -> r_n x2 = nsize ->
  exists y, addsub cadd csub sub nsize r2 r x = Ok (r2', Some y) /\ good_out nsize x y /\
    forall y', same_rec feq8 feq4 y y' -> combined (if sub then csub else cadd) (fst d) (fst d2) y'.
Proof.
  intros HA HS E SD G N SD2 G2 N2. unfold addsub. rewrite E.
  destruct (good_parts _ _ G N) as (P & C1 & C2 & C3). destruct (good_parts _ _ G2 N2) as (_ & C4 & C5 & C6).
  set (op := if sub then csub else cadd). assert (O8 : op8 op) by (unfold op; destruct sub; assumption).
  rewrite (bcast_same andb) by congruence. cbn [bind].
  rewrite (bcast_same op) by congruence. cbn [bind].
  set (g := map (fun p => fst p && snd p) (combine (r_fl x) (r_fl x2))).
  set (s := map (fun p => op (fst p) (snd p)) (combine (cells (r_n x) (r_corr x)) (cells (r_n x2) (r_corr x2)))).
  assert (LG : length g = Z.to_nat nsize) by (unfold g; rewrite (zip_len andb) by congruence; exact C3).
  assert (LS : length s = Z.to_nat nsize) by (unfold s; rewrite (zip_len op) by congruence; exact C2).
  assert (S8 : all8 s) by (unfold s; apply (zip_88 op); [exact C1|exact C4|congruence|exact O8]).
  destruct (where0_ok g s S8 ltac:(congruence)) as (d' & W1 & W2 & W3 & W4). rewrite W1. cbn [bind].
  destruct (new_spectrum nsize x d' g G N W2 ltac:(congruence) LG) as (N1 & N3).
  eexists. split; [reflexivity|]. split; [exact N1|].
  intros y' Y c Hc. destruct (N3 y' Y) as (N4 & N5). rewrite N4 in Hc. destruct (N5 c Hc) as (N6 & N7). rewrite N6, N7.
  apply same_rec_data in SD as (A1 & A2 & A3). apply same_rec_data in SD2 as (B1 & B2 & B3).
  assert (GG : nth (Z.to_nat c) g false = good (fst d) c && good (fst d2) c).
  { unfold g. rewrite (zip_nth andb _ _ _ false false) by lia. unfold good. now rewrite A3, B3. }
  rewrite W4 by lia. rewrite GG. split; [reflexivity|].
  destruct (good (fst d) c && good (fst d2) c); [|reflexivity].
  unfold s. rewrite (zip_nth op _ _ _ [] []) by lia. rewrite !chan_cell by lia. f_equal; apply same_chan; congruence.
Qed.

Lemma addsub_steps sub nsize : op8 cadd -> op8 csub ->
  forall ds out, Forall2 (src_row feq8 feq4 nsize) ds out ->
  forall ds2 out2 r2, Forall2 (src_row feq8 feq4 nsize) ds2 out2 -> (length ds <= length ds2)%nat ->
  (exists k more, reads nsize k r2 = (out2 ++ more)%list) ->
  exists ys, steps (addsub cadd csub sub nsize) r2 out = (map Some ys, true) /\
    Forall2 (fun p y => exists x, snd (snd p) = RdRec x /\ same_rec feq8 feq4 (fst (fst (fst p))) x /\ r_n x = nsize /\ good_out nsize x y /\
       forall y', same_rec feq8 feq4 y y' -> combined (if sub then csub else cadd) (fst (fst (fst p))) (fst (snd (fst p))) y')
      (combine (combine ds ds2) out) ys.
Proof.
  intros HA HS ds out F. induction F as [|d [r o] ds out (x & X1 & X2 & X3 & X4 & X5) F IH]; intros ds2 out2 r2 F2 L (k & more & R).
  - exists []. split; [reflexivity|constructor].
  - destruct ds2 as [|d2 ds2]; [cbn in L; lia|]. destruct (f2cons _ _ _ _ F2) as (o2 & out2' & -> & (x2 & Z1 & Z2 & Z3 & Z4 & Z5) & F2').
    destruct k as [|k]; [cbn in R; discriminate|]. cbn [reads app] in R. injection R as R1 R2. rewrite R1 in R2.
    destruct o2 as [r2' o2]. cbn [snd fst] in *. subst o o2.
    destruct (addsub_one sub nsize r2 r x x2 r2' d d2 HA HS R1 X2 X3 X4 Z2 Z3 Z4) as (y & Y1 & Y2 & Y3).
    destruct (IH ds2 out2' r2' F2' ltac:(cbn in L; lia) ltac:(eauto)) as (ys & S1 & S2).
    exists (y :: ys). split.
    + cbn [steps]. rewrite Y1, S1. reflexivity.
    + cbn [combine]. constructor; [|exact S2]. cbn [fst snd]. eauto 8.
Qed.

Lemma addsub_short sub nsize : op8 cadd -> op8 csub ->
  forall ds out, Forall2 (src_row feq8 feq4 nsize) ds out ->
  forall ds2 out2 r2 l, Forall2 (src_row feq8 feq4 nsize) ds2 out2 -> (length ds2 < length ds)%nat ->
  reads nsize (S (length ds2)) r2 = (out2 ++ [(l, RdEof)])%list ->
  exists ys, steps (addsub cadd csub sub nsize) r2 out = (map Some ys, false) /\ length ys = length ds2 /\
    Forall2 (fun p y => exists x, snd (snd p) = RdRec x /\ same_rec feq8 feq4 (fst (fst (fst p))) x /\ r_n x = nsize /\ good_out nsize x y)
      (combine (combine ds ds2) out) ys.
Proof.
  intros HA HS ds out F. induction F as [|d [r o] ds out (x & X1 & X2 & X3 & X4 & X5) F IH]; intros ds2 out2 r2 l F2 L R; [cbn in L; lia|].
  cbn [snd] in X1. subst o.
  destruct ds2 as [|d2 ds2].
  - assert (out2 = []) by (inversion F2; reflexivity). subst out2. cbn [length reads app] in R. injection R as R. exists []. split; [|split; [reflexivity|constructor]].
    cbn [steps]. unfold addsub. rewrite R. reflexivity.
  - destruct (f2cons _ _ _ _ F2) as (o2 & out2' & -> & (x2 & Z1 & Z2 & Z3 & Z4 & Z5) & F2').
    change (reads nsize (S (length (d2 :: ds2))) r2) with (uvread nsize r2 :: reads nsize (S (length ds2)) (fst (uvread nsize r2))) in R.
    cbn [app] in R. injection R as R1 R2. rewrite R1 in R2.
    destruct o2 as [r2' o2]. cbn [snd fst] in *. subst o2.
    destruct (addsub_one sub nsize r2 r x x2 r2' d d2 HA HS R1 X2 X3 X4 Z2 Z3 Z4) as (y & Y1 & Y2 & Y3).
    destruct (IH ds2 out2' r2' l F2' ltac:(cbn in L; lia) R2) as (ys & S1 & S2 & S3).
    exists (y :: ys). split; [|split; [cbn; congruence|]].
    + cbn [steps]. rewrite Y1, S1. reflexivity.
    + cbn [combine]. constructor; [|exact S3]. cbn [fst snd]. eauto 8.
Qed.
(* numbers of channels that do not go together *)
Lemma addsub_shapes sub n2 r2 r x x2 r2' :
  uvread n2 r2 = (r2', RdRec x2) -> length (r_fl x) <> length (r_fl x2) -> length (r_fl x) <> 1%nat -> length (r_fl x2) <> 1%nat ->
  addsub cadd csub sub n2 r2 r x = Err.
Proof.
  intros E L1 L2 L3. unfold addsub. rewrite E. assert (B : bcast andb (r_fl x) (r_fl x2) = Err).
  { unfold bcast. rewrite (proj2 (Nat.eqb_neq _ _) L1). destruct (r_fl x) as [|a [|b l]]; destruct (r_fl x2) as [|c [|e m]]; cbn in *; congruence || reflexivity. }
  rewrite B. reflexivity.
Qed.

(* ---------- antennas ---------- *)
Variable fl2int : list Z -> Z.
Hypothesis fl2int_same : forall a b, same4 feq4 a b -> fl2int a = fl2int b.
Lemma ants_read d x i j : same_rec feq8 feq4 (fst (d : row)) x -> of_pair fl2int mkbl (fst d) i j -> ant_i fl2int x = i /\ ant_j fl2int x = j.
Proof.
  intros (_ & _ & _ & _ & B & _) (I & J & E). unfold ant_i, ant_j. rewrite <- (fl2int_same _ _ B), E.
  destruct (C02_layers_agree i j I J) as (A1 & A2 & _). auto.
Qed.

(* ---------- xtalk3 ---------- *)
Lemma xtalk_one es nsize d o k i j :
  op8 csub -> Forall xrange es -> Forall (fun e => length (snd e) = Z.to_nat nsize /\ all8 (snd e)) es ->
  src_row feq8 feq4 nsize d o -> pol_at d k -> -9 <= k <= 6 -> of_pair fl2int mkbl (fst d) i j ->
  exists x y, snd o = RdRec x /\ xtalk csub fl2int (xfile es) tt (fst o) x = Ok (tt, Some y) /\ good_out nsize x y /\
   forall y', same_rec feq8 feq4 y y' ->
     (forall e, In e es -> ~ for_pair e i j k) /\ unchanged (fst d) y' \/
     exists e, In e es /\ for_pair e i j k /\ adjusted csub (fst d) (fun c => nth (Z.to_nat c) (snd e) []) y'.
Proof.
  intros HS R L S P K OP. pose proof (pol_read feq8 feq4 nsize d o k S P) as PR. destruct S as (x & X1 & X2 & X3 & X4 & _).
  destruct (ants_read d x i j X2 OP) as (A1 & A2). destruct OP as (I & J & _).
  exists x. unfold xtalk. rewrite PR. cbn [bind]. rewrite A1, A2. 
  destruct (xlookup (xfile es) (ijp2blp i j k)) as [m|] eqn:E.
  - destruct (xlookup_some es i j k R I J K m E) as (e & E1 & E2 & E3). rewrite Forall_forall in L. destruct (L e E1) as [L1 L2]. rewrite E3 in L1, L2.
    destruct (good_parts _ _ X3 X4) as (Q & C1 & C2 & C3).
    rewrite (bcast_same csub) by congruence. cbn [bind]. eexists. split; [exact X1|]. split; [reflexivity|].
    set (s := map (fun p => csub (fst p) (snd p)) (combine (cells (r_n x) (r_corr x)) m)).
    assert (LS : length s = Z.to_nat nsize) by (unfold s; rewrite (zip_len csub) by congruence; exact C2).
    assert (S8 : all8 s) by (unfold s; apply (zip_88 csub); [exact C1|exact L2|congruence|exact HS]).
    destruct (new_spectrum nsize x s (r_fl x) X3 X4 S8 LS C3) as (N1 & N3). split; [exact N1|].
    intros y' Y. right. exists e. split; [exact E1|]. split; [exact E2|]. intros c Hc. destruct (N3 y' Y) as (N4 & N5). rewrite N4 in Hc.
    destruct (N5 c Hc) as (N6 & N7). rewrite N6, N7. apply same_rec_data in X2 as (B1 & B2 & B3).
    split; [unfold good; now rewrite B3|]. unfold s. rewrite (zip_nth csub _ _ _ [] []) by lia. rewrite chan_cell by lia. rewrite E3. f_equal. apply same_chan; congruence.
  - exists x. split; [exact X1|]. split; [reflexivity|]. split; [apply echo_out; assumption|].
    intros y' Y. left. split; [exact (xlookup_none es i j k R I J K E)|]. exact (echo_same d x y' X2 Y).
Qed.

(* ---------- mdlvis ---------- *)
Lemma mdl_auto mode flagopt sd nsize d o k p i :
  src_row feq8 feq4 nsize d o -> pol_at d k -> In (p, k) pol_names -> of_pair fl2int mkbl (fst d) i i ->
  exists x y, snd o = RdRec x /\ mdl cadd csub fl2int mode flagopt sd tt (fst o) x = Ok (tt, Some y) /\ good_out nsize x y /\
   forall y', same_rec feq8 feq4 y y' -> unchanged (fst d) y'.
Proof.
  intros S P K OP. pose proof (pol_read feq8 feq4 nsize d o k S P) as PR. destruct S as (x & X1 & X2 & X3 & X4 & _).
  destruct (ants_read d x i i X2 OP) as (A1 & A2). exists x, x. unfold mdl. rewrite PR. cbn [bind]. rewrite (pol2str_spec p k K). cbn [bind].
  rewrite A1, A2, Z.eqb_refl. split; [exact X1|]. split; [reflexivity|]. split; [apply echo_out; assumption|].
  intros y' Y. exact (echo_same d x y' X2 Y).
Qed.
Lemma mdl_cross mode flagopt sd nsize d o k p i j :
  op8 cadd -> op8 csub -> mode <> MOther -> (forall t t', feq8 t t' = true -> sd p i j t = sd p i j t') -> (forall t, spectrum nsize (sd p i j t)) ->
  src_row feq8 feq4 nsize d o -> pol_at d k -> In (p, k) pol_names -> of_pair fl2int mkbl (fst d) i j -> i <> j ->
  exists x y, snd o = RdRec x /\ mdl cadd csub fl2int mode flagopt sd tt (fst o) x = Ok (tt, Some y) /\ good_out nsize x y /\
   forall y', same_rec feq8 feq4 y y' -> forall c, 0 <= c < r_n y' ->
     good y' c = match mode with MSim => if flagopt then good (fst d) c else true | _ => good (fst d) c end /\
     chan y' c = if good y' c then (let s := nth (Z.to_nat c) (sd p i j (r_t (fst d))) [] in
                    match mode with MSim => s | MSub => csub (chan (fst d) c) s | _ => cadd (chan (fst d) c) s end) else zero.
Proof.
  intros HA HS M ST SP S P K OP NE. pose proof (pol_read feq8 feq4 nsize d o k S P) as PR. destruct S as (x & X1 & X2 & X3 & X4 & _).
  destruct (ants_read d x i j X2 OP) as (A1 & A2). exists x. unfold mdl. rewrite PR. cbn [bind]. rewrite (pol2str_spec p k K). cbn [bind].
  rewrite A1, A2, (proj2 (Z.eqb_neq i j) NE).
  assert (T : sd p i j (r_t x) = sd p i j (r_t (fst d))).
  { destruct X2 as (_ & _ & _ & T & _). destruct T as [T|[T|T]]; [now rewrite T|symmetry; now apply ST|now apply ST]. }
  rewrite T. set (s := sd p i j (r_t (fst d))). destruct (SP (r_t (fst d))) as [SL S8]. fold s in SL, S8.
  destruct (good_parts _ _ X3 X4) as (Q & C1 & C2 & C3). pose proof (same_rec_data _ _ _ _ X2) as (B1 & B2 & B3).
  set (g := match mode with MSim => if flagopt then r_fl x else map (fun _ => true) (r_fl x) | _ => r_fl x end).
  set (f := match mode with MSim => fun _ b => b | MSub => csub | _ => cadd end).
  assert (O8 : forall a b, length a = 8%nat -> length b = 8%nat -> length (f a b) = 8%nat) by (unfold f; destruct mode; auto).
  pose (q := map (fun p => f (fst p) (snd p)) (combine (cells (r_n x) (r_corr x)) s)).
  assert (EQ : (match mode with
        | MSim => Ok (s, if flagopt then r_fl x else map (fun _ => true) (r_fl x))
        | MSub => bind (bcast csub (cells (r_n x) (r_corr x)) s) (fun d => Ok (d, r_fl x))
        | MAdd => bind (bcast cadd (cells (r_n x) (r_corr x)) s) (fun d => Ok (d, r_fl x))
        | MOther => Err end) = Ok (q, g)).
  { unfold q, g, f. destruct mode; [| | |congruence].
    - f_equal. f_equal. change (map (fun p => snd p) (combine (cells (r_n x) (r_corr x)) s)) with (map snd (combine (cells (r_n x) (r_corr x)) s)).
      clear -C2 SL. revert C2. generalize (cells (r_n x) (r_corr x)). intros l C2. rewrite <- C2 in SL. clear C2. revert l SL.
      induction s as [|a s IH]; intros [|b l] L; cbn in *; try discriminate; [reflexivity|]. f_equal. apply IH. congruence.
    - rewrite (bcast_same csub) by congruence. reflexivity.
    - rewrite (bcast_same cadd) by congruence. reflexivity. }
  cbv zeta. rewrite EQ. cbn [bind fst snd].
  assert (LQ : length q = Z.to_nat nsize) by (unfold q; rewrite (zip_len f) by congruence; exact C2).
  assert (LG : length g = Z.to_nat nsize) by (unfold g; destruct mode; try exact C3; destruct flagopt; [exact C3|rewrite map_length; exact C3]).
  assert (Q8 : all8 q) by (unfold q; apply (zip_88 f); [exact C1|exact S8|congruence|exact O8]).
  destruct (where0_ok g q Q8 ltac:(congruence)) as (d' & W1 & W2 & W3 & W4). rewrite W1. cbn [bind].
  destruct (new_spectrum nsize x d' g X3 X4 W2 ltac:(congruence) LG) as (N1 & N3).
  eexists. split; [exact X1|]. split; [reflexivity|]. split; [exact N1|].
  intros y' Y c Hc. destruct (N3 y' Y) as (N4 & N5). rewrite N4 in Hc. destruct (N5 c Hc) as (N6 & N7). rewrite N6, N7, W4 by lia.
  split.
  - unfold g, good. rewrite B3. destruct mode; try reflexivity. destruct flagopt; [reflexivity|].
    rewrite (nth_indep _ false true) by (rewrite map_length; lia). apply (map_nth (fun _ => true) (r_fl x) true).
  - destruct (nth (Z.to_nat c) g false); [|reflexivity]. unfold q. rewrite (zip_nth f _ _ _ [] []) by lia. rewrite chan_cell by lia.
    rewrite (same_chan _ _ c B2). unfold f. destruct mode; reflexivity.
Qed.

(* ---------- apply_cal ---------- *)
Lemma cal_one nogain nophs gain phase nsize d o k p i j :
  (forall s, spectrum nsize s -> exists s', gain p i j s = Ok s' /\ spectrum nsize s') ->
  (forall s, spectrum nsize s -> exists s', phase p i j s = Ok s' /\ spectrum nsize s') ->
  src_row feq8 feq4 nsize d o -> pol_at d k -> In (p, k) pol_names -> of_pair fl2int mkbl (fst d) i j ->
  exists x y, snd o = RdRec x /\ apply_cal fl2int nogain nophs gain phase tt (fst o) x = Ok (tt, Some y) /\ good_out nsize x y /\
   forall y', same_rec feq8 feq4 y y' -> exists s1 s2,
     (if nogain then s1 = cells nsize (r_corr (fst d)) else gain p i j (cells nsize (r_corr (fst d))) = Ok s1) /\
     (if nophs then s2 = s1 else phase p i j s1 = Ok s2) /\
     forall c, 0 <= c < r_n y' -> good y' c = good (fst d) c /\ chan y' c = nth (Z.to_nat c) s2 [].
Proof.
  intros HG HP S P K OP. pose proof (pol_read feq8 feq4 nsize d o k S P) as PR. destruct S as (x & X1 & X2 & X3 & X4 & _).
  destruct (ants_read d x i j X2 OP) as (A1 & A2). exists x. unfold apply_cal. rewrite PR. cbn [bind]. rewrite (pol2str_spec p k K). cbn [bind].
  rewrite A1, A2. destruct (good_parts _ _ X3 X4) as (Q & C1 & C2 & C3). pose proof (same_rec_data _ _ _ _ X2) as (B1 & B2 & B3).
  assert (S0 : spectrum nsize (cells (r_n x) (r_corr x))) by (split; assumption).
  assert (H1 : exists s1, (if nogain then Ok (cells (r_n x) (r_corr x)) else gain p i j (cells (r_n x) (r_corr x))) = Ok s1 /\ spectrum nsize s1 /\
     (if nogain then s1 = cells nsize (r_corr (fst d)) else gain p i j (cells nsize (r_corr (fst d))) = Ok s1)).
  { rewrite B2, <- X4. destruct nogain.
    - eexists. split; [reflexivity|]. split; [rewrite X4 in *; exact S0|reflexivity].
    - rewrite X4 in *. destruct (HG _ S0) as (s1 & Y1 & Y2). eauto. }
  destruct H1 as (s1 & E1 & Z1 & W1). rewrite E1. cbn [bind].
  assert (H2 : exists s2, (if nophs then Ok s1 else phase p i j s1) = Ok s2 /\ spectrum nsize s2 /\ (if nophs then s2 = s1 else phase p i j s1 = Ok s2)).
  { destruct nophs; [eauto|]. destruct (HP _ Z1) as (s2 & Y1 & Y2). eauto. }
  destruct H2 as (s2 & E2 & [Z2 Z3] & W2). rewrite E2. cbn [bind].
  destruct (new_spectrum nsize x s2 (r_fl x) X3 X4 Z3 Z2 C3) as (N1 & N3).
  eexists. split; [exact X1|]. split; [reflexivity|]. split; [exact N1|]. intros y' Y. exists s1, s2. split; [exact W1|]. split; [exact W2|].
  intros c Hc. destruct (N3 y' Y) as (N4 & N5). rewrite N4 in Hc. destruct (N5 c Hc) as (N6 & N7). split; [|exact N7]. rewrite N6. unfold good. now rewrite B3.
Qed.
End Host.
