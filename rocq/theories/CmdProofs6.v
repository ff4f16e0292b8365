From Coq Require Import String.
From Verif Require Import Base UvModel UvSpec UvProofs UvProofs2 UvProofs3 UvProofs4 UvProofs5 UvProps
  PipeModel PipeSpec PipeProofs PipeProofs2 PipeProofs3 PipeProofs4 PipeProps BaselineModel BaselineProps CmdModel CmdSpec CmdProofs CmdProofs2 CmdProofs3 CmdProofs4 CmdProofs5.
Ltac Zify.zify_post_hook ::= idtac.
Open Scope Z_scope.
Local Notation length := List.length.

Lemma pairing_fun fl2int d k i j k' i' j' : pairing fl2int mkbl d k i j -> pairing fl2int mkbl d k' i' j' -> k = k' /\ i = i' /\ j = j'.
Proof.
  intros [[A1 A2] (A3 & A4 & A5)] [[B1 B2] (B3 & B4 & B5)]. split.
  - rewrite A1 in B1. injection B1 as B1 B1' B1'' B1'''. rewrite <- (rd4_be4s k A2), <- (rd4_be4s k' B2). unfold be4. congruence.
  - rewrite A5 in B5. destruct (C02_layers_agree i j A3 A4) as (X1 & X2 & _). destruct (C02_layers_agree i' j' B3 B4) as (Y1 & Y2 & _).
    rewrite B5 in X1, X2. split; congruence.
Qed.

Section Host.
Variable feq8 feq4 : list Z -> list Z -> bool.
Variable add1000 : list Z -> list Z.
Variable ciszero : list Z -> bool.
Variable fl2int : list Z -> Z.

Lemma mget_only m k f : (exists c, In (c, f) m /\ mkey_eqb feq8 c k = true) ->
  (forall c f', In (c, f') m -> mkey_eqb feq8 c k = true -> f' = f) -> mget feq8 m k = Ok f.
Proof.
  induction m as [|[c f1] m IH]; intros (c0 & I & E) U; [destruct I|]. cbn [mget]. destruct (mkey_eqb feq8 c k) eqn:E1.
  - f_equal. exact (U c f1 (or_introl eq_refl) E1).
  - apply IH; [|intros c' f' H; apply U; right; exact H]. destruct I as [I|I]; [injection I as -> _; congruence|eauto].
Qed.

Lemma gather_rev reflag chans out es l : 
  Forall2 (fun o e => exists x, snd o = RdRec x /\ key_of fl2int (fst o) x = Ok (fst e) /\ first_flags ciszero reflag chans x = Ok (snd e)) out es ->
  forall m, gather ciszero fl2int reflag chans (out ++ [(l, RdEof)]) m = Ok (rev es ++ m)%list.
Proof.
  intros F. induction F as [|[r o] [k f] out es (x & X1 & X2 & X3) F IH]; intros m; [reflexivity|].
  cbn [fst snd] in *. subst o. cbn [app gather]. rewrite X2. cbn [bind]. rewrite X3. cbn [bind]. rewrite IH. cbn [rev]. now rewrite <- app_assoc.
Qed.

Lemma first_flags_ok reflag chans nsize x : good_rec TReal nsize x -> r_n x = nsize -> Forall (fun c => - nsize <= c < nsize) chans ->
  exists f, first_flags ciszero reflag chans x = Ok f /\ length f = Z.to_nat nsize /\
    forall c, 0 <= c < nsize -> (nth (Z.to_nat c) f false = true <->
       (reflag = false /\ good x c = false) \/ ciszero (chan x c) = true \/ lists_chan chans nsize c).
Proof.
  intros G N FC. destruct (good_parts _ _ G N) as (P & C1 & C2 & C3). unfold first_flags.
  set (f0 := if reflag then map (fun _ => false) (r_fl x) else map negb (r_fl x)).
  assert (L0 : length f0 = Z.to_nat nsize) by (unfold f0; destruct reflag; rewrite map_length; exact C3).
  set (f1 := map (fun p => ciszero (fst p) || snd p) (combine (cells (r_n x) (r_corr x)) f0)).
  assert (L1 : length f1 = Z.to_nat nsize) by (unfold f1; rewrite (zip_len (fun a b => ciszero a || b)) by congruence; exact C2).
  assert (FB : forallb (fun c => (- r_n x <=? c) && (c <? r_n x)) chans = true).
  { apply forallb_forall. intros c Hc. rewrite Forall_forall in FC. specialize (FC c Hc). rewrite N. lia. }
  rewrite FB. eexists. split; [reflexivity|].
  set (ix := map Z.of_nat (seq 0 (length f1))). assert (LX : length ix = length f1) by (unfold ix; rewrite map_length, seq_length; reflexivity).
  set (h := fun (n : Z) (b : bool) => b || existsb (fun c => (c =? n) || (c + r_n x =? n)) chans).
  split; [rewrite (zip_len h) by exact LX; lia|].
  intros c Hc. rewrite (zip_nth h ix f1 _ 0 false false) by lia.
  assert (NX : nth (Z.to_nat c) ix 0 = c).
  { unfold ix. rewrite (map_nth Z.of_nat _ 0%nat). rewrite seq_nth by lia. lia. }
  rewrite NX. unfold h. rewrite orb_true_iff.
  assert (N1 : nth (Z.to_nat c) f1 false = ciszero (chan x c) || (if reflag then false else negb (good x c))).
  { unfold f1. rewrite (zip_nth (fun a b => ciszero a || b) _ _ _ [] false) by lia. rewrite chan_cell by lia. f_equal. unfold f0, good.
    destruct reflag.
    - apply (map_nth (fun _ => false) (r_fl x) false).
    - rewrite (nth_indep _ false (negb false)) by (rewrite map_length; lia). apply map_nth. }
  rewrite N1, orb_true_iff.
  assert (NC : existsb (fun c0 => (c0 =? c) || (c0 + r_n x =? c)) chans = true <-> lists_chan chans nsize c).
  { rewrite existsb_exists. unfold lists_chan. rewrite N. split.
    - intros (a & A1 & A2). apply orb_true_iff in A2 as [A2|A2]; [left|right]; [replace c with a by lia|replace (c - nsize) with a by lia]; exact A1.
    - intros [A|A]; [exists c; split; [exact A|]; lia|exists (c - nsize); split; [exact A|]; lia]. }
  rewrite NC. destruct reflag, (good x c); cbn [negb]; intuition congruence.
Qed.

Hypothesis fl2int_same : forall a b, same4 feq4 a b -> fl2int a = fl2int b.

Lemma key_read nsize d o k i j x : src_row feq8 feq4 nsize d o -> pairing fl2int mkbl d k i j -> snd o = RdRec x -> same_rec feq8 feq4 (fst d) x ->
  key_of fl2int (fst o) x = Ok (k, ij2bl i j, r_t x).
Proof.
  intros S [P OP] X1 X2. unfold key_of. rewrite (pol_read feq8 feq4 nsize d o k S P). cbn [bind].
  destruct (ants_read feq8 feq4 fl2int fl2int_same d x i j X2 OP) as [-> ->]. reflexivity.
Qed.

Lemma times_eq (H : host_ok feq8 feq4 add1000 TReal) a b t t' : same8 feq8 a t -> same8 feq8 b t' -> (feq8 t t' = true <-> feq8 a b = true).
Proof.
  destruct H as [_ S8 _ T8 _ _].
  assert (N : forall a b c, same8 feq8 a b -> feq8 a c = true -> feq8 b c = true) by (intros x y z [->|[A|A]] B; [exact B|eauto|eauto]).
  assert (Sy : forall a b, same8 feq8 a b -> same8 feq8 b a) by (intros x y [->|[A|A]]; unfold same8; auto).
  intros A B. split; intros E.
  - apply (N t a b); [apply Sy; exact A|]. apply S8. apply (N t' b t); [apply Sy; exact B|]. apply S8. exact E.
  - apply (N a t t' A). apply S8. apply (N b t' a B). apply S8. exact E.
Qed.

Lemma Forall2_ext_choice {A B C} (P : A -> B -> Prop) (Q : A -> B -> C -> Prop) l m : Forall2 P l m ->
  (forall a b, In a l -> P a b -> exists c, Q a b c) -> exists cs, length cs = length l /\ length cs = length m /\
  forall n c, nth_error cs n = Some c -> exists a b, nth_error l n = Some a /\ nth_error m n = Some b /\ Q a b c.
Proof.
  intros F. induction F as [|a b l m HP F IH]; intros HQ.
  - exists []. do 2 (split; [reflexivity|]). intros [|n] c E; discriminate.
  - destruct (HQ a b (or_introl eq_refl) HP) as [c Hc]. destruct IH as (cs & L1 & L2 & N); [intros; apply HQ; [right|]; assumption|].
    exists (c :: cs). split; [cbn; congruence|]. split; [cbn; congruence|]. intros [|n] c' E; cbn in *; [injection E as <-; eauto|auto].
Qed.

Lemma rfi_main (H : host_ok feq8 feq4 add1000 TReal) reflag chans extra nsize ds out1 l1 :
  Forall (fun c => - nsize <= c < nsize) chans ->
  (forall k, length (extra k) = Z.to_nat nsize) -> (forall k b t t', feq8 t t' = true -> extra (k, b, t) = extra (k, b, t')) ->
  Forall2 (src_row feq8 feq4 nsize) ds out1 ->
  (forall d, In d ds -> (exists k i j, pairing fl2int mkbl d k i j) /\ feq8 (r_t (fst d)) (r_t (fst d)) = true) ->
  (forall a b d d', nth_error ds a = Some d -> nth_error ds b = Some d' -> same_key feq8 fl2int mkbl d d' -> a = b) ->
  exists m, gather ciszero fl2int reflag chans (out1 ++ [(l1, RdEof)]) [] = Ok m /\
  forall d o k i j, In d ds -> src_row feq8 feq4 nsize d o -> pairing fl2int mkbl d k i j ->
  exists x y, snd o = RdRec x /\ rfi_apply feq8 fl2int (more_flags extra m) tt (fst o) x = Ok (tt, Some y) /\ good_out nsize x y /\
   forall y', same_rec feq8 feq4 y y' ->
     masked (fun c => (reflag = false /\ good (fst d) c = false) \/ ciszero (chan (fst d) c) = true \/ lists_chan chans nsize c \/
                      nth (Z.to_nat c) (extra (k, ij2bl i j, r_t (fst d))) false = true) (fst d) y'.
Proof.
  intros FC EL ET F KEY DIST.
  pose (Q := fun (d : row) (o : reader * rdres) (e : mkey * list bool) => exists x k i j, snd o = RdRec x /\ same_rec feq8 feq4 (fst d) x /\ good_rec TReal nsize x /\ r_n x = nsize /\
     pairing fl2int mkbl d k i j /\ key_of fl2int (fst o) x = Ok (fst e) /\ fst e = (k, ij2bl i j, r_t x) /\ first_flags ciszero reflag chans x = Ok (snd e)).
  destruct (Forall2_ext_choice _ Q _ _ F) as (es & LE1 & LE2 & EN).
  { intros d o Hd S. pose proof S as S'. destruct S' as (x & X1 & X2 & X3 & X4 & _). destruct (KEY d Hd) as ((k & i & j & P) & _).
    destruct (first_flags_ok reflag chans nsize x X3 X4 FC) as (f & F1 & _). pose proof (key_read nsize d o k i j x S P X1 X2) as KR.
    exists ((k, ij2bl i j, r_t x), f), x, k, i, j. cbn [fst snd]. auto 10. }
  exists (rev es). split.
  { rewrite <- (app_nil_r (rev es)). apply gather_rev. clear -LE2 EN. revert out1 ds LE2 EN. induction es as [|e es IH]; intros [|o out1] ds L EN; try discriminate; constructor.
    - destruct (EN 0%nat e eq_refl) as (a & b & A1 & A2 & (x & k & i & j & X1 & X2 & X3 & X4 & X5 & X6 & X7 & X8)). cbn in A2. injection A2 as <-. eauto.
    - apply (IH out1 (tl ds)); [cbn in L; congruence|]. intros n c E. destruct (EN (S n) c E) as (a & b & A1 & A2 & A3). destruct ds; [discriminate|]. exists a, b. auto. }
  intros d o k i j Hd S P. pose proof S as S'. destruct S' as (x & X1 & X2 & X3 & X4 & _). pose proof (key_read nsize d o k i j x S P X1 X2) as KR.
  destruct (In_nth_error _ _ Hd) as [n Hn].
  destruct (nth_error es n) as [e|] eqn:He; [|exfalso; apply nth_error_None in He; assert (n < length ds)%nat by (apply nth_error_Some; congruence); lia].
  destruct (EN n e He) as (d' & o' & D1 & O1 & (x' & k' & i' & j' & Z1 & Z2 & Z3 & Z4 & Z5 & Z6 & Z7 & Z8)).
  assert (d' = d) by congruence. subst d'. destruct (pairing_fun fl2int d k i j k' i' j' P Z5) as (-> & -> & ->).
  pose proof (same_rec_data _ _ _ _ X2) as (B1 & B2 & B3). pose proof (same_rec_data _ _ _ _ Z2) as (D2 & D3 & D4).
  assert (TX : same8 feq8 (r_t (fst d)) (r_t x)) by (destruct X2 as (_ & _ & _ & T & _); exact T).
  assert (TZ : same8 feq8 (r_t (fst d)) (r_t x')) by (destruct Z2 as (_ & _ & _ & T & _); exact T).
  destruct (first_flags_ok reflag chans nsize x' Z3 Z4 FC) as (f & F1 & F2 & F3). assert (f = snd e) by congruence. subst f. clear F1.
  set (fl := map (fun p => fst p || snd p) (combine (snd e) (extra (fst e)))).
  assert (G : mget feq8 (more_flags extra (rev es)) (k', ij2bl i' j', r_t x) = Ok fl).
  { apply mget_only.
    - exists (fst e). split.
      + unfold more_flags. apply in_map_iff. exists e. split; [reflexivity|]. apply -> in_rev. eapply nth_error_In. exact He.
      + rewrite Z7. unfold mkey_eqb. cbn [fst snd]. rewrite !Z.eqb_refl. cbn [andb]. apply (times_eq H (r_t (fst d)) (r_t (fst d))); [exact TZ|exact TX|]. apply KEY. exact Hd.
    - intros c f' I E. unfold more_flags in I. apply in_map_iff in I as (e2 & I1 & I2). injection I1 as <- <-.
      apply in_rev in I2. destruct (In_nth_error _ _ I2) as [n2 Hn2]. destruct (EN n2 e2 Hn2) as (d2 & o2 & W1 & W2 & (x2 & k2 & i2 & j2 & V1 & V2 & V3 & V4 & V5 & V6 & V7 & V8)).
      assert (n2 = n).
      { apply (DIST n2 n d2 d W1 Hn). exists k', i2, j2, i', j'. rewrite V7 in E. unfold mkey_eqb in E. cbn [fst snd] in E. apply andb_prop in E as [E E3]. apply andb_prop in E as [E1 E2].
        assert (k2 = k') by lia. subst k2. split; [exact V5|]. split; [exact P|]. split.
        - destruct V5 as (_ & Q1 & Q2 & _). destruct P as (_ & Q3 & Q4 & _). apply C01_bl_injective; auto. lia.
        - assert (TV : same8 feq8 (r_t (fst d2)) (r_t x2)) by (destruct V2 as (_ & _ & _ & T & _); exact T).
          apply (times_eq H _ _ _ _ TV TX). exact E3. }
      subst n2. assert (e2 = e) by congruence. subst e2. reflexivity. }
  exists x. unfold rfi_apply. rewrite KR. cbn [bind]. rewrite G. cbn [bind].
  assert (LF : length fl = Z.to_nat nsize) by (unfold fl; rewrite (zip_len orb) by (rewrite EL; exact F2); exact F2).
  destruct (good_parts _ _ X3 X4) as (Pz & C1 & C2 & C3).
  destruct (where0_ok (map negb fl) (cells (r_n x) (r_corr x)) C1 ltac:(rewrite map_length; congruence)) as (w & W1 & W2 & W3 & W4). rewrite W1. cbn [bind].
  destruct (new_spectrum feq8 feq4 nsize x w (map negb fl) X3 X4 W2 ltac:(congruence) ltac:(rewrite map_length; exact LF)) as (N1 & N3).
  eexists. split; [exact X1|]. split; [reflexivity|]. split; [exact N1|].
  intros y' Y c Hc. destruct (N3 y' Y) as (N4 & N5). rewrite N4 in Hc. destruct (N5 c Hc) as (N6 & N7). rewrite N6, N7, W4 by lia.
  assert (NG : nth (Z.to_nat c) (map negb fl) false = negb (nth (Z.to_nat c) fl false)).
  { rewrite (nth_indep _ false (negb false)) by (rewrite map_length; lia). apply map_nth. }
  assert (NF : nth (Z.to_nat c) fl false = true <-> (reflag = false /\ good (fst d) c = false) \/ ciszero (chan (fst d) c) = true \/ lists_chan chans nsize c \/
       nth (Z.to_nat c) (extra (k', ij2bl i' j', r_t (fst d))) false = true).
  { unfold fl. rewrite (zip_nth orb _ _ _ false false) by (rewrite ?EL; lia). rewrite orb_true_iff, (F3 c Hc).
    rewrite <- (same_good _ _ c D4), <- (same_chan _ _ c D3).
    assert (XE : extra (fst e) = extra (k', ij2bl i' j', r_t (fst d))).
    { rewrite Z7. destruct TZ as [->|[T|T]]; [reflexivity|symmetry; apply ET; exact T|apply ET; exact T]. }
    rewrite XE. tauto. }
  rewrite NG. rewrite chan_cell by lia. rewrite <- (same_chan _ _ c B2). rewrite <- NF. destruct (nth (Z.to_nat c) fl false); cbn [negb]; intuition congruence.
Qed.
End Host.
