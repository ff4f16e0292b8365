(* C68: scripts/xtalk3.py -o and -r. *)
From Coq Require Import Reals Lra Permutation.
From Verif Require Import Base BaselineModel BaselineProps CleanModel CmdModel XtkModel XtkSpec XtkProofs.
Open Scope R_scope.

Lemma key_eq i j p a b q : (0 <= i <= 2046)%Z -> (0 <= j <= 2046)%Z -> (-9 <= p <= 6)%Z -> (0 <= a <= 2046)%Z -> (0 <= b <= 2046)%Z -> (-9 <= q <= 6)%Z ->
  Z.eqb (ijp2blp a b q) (ijp2blp i j p) = of_antennas_b i j p (a, b, q, [], []).
Proof.
  intros. unfold of_antennas_b. apply eq_true_iff_eq. rewrite Z.eqb_eq. split.
  - intros E. assert (q = p /\ ij2bl a b = ij2bl i j) as [-> E2] by (unfold ijp2blp in E; lia). apply C01_bl_injective in E2; auto. lia.
  - intros E. assert (q = p /\ ((a = i /\ b = j) \/ (a = j /\ b = i)))%Z as [-> [[-> ->]|[-> ->]]] by lia; [reflexivity|]. unfold ijp2blp. now rewrite C01_bl_order_free.
Qed.
Lemma of_antennas_spec i j p r : of_antennas_b i j p r = true <-> of_antennas i j p r.
Proof. destruct r as [[[[a b] q] d] f]. unfold of_antennas_b, of_antennas. lia. Qed.

Definition crosses (recs : list vis) : list vis := filter (fun v : vis => let '(i, j, _, _, _) := v in negb (Z.eqb i j)) recs.
Lemma vals_crosses n i j p recs : Forall (proper n) recs -> (0 <= i <= 2046)%Z -> (0 <= j <= 2046)%Z -> (-9 <= p <= 6)%Z -> i <> j ->
  vals (ijp2blp i j p) (map keyed (crosses recs)) = flat_map (fun r : vis => if of_antennas_b i j p r then let '(_, _, _, d, f) := r in [(d, f)] else []) recs.
Proof.
  intros F Hi Hj Hp NE. induction F as [|[[[[a b] q] d] f] recs (A1 & A2 & A3 & _) F IH]; [reflexivity|]. unfold crosses. cbn [filter flat_map].
  destruct (Z.eqb_spec a b) as [->|N]; cbn [negb].
  - fold (crosses recs). rewrite IH. replace (of_antennas_b i j p (b, b, q, d, f)) with false by (unfold of_antennas_b; lia). reflexivity.
  - cbn [map keyed vals flat_map fst snd]. rewrite (key_eq i j p a b q) by auto. change (of_antennas_b i j p (a, b, q, [], [])) with (of_antennas_b i j p (a, b, q, d, f)).
    destruct (of_antennas_b i j p (a, b, q, d, f)); cbn [app]; [f_equal|]; exact IH.
Qed.
Lemma goods_samples i j p c recs :
  goods c (flat_map (fun r : vis => if of_antennas_b i j p r then let '(_, _, _, d, f) := r in [(d, f)] else []) recs) = samples i j p c recs.
Proof.
  induction recs as [|[[[[a b] q] d] f] recs IH]; [reflexivity|]. cbn [flat_map]. unfold samples. cbn [flat_map]. fold (samples i j p c recs).
  destruct (of_antennas_b i j p (a, b, q, d, f)); cbn [app]; [|exact IH]. unfold goods in *. cbn [flat_map fst snd]. now rewrite IH.
Qed.
Lemma mean_ok (l : list C) : is_mean l (cscale (/ Rmax 1 (INR (length l))) (ctotal l)).
Proof.
  destruct l as [|z l].
  - split; [intros _|split]; unfold cscale, ctotal, total; cbn; [f_equal|..]; ring.
  - split; [discriminate|]. assert (1 <= INR (length (z :: l))) by (cbn [length]; rewrite S_INR; pose proof (pos_INR (length l)); lra).
    rewrite Rmax_right by assumption. unfold cscale. cbn [fst snd]. unfold C, cnum in *. split; field; lra.
Qed.

Theorem C68_measured n recs : Forall (proper n) recs -> (exists a b q d f, In (a, b, q, d, f) recs /\ a <> b) ->
  exists x, measure true recs = Ok x /\ NoDup (map fst x) /\
   (forall k s, In (k, s) x -> exists i j p, k = ijp2blp i j p /\ i <> j /\ exists r, In r recs /\ of_antennas i j p r) /\
   forall i j p, (0 <= i <= 2046)%Z -> (0 <= j <= 2046)%Z -> (-9 <= p <= 6)%Z -> i <> j -> (exists r, In r recs /\ of_antennas i j p r) ->
     exists s, In (ijp2blp i j p, s) x /\ length s = n /\ forall c, (c < n)%nat -> is_mean (samples i j p c recs) (nth c s (0, 0)).
Proof.
  intros F (a & b & q & d0 & f0 & I0 & NE). unfold measure. fold (crosses recs).
  assert (CN : crosses recs <> []).
  { intros E. assert (I : In (a, b, q, d0, f0) (crosses recs)) by (apply filter_In; split; [exact I0|lia]). rewrite E in I. destruct I. }
  assert (FV : forall k, Forall (fun v => length (fst v) = n /\ length (snd v) = n) (vals k (map keyed (crosses recs)))).
  { intros k. apply Forall_forall. intros v Hv. apply in_flat_map in Hv as (e & E1 & E2). destruct (Z.eqb (fst e) k); [|destruct E2]. destruct E2 as [<-|[]].
    apply in_map_iff in E1 as (r & <- & E1). apply filter_In in E1 as [E1 _]. rewrite Forall_forall in F. specialize (F r E1). destruct r as [[[[? ?] ?] ?] ?]. cbn. unfold proper in F. tauto. }
  destruct (accum_ok add_sample (map keyed (crosses recs)) [] (fun k => match vals k (map keyed (crosses recs)) with [] => None | _ => Some (sums n (vals k (map keyed (crosses recs)))) end)) as (d & D1 & D2 & D3).
  { constructor. }
  { intros k. exact (chain_samples n _ [] (FV k)). }
  destruct (mapres_dict (fun e => bcast (fun g m => cscale (/ Rmax 1 m) g) (fst e) (snd e)) d) as (x & X1 & X2 & X3).
  { intros k e He. apply in_dget in He; [|exact D2]. rewrite D3 in He. destruct (vals k _) in He; [discriminate|]. injection He as <-. unfold sums. cbn [fst snd]. rewrite bcast_seq. eauto. }
  exists x. destruct (crosses recs) as [|c0 cr] eqn:EC; [congruence|]. cbn [negb]. rewrite <- EC in *. rewrite D1. cbn [bind]. split; [exact X1|]. rewrite X2. split; [exact D2|]. split.
  - intros k s Hs. apply in_dget in Hs; [|rewrite X2; exact D2]. specialize (X3 k). rewrite D3 in X3.
    destruct (vals k (map keyed (crosses recs))) as [|v vs] eqn:E; [congruence|]. assert (Iv : In v (vals k (map keyed (crosses recs)))) by (rewrite E; left; reflexivity).
    apply in_flat_map in Iv as (e & E1 & E2). destruct (Z.eqb_spec (fst e) k) as [E3|]; [|destruct E2]. apply in_map_iff in E1 as (r & E4 & E1). apply filter_In in E1 as [E1 E5].
    destruct r as [[[[i j] p] d1] f1]. exists i, j, p. subst e. cbn [keyed fst] in E3. split; [congruence|]. split; [lia|]. eexists. split; [exact E1|]. unfold of_antennas. tauto.
  - intros i j p Hi Hj Hp N (r & R1 & R2). specialize (X3 (ijp2blp i j p)). rewrite D3 in X3. pose proof (vals_crosses n i j p recs F Hi Hj Hp N) as EV.
    destruct (vals (ijp2blp i j p) (map keyed (crosses recs))) as [|v vs] eqn:E.
    + exfalso. apply of_antennas_spec in R2. destruct r as [[[[a1 b1] q1] d1] f1].
      assert (I : In (d1, f1) (flat_map (fun r : vis => if of_antennas_b i j p r then let '(_, _, _, d, f) := r in [(d, f)] else []) recs)).
      { apply in_flat_map. exists (a1, b1, q1, d1, f1). split; [exact R1|]. rewrite R2. left. reflexivity. }
      rewrite <- EV in I. destruct I.
    + rewrite <- E in *. unfold sums in X3. cbn [fst snd] in X3. rewrite bcast_seq in X3. destruct X3 as (s & S1 & S2). injection S1 as <-.
      eexists. split; [apply dget_in; exact S2|]. split; [now rewrite map_length, seq_length|]. intros c Hc. rewrite nth_seq by exact Hc. rewrite EV, goods_samples. apply mean_ok.
Qed.
Print Assumptions C68_measured.

Lemma samples_perm i j p c recs recs' : Permutation recs recs' -> Permutation (samples i j p c recs) (samples i j p c recs').
Proof. intros H. unfold samples. apply Permutation_flat_map. exact H. Qed.
Lemma total_perm l m : Permutation l m -> total l = total m.
Proof. unfold total. induction 1; cbn [fold_right]; lra. Qed.
Lemma mean_unique l m a b : Permutation l m -> is_mean l a -> is_mean m b -> a = b.
Proof.
  intros H (A0 & A1 & A2) (B0 & B1 & B2). destruct l as [|z l].
  - apply Permutation_nil in H. subst m. rewrite A0, B0 by reflexivity. reflexivity.
  - rewrite <- (Permutation_length H) in B1, B2. unfold ctotal in *. cbn [fst snd] in *.
    rewrite <- (total_perm _ _ (Permutation_map fst H)) in B1. rewrite <- (total_perm _ _ (Permutation_map snd H)) in B2.
    assert (INR (length (z :: l)) <> 0) by (apply not_0_INR; discriminate).
    destruct a, b. cbn [fst snd] in *. f_equal; apply (Rmult_eq_reg_l (INR (length (z :: l)))); auto; lra.
Qed.
(* the order of the records does not matter *)
Theorem C68_order n recs recs' : Forall (proper n) recs -> Permutation recs recs' -> (exists a b q d f, In (a, b, q, d, f) recs /\ a <> b) ->
  exists x x', measure true recs = Ok x /\ measure true recs' = Ok x' /\ forall e, In e x <-> In e x'.
Proof.
  intros F P NE. assert (F' : Forall (proper n) recs') by (eapply Permutation_Forall; eauto).
  assert (NE' : exists a b q d f, In (a, b, q, d, f) recs' /\ a <> b).
  { destruct NE as (a & b & q & d & f & I & N). exists a, b, q, d, f. split; [eapply Permutation_in; eauto|exact N]. }
  destruct (C68_measured n recs F NE) as (x & X1 & X2 & X3 & X4). destruct (C68_measured n recs' F' NE') as (x' & Y1 & Y2 & Y3 & Y4).
  exists x, x'. split; [exact X1|]. split; [exact Y1|].
  assert (G : forall recs recs' x x', Forall (proper n) recs -> Permutation recs recs' -> NoDup (map fst x) ->
     (forall k s, In (k, s) x -> exists i j p, k = ijp2blp i j p /\ i <> j /\ exists r, In r recs /\ of_antennas i j p r) ->
     (forall i j p, (0 <= i <= 2046)%Z -> (0 <= j <= 2046)%Z -> (-9 <= p <= 6)%Z -> i <> j -> (exists r, In r recs /\ of_antennas i j p r) ->
       exists s, In (ijp2blp i j p, s) x /\ length s = n /\ forall c, (c < n)%nat -> is_mean (samples i j p c recs) (nth c s (0, 0))) ->
     (forall i j p, (0 <= i <= 2046)%Z -> (0 <= j <= 2046)%Z -> (-9 <= p <= 6)%Z -> i <> j -> (exists r, In r recs' /\ of_antennas i j p r) ->
       exists s, In (ijp2blp i j p, s) x' /\ length s = n /\ forall c, (c < n)%nat -> is_mean (samples i j p c recs') (nth c s (0, 0))) ->
     forall e, In e x -> In e x').
  { clear. intros recs recs' x x' F P ND A B B' [k s] I. destruct (A k s I) as (i & j & p & -> & N & r & R1 & R2).
    assert (RG : (0 <= i <= 2046)%Z /\ (0 <= j <= 2046)%Z /\ (-9 <= p <= 6)%Z).
    { rewrite Forall_forall in F. specialize (F r R1). destruct r as [[[[a b] q] d] f]. unfold proper in F. unfold of_antennas in R2. lia. }
    destruct RG as (H1 & H2 & H3). destruct (B i j p H1 H2 H3 N) as (s1 & S1 & S2 & S3); [eauto|].
    assert (s1 = s) by (apply in_dget in S1; [|exact ND]; apply in_dget in I; [|exact ND]; congruence). subst s1.
    destruct (B' i j p H1 H2 H3 N) as (s2 & T1 & T2 & T3); [exists r; split; [eapply Permutation_in; eauto|exact R2]|].
    replace s with s2; [exact T1|]. apply (nth_ext _ _ (0, 0) (0, 0)); [congruence|]. intros c Hc. rewrite T2 in Hc.
    apply (mean_unique (samples i j p c recs') (samples i j p c recs)); [|apply T3; exact Hc|apply S3; exact Hc]. apply samples_perm. symmetry. exact P. }
  intros e. split; [apply (G recs recs')|apply (G recs' recs)]; auto. symmetry. exact P.
Qed.
Print Assumptions C68_order.
(* what is left of the samples when the measured crosstalk is taken off has mean zero *)
Theorem C68_left_over n recs x i j p s c : Forall (proper n) recs -> measure true recs = Ok x -> (0 <= i <= 2046)%Z -> (0 <= j <= 2046)%Z -> (-9 <= p <= 6)%Z -> i <> j ->
  In (ijp2blp i j p, s) x -> (c < n)%nat -> is_mean (map (fun z => csub z (nth c s (0, 0))) (samples i j p c recs)) (0, 0).
Proof.
  intros F M Hi Hj Hp N I Hc.
  assert (NE : exists a b q d f, In (a, b, q, d, f) recs /\ a <> b).
  { unfold measure in M. fold (crosses recs) in M. destruct (crosses recs) as [|[[[[a b] q] d] f] cr] eqn:E; [discriminate|].
    assert (In (a, b, q, d, f) (crosses recs)) as J by (rewrite E; left; reflexivity). apply filter_In in J as [J1 J2]. exists a, b, q, d, f. split; [exact J1|lia]. }
  destruct (C68_measured n recs F NE) as (x' & X1 & X2 & X3 & X4). assert (x' = x) by congruence. subst x'.
  destruct (X3 _ _ I) as (i' & j' & p' & K & N' & r & R1 & R2).
  destruct (X4 i j p Hi Hj Hp N) as (s' & S1 & S2 & S3).
  { exists r. split; [exact R1|]. rewrite Forall_forall in F. specialize (F r R1). destruct r as [[[[a b] q] d] f]. unfold proper in F. unfold of_antennas in *.
    assert (E : of_antennas_b i j p (a, b, q, [], []) = true).
    { rewrite <- key_eq by tauto. apply Z.eqb_eq. rewrite K. destruct R2 as (<- & [[<- <-]|[<- <-]]); [reflexivity|]. unfold ijp2blp. now rewrite C01_bl_order_free. }
    apply of_antennas_spec in E. exact E. }
  assert (s' = s) by (apply in_dget in S1; [|exact X2]; apply in_dget in I; [|exact X2]; congruence). subst s'.
  destruct (S3 c Hc) as (A0 & A1 & A2). set (m := nth c s (0, 0)) in *. set (l := samples i j p c recs) in *. clearbody m l.
  split; [reflexivity|]. rewrite map_length. unfold ctotal in *. cbn [fst snd] in *. rewrite !map_map.
  assert (G : forall (f : cnum -> R) y l, total (map (fun z => f z - y) l) = total (map f l) - INR (length l) * y).
  { clear. intros f y l. unfold total. induction l as [|z l IH]; [cbn; ring|]. cbn [map fold_right length]. rewrite IH, S_INR. ring. }
  split; [pose proof (G fst (fst m) l) as Q|pose proof (G snd (snd m) l) as Q]; unfold csub; cbn [fst snd]; unfold C, cnum in *; rewrite Q; lra.
Qed.
Print Assumptions C68_left_over.

(* finding: both modes use dict.has_key, which Python 3 does not have *)
Theorem C68_has_key_refuted {T} recs lo hi (fs : list (file T)) : measure false recs = Err /\
  ((exists f l, In f fs /\ snd f = Some l /\ l <> []) -> reprocess false lo hi fs = ([], false)).
Proof.
  split.
  - unfold measure. destruct (filter _ recs); reflexivity.
  - intros (f & l & I & E & N). unfold reprocess. replace (Nat.eqb (length (contents fs)) 0) with false; [reflexivity|]. symmetry. apply Nat.eqb_neq.
    destruct l as [|e l]; [congruence|]. assert (In e (contents fs)) as J by (apply in_flat_map; exists f; split; [exact I|]; rewrite E; left; reflexivity).
    destruct (contents fs); [destruct J|discriminate].
Qed.
Print Assumptions C68_has_key_refuted.

Lemma vals_one {V} b (m : list (Z * V)) : NoDup (map fst m) -> forall d, In (b, d) m -> vals b m = [d].
Proof.
  assert (G : forall m : list (Z * V), ~ In b (map fst m) -> vals b m = []).
  { clear. induction m as [|[k e] m IH]; intros N; [reflexivity|]. unfold vals. cbn [flat_map fst snd]. destruct (Z.eqb_spec k b) as [->|]; [destruct N; left; reflexivity|]. apply IH. intros I. apply N. right. exact I. }
  induction m as [|[k e] m IH]; intros ND d I; [destruct I|]. inversion ND as [|? ? N1 N2]; subst. unfold vals. cbn [flat_map fst snd]. fold (vals b m). destruct I as [[= -> ->]|I].
  - rewrite Z.eqb_refl, (G m N1). reflexivity.
  - destruct (Z.eqb_spec k b) as [->|]; [destruct N1; apply in_map_iff; exists (b, d); auto|]. apply (IH N2 d I).
Qed.
(* the files, all of them there *)
Definition there {T} (fs : list (T * measurement)) : list (file T) := map (fun f => (fst f, Some (snd f))) fs.
Lemma vals_there {T} b (fs : list (T * measurement)) : vals b (contents (there fs)) = flat_map (fun f => of_key b (snd f)) fs.
Proof.
  induction fs as [|f fs IH]; [reflexivity|]. unfold there, contents. cbn [map flat_map snd]. fold (there fs). fold (contents (there fs)). unfold vals in *. rewrite flat_map_app, IH. reflexivity.
Qed.
Lemma per_file {T} b : forall (fs : list (T * measurement)), (forall f, In f fs -> NoDup (map fst (snd f)) /\ In b (map fst (snd f))) ->
  length (flat_map (fun f => of_key b (snd f)) fs) = length fs /\
  forall c t m d, nth_error fs c = Some (t, m) -> In (b, d) m -> nth_error (flat_map (fun f => of_key b (snd f)) fs) c = Some d.
Proof.
  induction fs as [|f fs IH]; intros H; [split; [reflexivity|intros [|]; discriminate]|]. destruct IH as [I1 I2]; [intros; apply H; right; assumption|].
  destruct (H f (or_introl eq_refl)) as [ND IB]. apply in_map_iff in IB as ([k d0] & E & IB). cbn in E. subst k. cbn [flat_map]. change (of_key b (snd f)) with (vals b (snd f)). rewrite (vals_one b _ ND d0 IB).
  split; [cbn [app length]; now rewrite I1|]. intros [|c] t m d N I; cbn [nth_error app] in *; [|eapply I2; eauto]. injection N as ->. cbn [snd] in *.
  apply in_dget in I; [|exact ND]. apply in_dget in IB; [|exact ND]. congruence.
Qed.
(* one output for a file, at its time; the spectrum of a key is the file's mean amplitude times a profile that
   is the same for all of them, the mean of the normalised spectra that are not zero in the channel *)
Theorem C68_reprocess {T} lo hi n (fs : list (T * measurement)) : (forall f, In f fs -> measured lo hi n (snd f)) ->
  (forall f f' b, In f fs -> In f' fs -> In b (map fst (snd f)) -> In b (map fst (snd f'))) ->
  exists out, reprocess true lo hi (there fs) = (out, true) /\ map fst out = map fst fs /\
    (forall c t m, nth_error fs c = Some (t, m) -> exists o, nth_error out c = Some (t, o) /\ NoDup (map fst o) /\ forall b, In b (map fst o) <-> In b (map fst m)) /\
    forall b, exists pr : list cnum, length pr = n /\
      (forall k, (k < n)%nat -> let ds := flat_map (fun f => of_key b (snd f)) fs in
         is_mean (map (fun d => times (/ mean_amplitude lo hi d) (nth k d (0, 0))) (filter (fun d => lit_channel (nth k d (0, 0))) ds)) (nth k pr (0, 0))) /\
      forall c t m o d s, nth_error fs c = Some (t, m) -> nth_error out c = Some (t, o) -> In (b, d) m -> In (b, s) o -> s = map (times (mean_amplitude lo hi d)) pr.
Proof.
  intros M SK. destruct (reprocessed lo hi n (there fs)) as (d & D1 & D2 & D3).
  { intros f m I E. apply in_map_iff in I as (f' & <- & I). cbn in E. injection E as <-. apply M. exact I. }
  assert (D3' : forall b, dget d b = match flat_map (fun f => of_key b (snd f)) fs with [] => None
    | _ => Some (gains lo hi (flat_map (fun f => of_key b (snd f)) fs), prof lo hi n (flat_map (fun f => of_key b (snd f)) fs)) end).
  { intros b. rewrite <- vals_there. apply D3. }
  clear D3. rename D3' into D3.
  assert (PF : forall f b, In f fs -> In b (map fst (snd f)) -> forall f', In f' fs -> NoDup (map fst (snd f')) /\ In b (map fst (snd f'))).
  { intros f b I B f' I'. split; [apply (M f' I')|]. eapply SK; eauto. }
  assert (DK : forall f b, In f fs -> (In b (map fst d) <-> In b (map fst (snd f)))).
  { intros f b I. split; intros B.
    - apply in_map_iff in B as ([k e] & E & B). cbn in E. subst k. apply in_dget in B; [|exact D2]. rewrite D3 in B.
      destruct (flat_map (fun f => of_key b (snd f)) fs) as [|d0 ds] eqn:E; [discriminate|]. assert (J : In d0 (flat_map (fun f => of_key b (snd f)) fs)) by (rewrite E; left; reflexivity).
      apply in_flat_map in J as (f' & J1 & J2). apply in_flat_map in J2 as ([k e'] & J2 & J3). cbn [fst snd] in J3. destruct (Z.eqb_spec k b) as [->|]; [|destruct J3].
      apply (SK f' f b J1 I). apply in_map_iff. exists (b, e'). auto.
    - destruct (per_file b fs (PF f b I B)) as [L _]. specialize (D3 b). destruct (flat_map (fun f => of_key b (snd f)) fs); [destruct fs; [destruct I|discriminate]|]. apply dget_in in D3. apply in_map_iff. eexists. split; [|exact D3]. reflexivity. }
  assert (ML : map fst (there fs) = map fst fs) by (unfold there; rewrite map_map; reflexivity). rewrite ML in D1.
  assert (LG : forall e, In e d -> length (fst (snd e)) = length fs).
  { intros [b e] I. pose proof I as I'. apply in_dget in I; [|exact D2]. rewrite D3 in I. assert (NF : exists f, In f fs) by (destruct fs as [|f ?]; [discriminate|exists f; left; reflexivity]).
    destruct NF as [f NF]. assert (B : In b (map fst (snd f))) by (apply (DK f b NF); apply in_map_iff; exists (b, e); auto). destruct (per_file b fs (PF f b NF B)) as [L _].
    rewrite <- L. destruct (flat_map (fun f => of_key b (snd f)) fs); [discriminate|]. injection I as <-. cbn [fst snd length]. f_equal. apply map_length. }
  rewrite outputs_ok in D1 by (intros e I; rewrite (LG e I), map_length; lia). eexists. split; [exact D1|].
  set (out := map (fun q => part (fst q) (snd q) d) (combine (seq 0 (length (map fst fs))) (map fst fs))). assert (NO : forall c t m, nth_error fs c = Some (t, m) -> nth_error out c = Some (part c t d)).
  { intros c t m N. unfold out. apply map_nth_error with (d := (c, t)).
    assert (G : forall (l : list T) k c t, nth_error l c = Some t -> nth_error (combine (seq k (length l)) l) c = Some (k + c, t)%nat).
    { clear. induction l as [|a l IH]; intros k [|c] t; cbn; [discriminate..| |]. - intros [= ->]. now rewrite Nat.add_0_r. - intros H. rewrite (IH (S k) c t H). now rewrite Nat.add_succ_r. }
    apply (G _ 0%nat). apply (map_nth_error fst c fs) in N. exact N. }
  assert (LO : length out = length fs) by (unfold out; rewrite map_length, combine_length, seq_length, !map_length; lia).
  split; [|split].
  - unfold out. rewrite map_map. cbn [part fst]. generalize (map fst fs) as l. generalize 0%nat as k. intros k l. revert k. induction l as [|a l IH]; intros k; cbn; [reflexivity|]. f_equal. apply IH.
  - intros c t m N. eexists. split; [apply (NO c t m N)|]. cbn [part]. rewrite map_map. cbn [fst]. split; [exact D2|]. intros b. apply (DK (t, m) b). eapply nth_error_In; eauto.
  - intros b. exists (prof lo hi n (flat_map (fun f => of_key b (snd f)) fs)). split; [unfold prof; now rewrite map_length, seq_length|]. split.
    + intros k Hk ds. apply (prof_mean lo hi n ds k Hk). intros x X. apply in_flat_map in X as (f & X1 & X2). apply in_flat_map in X2 as ([k' e] & X2 & X3). cbn [fst snd] in X3. destruct (Z.eqb k' b); [|destruct X3].
      destruct X3 as [<-|[]]. destruct (M f X1) as [_ Q]. apply (Q _ _ X2).
    + intros c t m o x s N N' I J. rewrite (NO c t m N) in N'. injection N' as <-. apply in_map_iff in J as ([k [gs p]] & E & J). cbn [fst snd] in E. injection E as -> <-.
      apply in_dget in J; [|exact D2]. rewrite D3 in J.
      assert (F : In (t, m) fs) by (eapply nth_error_In; eauto). assert (B : In b (map fst m)) by (apply in_map_iff; exists (b, x); auto).
      destruct (per_file b fs (PF (t, m) b F B)) as [_ P]. specialize (P c t m x N I).
      destruct (flat_map (fun f => of_key b (snd f)) fs) as [|y ys] eqn:E; [discriminate|]. rewrite <- E in *. injection J as <- <-.
      assert (GC : nth c (gains lo hi (flat_map (fun f => of_key b (snd f)) fs)) 0 = mean_amplitude lo hi x).
      { apply nth_error_nth. unfold gains. rewrite (map_nth_error _ _ _ P). f_equal. rewrite gain_mean. destruct (M _ F) as [_ Q]. destruct (Q b x I) as [_ Q2]. destruct (amplitudes lo hi x); congruence. }
      unfold C, cnum in *. rewrite GC. reflexivity.
Qed.
Print Assumptions C68_reprocess.

Lemma times_amplitudes lo hi a p : 0 < a -> amplitudes lo hi (map (times a) p) = map (Rmult a) (amplitudes lo hi p).
Proof.
  intros A. unfold amplitudes. rewrite skipn_map, firstn_map. generalize (firstn (hi - lo) (skipn lo p)) as l. induction l as [|z l IH]; [reflexivity|]. cbn [map filter].
  assert (E : modulus (times a z) = a * modulus z).
  { unfold modulus, times. cbn [fst snd]. replace (a * fst z * (a * fst z) + a * snd z * (a * snd z)) with (a * a * (fst z * fst z + snd z * snd z)) by ring. rewrite sqrt_mult by nra. now rewrite sqrt_square by lra. }
  assert (L : lit_channel (times a z) = lit_channel z).
  { unfold lit_channel. rewrite E. destruct (Req_EM_T (a * modulus z) 0) as [Z|Z], (Req_EM_T (modulus z) 0) as [Y|Y]; try reflexivity; exfalso.
    - apply Rmult_integral in Z. lra.
    - apply Z. rewrite Y. ring. }
  rewrite L. destruct (lit_channel z); cbn [map]; rewrite IH, ?E; reflexivity.
Qed.
Lemma times_mean lo hi a p : 0 < a -> mean_amplitude lo hi (map (times a) p) = a * mean_amplitude lo hi p.
Proof.
  intros A. unfold mean_amplitude. rewrite times_amplitudes by exact A. rewrite map_length. assert (G : forall l, total (map (Rmult a) l) = a * total l) by (unfold total; induction l; cbn [map fold_right]; lra). rewrite G. unfold Rdiv. ring.
Qed.
(* where a key's spectra are one shape with a positive gain for each file, they come out as they were *)
Theorem C68_shape {T} lo hi n (fs : list (T * measurement)) b (p : list cnum) (gain : T * measurement -> R) : (forall f, In f fs -> measured lo hi n (snd f)) ->
  (forall f f' b, In f fs -> In f' fs -> In b (map fst (snd f)) -> In b (map fst (snd f'))) ->
  (forall f, In f fs -> 0 < gain f /\ In (b, map (times (gain f)) p) (snd f)) ->
  exists out, reprocess true lo hi (there fs) = (out, true) /\ forall c t m, nth_error fs c = Some (t, m) -> exists o, nth_error out c = Some (t, o) /\ forall d, In (b, d) m <-> In (b, d) o.
Proof.
  intros M SK G. destruct (C68_reprocess lo hi n fs M SK) as (out & O1 & O2 & O3 & O4). exists out. split; [exact O1|]. intros c t m N. destruct (O3 c t m N) as (o & P1 & P2 & P3). exists o. split; [exact P1|].
  destruct (O4 b) as (pr & L & PM & PO). assert (F : In (t, m) fs) by (eapply nth_error_In; eauto). destruct (G _ F) as [GP GI]. cbn [snd] in GI. set (a := gain (t, m)) in *.
  destruct (M _ F) as [ND Q]. cbn [snd] in *. destruct (Q _ _ GI) as [QL QA].
  assert (AM : amplitudes lo hi p <> []) by (intros E; apply QA; rewrite times_amplitudes, E by exact GP; reflexivity).
  pose proof (mean_amplitude_pos lo hi p AM) as MP.
  assert (PE : map (times (mean_amplitude lo hi (map (times a) p))) pr = map (times a) p).
  { rewrite map_length in QL. apply (nth_ext _ _ (times (mean_amplitude lo hi (map (times a) p)) (0, 0)) (times a (0, 0))); [rewrite !map_length; exact (eq_trans L (eq_sym QL))|]. intros k Hk. rewrite map_length in Hk; unfold C, cnum in *; rewrite L in Hk. rewrite !map_nth. rewrite times_mean by exact GP.
    specialize (PM k Hk). cbn zeta in PM. assert (PM' : exists ds : list (list cnum), ds = flat_map (fun f => of_key b (snd f)) fs /\
      is_mean (map (fun d => times (/ mean_amplitude lo hi d) (nth k d (0, 0))) (filter (fun d => lit_channel (nth k d (0, 0))) ds)) (nth k pr (0, 0))) by (eexists; split; [reflexivity|exact PM]).
    clear PM. destruct PM' as (ds & EDS & PM).
    assert (DS : forall x, In x ds -> exists e, 0 < e /\ x = map (times e) p).
    { intros x X. rewrite EDS in X. apply in_flat_map in X as (f & X1 & X2). destruct (G f X1) as [E1 E2]. destruct (M f X1) as [ND' _]. change (of_key b (snd f)) with (vals b (snd f)) in X2. rewrite (vals_one b _ ND' _ E2) in X2. destruct X2 as [<-|[]]. eauto. }
    assert (DN : ds <> []).
    { intros E. assert (In (map (times a) p) ds); [|rewrite E in *; contradiction]. rewrite EDS. apply in_flat_map. exists (t, m). split; [exact F|]. apply in_flat_map. eexists. split; [exact GI|]. cbn [fst snd]. rewrite Z.eqb_refl. left. reflexivity. }
    clear EDS.
    assert (NK : forall e, nth k (map (times e) p) (0, 0) = times e (nth k p (0, 0))).
    { intros e. rewrite (nth_indep _ (0, 0) (times e (0, 0))) by (rewrite map_length; unfold C, cnum in *; lia). apply map_nth. }
    assert (MK : forall e, 0 < e -> modulus (times e (nth k p (0, 0))) = e * modulus (nth k p (0, 0))).
    { intros e E. unfold modulus, times. cbn [fst snd]. set (z := nth k p (0, 0)). replace (e * fst z * (e * fst z) + e * snd z * (e * snd z)) with (e * e * (fst z * fst z + snd z * snd z)) by ring. rewrite sqrt_mult by nra. now rewrite sqrt_square by lra. }
    destruct (Req_dec (modulus (nth k p (0, 0))) 0) as [Z|Z].
    - assert (FE : filter (fun d => lit_channel (nth k d (0, 0))) ds = []).
      { clear - DS NK MK Z. induction ds as [|x ds IH]; [reflexivity|]. destruct (DS x (or_introl eq_refl)) as (e & E1 & E2). cbn [filter]. unfold lit_channel at 1. rewrite E2, NK, MK, Z by exact E1.
        destruct (Req_EM_T (e * 0) 0) as [|Y]; [apply IH; intros; apply DS; right; assumption|destruct Y; ring]. }
      unfold C, cnum in *. rewrite FE in PM. destruct PM as [PM _]. rewrite (PM eq_refl). apply (amp_0 (nth k p (0, 0))) in Z. unfold C, cnum in *. rewrite Z. unfold times. cbn [fst snd]. f_equal; ring.
    - assert (FE : map (fun d => times (/ mean_amplitude lo hi d) (nth k d (0, 0))) (filter (fun d => lit_channel (nth k d (0, 0))) ds) = map (fun _ => times (/ mean_amplitude lo hi p) (nth k p (0, 0))) ds).
      { clear - DS NK MK Z MP. induction ds as [|x ds IH]; [reflexivity|]. destruct (DS x (or_introl eq_refl)) as (e & E1 & E2). cbn [filter map]. unfold lit_channel at 1. rewrite E2, NK, MK by exact E1.
        destruct (Req_EM_T (e * modulus (nth k p (0, 0))) 0) as [Y|Y]; [apply Rmult_integral in Y; lra|]. cbn [map]. rewrite IH by (intros; apply DS; right; assumption). f_equal. rewrite NK, times_mean by exact E1.
        unfold times. cbn [fst snd]. f_equal; field; lra. }
      unfold C, cnum in *. rewrite FE in PM. destruct PM as (_ & P4 & P5). rewrite map_length in P4, P5. set (z := times (/ mean_amplitude lo hi p) (nth k p (0, 0))) in *.
      assert (TC : forall (g : cnum -> R) (l : list (list cnum)), total (map g (map (fun _ => z) l)) = INR (length l) * g z).
      { intros g l. unfold total. induction l as [|? l IH]; [cbn; ring|]. cbn [map fold_right]. rewrite IH. change (length (_ :: l)) with (S (length l)). rewrite S_INR. ring. }
      unfold ctotal in P4, P5. cbn [fst snd] in P4, P5. rewrite TC in P4, P5.
      assert (ID : INR (length ds) <> 0) by (apply not_0_INR; destruct ds; [congruence|discriminate]).
      apply Rmult_eq_reg_l in P4; [|exact ID]. apply Rmult_eq_reg_l in P5; [|exact ID]. unfold times. rewrite P4, P5. unfold z, times. cbn [fst snd]. f_equal; field; lra. }
  assert (IO : exists s, In (b, s) o).
  { assert (In b (map fst o)) as J by (apply P3; apply in_map_iff; eexists; split; [|exact GI]; reflexivity). apply in_map_iff in J as ([k s] & E & J). cbn in E. subst k. eauto. }
  destruct IO as [s IO]. pose proof (PO c t m o _ s N P1 GI IO) as ES. rewrite PE in ES. subst s. intros d. split; intros I.
  - apply in_dget in I; [|exact ND]. apply in_dget in GI; [|exact ND]. assert (ED : Some d = Some (map (times a) p)) by exact (eq_trans (eq_sym I) GI). injection ED as ->. exact IO.
  - apply in_dget in I; [|exact P2]. apply in_dget in IO; [|exact P2]. assert (ED : Some d = Some (map (times a) p)) by exact (eq_trans (eq_sym I) IO). injection ED as ->. exact GI.
Qed.
Print Assumptions C68_shape.

Lemma vals_few {T} b (fs : list (file T)) : (forall f m, In f fs -> snd f = Some m -> NoDup (map fst m)) ->
  (length (vals b (contents fs)) <= length fs)%nat /\ ((exists f, In f fs /\ snd f = None) -> (length (vals b (contents fs)) < length fs)%nat).
Proof.
  induction fs as [|f fs IH]; intros H; [split; [cbn; lia|intros (? & [] & _)]|]. destruct IH as [I1 I2]; [intros; eapply H; [right|]; eauto|].
  assert (E : vals b (contents (f :: fs)) = (vals b (match snd f with Some l => l | None => [] end) ++ vals b (contents fs))%list) by (unfold vals, contents; cbn [flat_map]; apply flat_map_app).
  rewrite E, app_length. cbn [length].
  assert (L : (length (vals b (match snd f with Some l => l | None => [] end)) <= match snd f with Some _ => 1 | None => 0 end)%nat).
  { destruct (snd f) as [m|] eqn:S; [|cbn; lia]. specialize (H f m (or_introl eq_refl) S). destruct (vals b m) as [|d vs] eqn:V; [cbn; lia|]. assert (I : In d (vals b m)) by (rewrite V; left; reflexivity).
    apply in_flat_map in I as ([k e] & J1 & J2). cbn [fst snd] in J2. destruct (Z.eqb_spec k b) as [->|]; [|destruct J2]. rewrite <- V, (vals_one b m H e J1). cbn. lia. }
  split; [destruct (snd f); lia|]. intros (g & [<-|G] & N); [rewrite N in *; lia|]. specialize (I2 (ex_intro _ g (conj G N))). destruct (snd f); lia.
Qed.
(* finding: when a file's measurement is missing ("Skipping...") its time is kept, the run raises before the last file *)
Theorem C68_missing_refuted {T} lo hi n (fs : list (file T)) : (forall f m, In f fs -> snd f = Some m -> measured lo hi n m) ->
  (exists f, In f fs /\ snd f = None) -> (exists f b d m, In f fs /\ snd f = Some m /\ In (b, d) m) ->
  exists out, reprocess true lo hi fs = (out, false) /\ (length out < length fs)%nat.
Proof.
  intros M MI (f & b & x & m & I1 & I2 & I3). destruct (reprocessed lo hi n fs M) as (d & D1 & D2 & D3).
  assert (V : In x (vals b (contents fs))).
  { apply in_flat_map. exists (b, x). split; [|cbn; rewrite Z.eqb_refl; left; reflexivity]. apply in_flat_map. exists f. split; [exact I1|]. rewrite I2. exact I3. }
  destruct (vals_few b fs) as [_ LT]. { intros g m' G1 G2. apply (M g m' G1 G2). } specialize (LT MI).
  specialize (D3 b). destruct (vals b (contents fs)) as [|v vs] eqn:E; [destruct V|]. rewrite <- E in *. apply dget_in in D3.
  destruct (outputs_short d _ D3 (map fst fs) 0%nat) as [O1 O2].
  { cbn [fst snd]. unfold gains. rewrite !map_length. split; [apply Nat.le_0_l|exact LT]. }
  rewrite D1. cbn [fst snd] in O2. unfold gains in O2. rewrite map_length in O2. destruct (outputs 0 (map fst fs) d) as [out ok]. cbn [fst snd] in *. exists out. subst ok. split; [reflexivity|]. eapply Nat.le_lt_trans; [exact O2|exact LT].
Qed.
Print Assumptions C68_missing_refuted.

Lemma amp_real x : 0 <= x -> amp (x, 0) = x.
Proof. intros H. unfold amp, cnorm2. cbn [fst snd]. replace (x * x + 0 * 0) with (x * x) by ring. apply sqrt_square. exact H. Qed.
Lemma lit_real x : 0 < x -> nonzero (amp (x, 0)) = true.
Proof. intros H. rewrite amp_real by lra. unfold nonzero. destruct (Req_EM_T x 0); [lra|reflexivity]. Qed.
(* and the measurement that is there at time 1 is written with the gain of time 2 *)
Example C68_missing_shift :
  reprocess true 0 1 [(0%nat, None); (1%nat, Some [(258%Z, [(2, 0)])]); (2%nat, Some [(258%Z, [(4, 0)])])] =
  ([(0%nat, [(258%Z, [(2, 0)])]); (1%nat, [(258%Z, [(4, 0)])])], false).
Proof.
  assert (G : forall x, 0 < x -> gain_of 0 1 [(x, 0)] = Some x).
  { intros x H. unfold gain_of. cbn -[amp nonzero]. rewrite amp_real by lra. unfold nonzero. destruct (Req_EM_T x 0); [lra|]. cbn. f_equal. field. }
  unfold reprocess, contents. cbn [flat_map snd app length Nat.eqb negb andb accum dget].
  unfold add_file at 1. rewrite G by lra. cbn [bind dput dget Z.eqb Pos.eqb map]. rewrite lit_real by lra.
  unfold add_file at 1. rewrite G by lra. cbn [map]. rewrite lit_real by lra. unfold bcast. cbn [length Nat.eqb combine map bind app dput fst snd Z.eqb Pos.eqb mapres profile].
  unfold bcast. cbn [length Nat.eqb combine map bind fst snd outputs mapres nth_error].
  destruct (Req_EM_T (1 + 1) 0) as [H|_]; [lra|]. unfold cscale, cadd. cbn [fst snd]. repeat first [reflexivity | progress f_equal]; try lra; try field.
Qed.
(* -o on three records: two of one pair, in both orders, one sample flagged, and an autocorrelation *)
Example C68_measured_ex : measure true [(1, 2, -5, [(1, 1); (3, 0)]%R, [false; false]); (2, 1, -5, [(3, 3); (9, 9)]%R, [false; true]); (1, 1, -5, [(7, 0); (7, 0)]%R, [false; false])]%Z
  = Ok [(ijp2blp 1 2 (-5), [(2, 2); (3, 0)])].
Proof.
  unfold measure. cbn [filter Z.eqb negb Pos.eqb map keyed accum dget]. change (ijp2blp 2 1 (-5)) with (ijp2blp 1 2 (-5)).
  generalize (ijp2blp 1 2 (-5)) as k. intros k. unfold add_sample at 1, bcast at 1. cbn [fst snd length Nat.eqb combine map bind accum dput dget]. rewrite Z.eqb_refl.
  unfold add_sample at 1, bcast at 1, iadd. cbn [fst snd length Nat.eqb combine map bind accum dput]. rewrite ?Z.eqb_refl. cbn [bind accum mapres fst snd]. unfold bcast. cbn [length Nat.eqb combine map bind fst snd].
  rewrite Rmax_right by lra. rewrite Rmax_left by lra. unfold cscale, cadd. cbn [fst snd]. repeat first [reflexivity | progress f_equal]; try lra; try field.
Qed.
(* -r on two files: channel 0 twice as strong in the second, channel 1 empty in the first *)
Example C68_reprocess_ex : reprocess true 0 1 [(0%nat, Some [(258%Z, [(2, 0); (0, 0)])]); (1%nat, Some [(258%Z, [(4, 0); (0, 12)])])] =
  ([(0%nat, [(258%Z, [(2, 0); (0, 6)])]); (1%nat, [(258%Z, [(4, 0); (0, 12)])])], true).
Proof.
  assert (G : forall x y, 0 < x -> gain_of 0 1 [(x, 0); y] = Some x).
  { intros x y H. unfold gain_of. cbn -[amp nonzero]. rewrite amp_real by lra. unfold nonzero. destruct (Req_EM_T x 0); [lra|]. cbn. f_equal. field. }
  assert (N0 : nonzero (amp (0, 0)) = false) by (rewrite amp_real by lra; unfold nonzero; destruct (Req_EM_T 0 0); [reflexivity|lra]).
  assert (N1 : nonzero (amp (0, 12)) = true).
  { unfold amp, cnorm2, nonzero. cbn [fst snd]. replace (0 * 0 + 12 * 12) with (12 * 12) by ring. rewrite sqrt_square by lra. destruct (Req_EM_T 12 0); [lra|reflexivity]. }
  unfold reprocess, contents. cbn [flat_map snd app length Nat.eqb negb andb accum dget].
  unfold add_file at 1. rewrite G by lra. cbn [bind dput dget Z.eqb Pos.eqb map]. rewrite lit_real, N0 by lra.
  unfold add_file at 1. rewrite G by lra. cbn [map]. rewrite lit_real, N1 by lra. unfold bcast. cbn [length Nat.eqb combine map bind app dput fst snd Z.eqb Pos.eqb mapres profile].
  unfold bcast. cbn [length Nat.eqb combine map bind fst snd outputs mapres nth_error].
  destruct (Req_EM_T (1 + 1) 0) as [H|_]; [lra|]. destruct (Req_EM_T (0 + 1) 0) as [H|_]; [lra|]. unfold cscale, cadd. cbn [fst snd]. repeat first [reflexivity | progress f_equal]; try lra; try field.
Qed.
