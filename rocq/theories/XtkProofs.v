From Coq Require Import Reals Lra.
From Verif Require Import Base BaselineModel BaselineProps CleanModel CmdModel XtkModel XtkSpec.
Open Scope R_scope.

Lemma dget_dput {A} (d : list (Z * A)) k a k' : dget (dput d k a) k' = if Z.eqb k k' then Some a else dget d k'.
Proof.
  induction d as [|[c b] d IH]; cbn [dput dget]; [reflexivity|]. destruct (Z.eqb_spec c k) as [->|N]; cbn [dget].
  - destruct (Z.eqb k k'); reflexivity.
  - rewrite IH. destruct (Z.eqb_spec c k') as [->|N']; [|reflexivity]. destruct (Z.eqb_spec k k'); [congruence|reflexivity].
Qed.
Lemma dput_keys {A} (d : list (Z * A)) k a : NoDup (map fst d) -> NoDup (map fst (dput d k a)).
Proof.
  induction d as [|[c b] d IH]; intros H; cbn; [constructor; [intros []|constructor]|]. inversion H as [|? ? N ND]; subst.
  destruct (Z.eqb_spec c k) as [->|NE]; cbn; constructor; auto. intros I. apply in_map_iff in I as ((x & y) & E & I). cbn in E. subst x.
  assert (G : forall d : list (Z * A), In (c, y) (dput d k a) -> In c (map fst d)).
  { clear -NE. induction d as [|[e f] d IH]; cbn; [intros [E|[]]; congruence|]. destruct (Z.eqb_spec e k) as [->|N]; cbn; intros [E|E]; try (left; congruence).
    - right. apply in_map_iff. exists (c, y). auto.
    - right. auto. }
  exact (N (G _ I)).
Qed.

Definition vals {V} (b : Z) (l : list (Z * V)) : list V := flat_map (fun e => if Z.eqb (fst e) b then [snd e] else []) l.
Fixpoint chain {V A} (f : option A -> V -> res A) (o : option A) (vs : list V) : res (option A) :=
  match vs with [] => Ok o | v :: r => bind (f o v) (fun a => chain f (Some a) r) end.
Lemma accum_ok {V A} (f : option A -> V -> res A) : forall l d (g : Z -> option A), NoDup (map fst d) ->
  (forall b, chain f (dget d b) (vals b l) = Ok (g b)) -> exists d', accum f l d = Ok d' /\ NoDup (map fst d') /\ forall b, dget d' b = g b.
Proof.
  induction l as [|[k v] l IH]; intros d g ND H.
  - exists d. split; [reflexivity|]. split; [exact ND|]. intros b. specialize (H b). cbn in H. congruence.
  - pose proof (H k) as Hk. cbn [vals flat_map fst snd] in Hk. rewrite Z.eqb_refl in Hk. cbn [app chain] in Hk.
    destruct (f (dget d k) v) as [a|] eqn:E; [|discriminate]. cbn [bind] in Hk.
    cbn [accum]. rewrite E. cbn [bind]. apply IH; [apply dput_keys, ND|].
    intros b. rewrite dget_dput. destruct (Z.eqb_spec k b) as [<-|N]; [exact Hk|].
    specialize (H b). cbn [vals flat_map fst snd] in H. rewrite (proj2 (Z.eqb_neq k b) N) in H. exact H.
Qed.
Lemma dget_in {A} (d : list (Z * A)) k a : dget d k = Some a -> In (k, a) d.
Proof. induction d as [|[c b] d IH]; cbn; [discriminate|]. destruct (Z.eqb_spec c k) as [->|N]; [intros [= ->]; auto|auto]. Qed.
Lemma in_dget {A} (d : list (Z * A)) k a : NoDup (map fst d) -> In (k, a) d -> dget d k = Some a.
Proof.
  induction d as [|[c b] d IH]; cbn; [intros _ []|]. intros H. inversion H as [|? ? N ND]; subst. intros [[= -> ->]|I]; [now rewrite Z.eqb_refl|].
  destruct (Z.eqb_spec c k) as [->|NE]; [|auto]. destruct N. apply in_map_iff. exists (k, a). auto.
Qed.
Lemma mapres_dict {A B} (f : A -> res B) (d : list (Z * A)) : (forall k a, In (k, a) d -> exists b, f a = Ok b) ->
  exists d', mapres (fun e => bind (f (snd e)) (fun b => Ok (fst e, b))) d = Ok d' /\ map fst d' = map fst d /\
    forall k, match dget d k with Some a => exists b, f a = Ok b /\ dget d' k = Some b | None => dget d' k = None end.
Proof.
  induction d as [|[c a] d IH]; intros H; [exists []; repeat split|]. destruct IH as (d' & E & K & G); [intros; eapply H; right; eauto|].
  destruct (H c a (or_introl eq_refl)) as [b Hb]. exists ((c, b) :: d'). cbn [mapres fst snd]. rewrite Hb. cbn [bind]. rewrite E. cbn [bind].
  split; [reflexivity|]. split; [cbn; congruence|]. intros k. cbn [dget]. destruct (Z.eqb c k); [eauto|apply G].
Qed.

Lemma zip_seq {A B D} (f : A -> B -> D) (a : nat -> A) (b : nat -> B) n :
  map (fun p => f (fst p) (snd p)) (combine (map a (seq 0 n)) (map b (seq 0 n))) = map (fun c => f (a c) (b c)) (seq 0 n).
Proof. generalize 0%nat as k. induction n as [|n IH]; intros k; cbn; [reflexivity|]. now rewrite IH. Qed.
Lemma as_seq {A} (l : list A) d : l = map (fun c => nth c l d) (seq 0 (length l)).
Proof.
  induction l as [|a l IH]; [reflexivity|]. cbn [length seq map]. cbn [nth]. f_equal. rewrite <- seq_shift, map_map. exact IH.
Qed.
Lemma as_seq_n {A} (l : list A) d n : length l = n -> l = map (fun c => nth c l d) (seq 0 n).
Proof. intros <-. apply as_seq. Qed.
Lemma bcast_seq {A B D} (f : A -> B -> D) (a : nat -> A) (b : nat -> B) n :
  bcast f (map a (seq 0 n)) (map b (seq 0 n)) = Ok (map (fun c => f (a c) (b c)) (seq 0 n)).
Proof. unfold bcast. rewrite !map_length, Nat.eqb_refl. f_equal. apply zip_seq. Qed.
Lemma iadd_seq {A B} (f : A -> B -> A) (a : nat -> A) (b : nat -> B) n :
  iadd f (map a (seq 0 n)) (map b (seq 0 n)) = Ok (map (fun c => f (a c) (b c)) (seq 0 n)).
Proof. unfold iadd. rewrite !map_length, Nat.eqb_refl. f_equal. apply zip_seq. Qed.
Lemma nth_seq {A} (a : nat -> A) n c d : (c < n)%nat -> nth c (map a (seq 0 n)) d = a c.
Proof. intros H. rewrite (nth_indep _ d (a 0%nat)) by (rewrite map_length, seq_length; exact H). rewrite map_nth, seq_nth by exact H. reflexivity. Qed.

Lemma total_app l m : total (l ++ m) = total l + total m.
Proof. unfold total. induction l as [|a l IH]; cbn [app fold_right]; lra. Qed.
Lemma ctotal_snoc l x : ctotal (l ++ [x]) = cadd (ctotal l) x.
Proof. unfold ctotal, cadd. rewrite !map_app, !total_app. cbn [fst snd map total fold_right]. unfold total. cbn [fold_right]. rewrite !Rplus_0_r. reflexivity. Qed.

(* ---------- -o ---------- *)
Definition goods (c : nat) (vs : list (list C * list bool)) : list C := flat_map (fun v => if nth c (snd v) false then [] else [nth c (fst v) (0, 0)]) vs.
Definition sums (n : nat) (vs : list (list C * list bool)) : list C * list R :=
  (map (fun c => ctotal (goods c vs)) (seq 0 n), map (fun c => INR (length (goods c vs))) (seq 0 n)).
Lemma sample_parts n d f : length d = n -> length f = n ->
  bcast (fun (f : bool) (z : C) => if f then (0, 0) else z) f d = Ok (map (fun c => if nth c f false then (0, 0) else nth c d (0, 0)) (seq 0 n)) /\
  map (fun f : bool => if f then 0 else 1) f = map (fun c => if nth c f false then 0 else 1) (seq 0 n).
Proof.
  intros A B. split.
  - rewrite (as_seq_n d (0, 0) n A) at 1. rewrite (as_seq_n f false n B) at 1. apply bcast_seq.
  - rewrite (as_seq_n f false n B) at 1. now rewrite map_map.
Qed.
Lemma cadd_0_r (a : C) : cadd a (0, 0) = a.
Proof. destruct a. unfold cadd. cbn [fst snd]. now rewrite !Rplus_0_r. Qed.
Lemma cadd_0_l (a : C) : cadd (0, 0) a = a.
Proof. destruct a. unfold cadd. cbn [fst snd]. now rewrite !Rplus_0_l. Qed.
Lemma add_sample_first n v : length (fst v) = n -> length (snd v) = n -> add_sample None v = Ok (sums n [v]).
Proof.
  destruct v as [d f]. cbn [fst snd]. intros A B. destruct (sample_parts n d f A B) as [E1 E2]. unfold add_sample. cbn [fst snd]. rewrite E1, E2. cbn [bind]. unfold sums. f_equal. f_equal; apply map_ext; intros c; unfold goods; cbn [flat_map fst snd]; rewrite app_nil_r.
  - destruct (nth c f false); [reflexivity|]. symmetry. apply (ctotal_snoc [] (nth c d (0, 0))) || exact (eq_trans (ctotal_snoc [] (nth c d (0, 0))) (cadd_0_l _)).
  - destruct (nth c f false); reflexivity.
Qed.
Lemma goods_snoc c vs v : goods c (vs ++ [v]) = (goods c vs ++ if nth c (snd v) false then [] else [nth c (fst v) (0, 0)])%list.
Proof. unfold goods. rewrite flat_map_app. cbn [flat_map]. now rewrite app_nil_r. Qed.
Lemma add_sample_next n vs v : length (fst v) = n -> length (snd v) = n -> add_sample (Some (sums n vs)) v = Ok (sums n (vs ++ [v])).
Proof.
  destruct v as [d f]. cbn [fst snd]. intros A B. destruct (sample_parts n d f A B) as [E1 E2]. unfold add_sample. cbn [fst snd]. rewrite E1, E2. cbn [bind]. unfold sums at 1.
  rewrite (iadd_seq cadd). cbn [bind]. rewrite (iadd_seq Rplus). cbn [bind]. unfold sums. f_equal. f_equal; apply map_ext; intros c; rewrite goods_snoc; cbn [fst snd].
  - destruct (nth c f false); [rewrite app_nil_r; apply cadd_0_r|rewrite ctotal_snoc; reflexivity].
  - destruct (nth c f false); rewrite app_length; cbn [length]; [rewrite Nat.add_0_r; lra|rewrite plus_INR; cbn; lra].
Qed.
Lemma chain_samples n : forall vs done, Forall (fun v => length (fst v) = n /\ length (snd v) = n) vs ->
  chain add_sample (match done with [] => None | _ => Some (sums n done) end) vs = Ok (match (done ++ vs)%list with [] => None | _ => Some (sums n (done ++ vs)) end).
Proof.
  induction vs as [|v vs IH]; intros done F; cbn [chain]; [now rewrite app_nil_r|]. inversion F as [|? ? [A B] F']; subst.
  assert (E : add_sample (match done with [] => None | _ => Some (sums (length (fst v)) done) end) v = Ok (sums (length (fst v)) (done ++ [v]))).
  { destruct done; [apply add_sample_first; auto|apply add_sample_next; auto]. }
  rewrite E. cbn [bind]. specialize (IH (done ++ [v])%list F'). rewrite <- app_assoc in IH. cbn [app] in IH. destruct (done ++ [v])%list eqn:Q; [destruct done; discriminate|]. rewrite <- Q in *. exact IH.
Qed.

(* ---------- -r ---------- *)
Definition scaled (lo hi : nat) (c : nat) (d : list C) : C := match gain_of lo hi d with Some g => cscale (/ g) (nth c d (0, 0)) | None => (0, 0) end.
Definition gains (lo hi : nat) (ds : list (list C)) : list R := map (fun d => match gain_of lo hi d with Some g => g | None => 0 end) ds.
Definition lit (c : nat) (ds : list (list C)) : list (list C) := filter (fun d => nonzero (amp (nth c d (0, 0)))) ds.
Definition entry_of (lo hi n : nat) (ds : list (list C)) : entry :=
  (gains lo hi ds, map (fun c => ctotal (map (scaled lo hi c) ds)) (seq 0 n), map (fun c => INR (length (lit c ds))) (seq 0 n)).
Lemma add_file_next lo hi n done d g : length d = n -> gain_of lo hi d = Some g ->
  add_file lo hi (match done with [] => None | _ => Some (entry_of lo hi n done) end) d = Ok (entry_of lo hi n (done ++ [d])).
Proof.
  intros L G. unfold add_file. rewrite G.
  assert (E1 : map (cscale (/ g)) d = map (fun c => scaled lo hi c d) (seq 0 n)).
  { rewrite (as_seq_n d (0, 0) n L) at 1. rewrite map_map. apply map_ext. intros c. unfold scaled. now rewrite G. }
  assert (E2 : map (fun z => if nonzero (amp z) then 1 else 0) d = map (fun c => if nonzero (amp (nth c d (0, 0))) then 1 else 0) (seq 0 n)).
  { rewrite (as_seq_n d (0, 0) n L) at 1. now rewrite map_map. }
  rewrite E1, E2. destruct done as [|d0 done].
  - unfold entry_of, gains. cbn [app map]. rewrite G. f_equal. f_equal; [f_equal|]; apply map_ext; intros c.
    + symmetry. exact (eq_trans (ctotal_snoc [] (scaled lo hi c d)) (cadd_0_l _)).
    + unfold lit. cbn [filter]. unfold C in *. destruct (nonzero (amp (nth c d (0, 0)))); reflexivity.
  - set (dn := d0 :: done). unfold entry_of at 1. rewrite bcast_seq. cbn [bind]. rewrite bcast_seq. cbn [bind]. unfold entry_of. f_equal. f_equal; [f_equal|].
    + unfold gains. rewrite map_app. cbn [map]. now rewrite G.
    + apply map_ext. intros c. rewrite map_app. cbn [map]. now rewrite ctotal_snoc.
    + apply map_ext. intros c. unfold lit. rewrite filter_app, app_length, plus_INR. cbn [filter]. unfold C in *. destruct (nonzero (amp (nth c d (0, 0)))); cbn; lra.
Qed.
Lemma chain_files lo hi n : forall ds done, Forall (fun d => length d = n /\ gain_of lo hi d <> None) ds ->
  chain (add_file lo hi) (match done with [] => None | _ => Some (entry_of lo hi n done) end) ds = Ok (match (done ++ ds)%list with [] => None | _ => Some (entry_of lo hi n (done ++ ds)) end).
Proof.
  induction ds as [|d ds IH]; intros done F; cbn [chain]; [now rewrite app_nil_r|]. inversion F as [|? ? [A B] F']; subst.
  destruct (gain_of lo hi d) as [g|] eqn:G; [|congruence]. rewrite (add_file_next lo hi (length d) done d g eq_refl G). cbn [bind].
  specialize (IH (done ++ [d])%list F'). rewrite <- app_assoc in IH. cbn [app] in IH. destruct (done ++ [d])%list eqn:Q; [destruct done; discriminate|]. rewrite <- Q in *. exact IH.
Qed.
(* the profile is the mean over the files that have something in the channel *)
Definition prof (lo hi n : nat) (ds : list (list C)) : list C :=
  map (fun c => cscale (/ (if Req_EM_T (INR (length (lit c ds))) 0 then 1 else INR (length (lit c ds)))) (ctotal (map (scaled lo hi c) ds))) (seq 0 n).
Lemma profile_of lo hi n ds : profile (entry_of lo hi n ds) = Ok (gains lo hi ds, prof lo hi n ds).
Proof. unfold profile, entry_of. rewrite (bcast_seq (fun (z : C) m => cscale (/ (if Req_EM_T m 0 then 1 else m)) z)). reflexivity. Qed.
Lemma amp_0 (z : C) : amp z = 0 -> z = (0, 0).
Proof.
  unfold amp, cnorm2. intros H. apply sqrt_eq_0 in H; [|nra]. destruct z as [x y]. cbn [fst snd] in *. f_equal; nra.
Qed.
Lemma gain_mean lo hi d : gain_of lo hi d = match amplitudes lo hi d with [] => None | _ => Some (mean_amplitude lo hi d) end.
Proof.
  assert (E : filter nonzero (firstn (hi - lo) (skipn lo (map amp d))) = amplitudes lo hi d).
  { unfold amplitudes. rewrite skipn_map, firstn_map. unfold C, cnum in *. generalize (firstn (hi - lo) (skipn lo d)) as l. induction l as [|z l IH]; [reflexivity|]. cbn [map filter]. unfold lit_channel at 1, nonzero at 1. change (modulus z) with (amp z).
    destruct (Req_EM_T (amp z) 0); cbn [map]; rewrite IH; reflexivity. }
  unfold gain_of, mean_amplitude. rewrite E. destruct (amplitudes lo hi d); reflexivity.
Qed.
Lemma amplitudes_pos lo hi d a : In a (amplitudes lo hi d) -> 0 < a.
Proof.
  unfold amplitudes. intros H. apply in_map_iff in H as (z & <- & H). apply filter_In in H as [_ H]. unfold lit_channel in H. destruct (Req_EM_T (modulus z) 0) as [|N]; [discriminate|].
  pose proof (sqrt_pos (fst z * fst z + snd z * snd z)). unfold modulus in *. lra.
Qed.
Lemma mean_amplitude_pos lo hi d : amplitudes lo hi d <> [] -> 0 < mean_amplitude lo hi d.
Proof.
  intros N. unfold mean_amplitude. pose proof (amplitudes_pos lo hi d) as P. destruct (amplitudes lo hi d) as [|a l]; [congruence|]. clear N. apply Rdiv_lt_0_compat; [|apply lt_0_INR; cbn; lia].
  unfold total. cbn [fold_right]. assert (0 <= fold_right Rplus 0 l); [|specialize (P a (or_introl eq_refl)); lra].
  assert (forall x, In x l -> 0 < x) as Q by (intros; apply P; right; assumption). clear P. induction l as [|b l IH]; cbn [fold_right]; [lra|]. pose proof (Q b (or_introl eq_refl)). assert (0 <= fold_right Rplus 0 l) by (apply IH; intros; apply Q; right; assumption). lra.
Qed.
Lemma prof_mean lo hi n ds c : (c < n)%nat -> (forall d, In d ds -> amplitudes lo hi d <> []) ->
  is_mean (map (fun d => times (/ mean_amplitude lo hi d) (nth c d (0, 0))) (filter (fun d => lit_channel (nth c d (0, 0))) ds)) (nth c (prof lo hi n ds) (0, 0)).
Proof.
  intros Hc NE. unfold prof. rewrite nth_seq by exact Hc.
  assert (E : lit c ds = filter (fun d => lit_channel (nth c d (0, 0))) ds) by reflexivity. rewrite <- E. clear E.
  assert (S : ctotal (map (scaled lo hi c) ds) = ctotal (map (fun d => times (/ mean_amplitude lo hi d) (nth c d (0, 0))) (lit c ds))).
  { clear Hc. induction ds as [|d ds IH]; [reflexivity|]. cbn [map]. unfold lit. cbn [filter]. fold (lit c ds).
    assert (IH' := IH (fun d H => NE d (or_intror H))). specialize (NE d (or_introl eq_refl)). unfold scaled at 1. rewrite gain_mean.
    assert (G : match amplitudes lo hi d with [] => None | _ => Some (mean_amplitude lo hi d) end = Some (mean_amplitude lo hi d)) by (destruct (amplitudes lo hi d); congruence). rewrite G.
    unfold nonzero, C, cnum in *. destruct (Req_EM_T (amp (nth c d (0, 0))) 0) as [Z|Z].
    - etransitivity; [|exact IH']. clear IH'. apply amp_0 in Z. unfold C, cnum in *. rewrite Z. unfold cscale, ctotal, total. cbn [map fst snd fold_right]. f_equal; ring.
    - cbn [map]. unfold ctotal, total in *. cbn [map fst snd fold_right] in *. injection IH' as I1 I2. rewrite I1, I2. reflexivity. }
  rewrite S. clear S. set (L := map (fun d => times (/ mean_amplitude lo hi d) (nth c d (0, 0))) (lit c ds)). assert (EL : length (lit c ds) = length L) by (unfold L; now rewrite map_length). rewrite EL. clearbody L. clear EL.
  destruct (Req_EM_T (INR (length L)) 0) as [Z|Z].
  - destruct L; [|exfalso; revert Z; apply not_0_INR; discriminate]. split; [intros _|split]; unfold cscale, ctotal, total; cbn; [f_equal|..]; ring.
  - split; [intros ->; destruct Z; reflexivity|]. unfold cscale. cbn [fst snd]. unfold C, cnum in *. split; field; exact Z.
Qed.

Definition part {T} (c : nat) (t : T) (d : list (Z * (list R * list C))) : T * list (Z * list C) :=
  (t, map (fun e => (fst e, map (cscale (nth c (fst (snd e)) 0)) (snd (snd e)))) d).
Lemma part_ok c (d : list (Z * (list R * list C))) : (forall e, In e d -> (c < length (fst (snd e)))%nat) ->
  mapres (fun e => match nth_error (fst (snd e)) c with Some g => Ok (fst e, map (cscale g) (snd (snd e))) | None => Err end) d =
  Ok (map (fun e => (fst e, map (cscale (nth c (fst (snd e)) 0)) (snd (snd e)))) d).
Proof.
  induction d as [|e d IH]; intros H; [reflexivity|]. cbn [mapres map]. rewrite (nth_error_nth' _ 0) by (apply H; left; reflexivity). cbn [bind]. rewrite IH by (intros; apply H; right; assumption). reflexivity.
Qed.
Lemma part_err c (d : list (Z * (list R * list C))) e : In e d -> (length (fst (snd e)) <= c)%nat ->
  mapres (fun e => match nth_error (fst (snd e)) c with Some g => Ok (fst e, map (cscale g) (snd (snd e))) | None => Err end) d = Err.
Proof.
  intros I L. induction d as [|e' d IH]; [destruct I|]. cbn [mapres]. destruct I as [->|I]; [replace (nth_error (fst (snd e)) c) with (@None R) by (symmetry; apply nth_error_None; exact L); reflexivity|].
  destruct (nth_error (fst (snd e')) c); cbn [bind]; [|reflexivity]. rewrite IH by exact I. reflexivity.
Qed.
Lemma outputs_ok {T} d : forall (ts : list T) c, (forall e, In e d -> (c + length ts <= length (fst (snd e)))%nat) ->
  outputs c ts d = (map (fun q => part (fst q) (snd q) d) (combine (seq c (length ts)) ts), true).
Proof.
  induction ts as [|t ts IH]; intros c H; [reflexivity|]. cbn [outputs length seq combine map fst snd] in *. rewrite part_ok by (intros e He; specialize (H e He); lia).
  rewrite IH by (intros e He; specialize (H e He); lia). reflexivity.
Qed.
Lemma outputs_short {T} d e : In e d -> forall (ts : list T) c, (c <= length (fst (snd e)) < c + length ts)%nat -> snd (outputs c ts d) = false /\ (c + length (fst (outputs c ts d)) <= length (fst (snd e)))%nat.
Proof.
  intros I. induction ts as [|t ts IH]; intros c H; cbn [length] in H; [lia|]. cbn [outputs].
  destruct (Nat.eq_dec (length (fst (snd e))) c) as [E|E].
  - rewrite (part_err c d e I) by lia. cbn. split; [reflexivity|lia].
  - destruct (mapres _ d) as [x|]; [|cbn; split; [reflexivity|lia]]. specialize (IH (S c)). destruct (outputs (S c) ts d) as [o b]. cbn [fst snd length] in *. destruct IH; [lia|]. split; [assumption|lia].
Qed.
Lemma reprocessed {T} lo hi n (fs : list (file T)) : (forall f m, In f fs -> snd f = Some m -> measured lo hi n m) ->
  exists d, reprocess true lo hi fs = outputs 0 (map fst fs) d /\ NoDup (map fst d) /\
    forall b, dget d b = match vals b (contents fs) with [] => None | _ => Some (gains lo hi (vals b (contents fs)), prof lo hi n (vals b (contents fs))) end.
Proof.
  intros M.
  assert (FV : forall b, Forall (fun d => length d = n /\ gain_of lo hi d <> None) (vals b (contents fs))).
  { intros b. apply Forall_forall. intros d Hd. apply in_flat_map in Hd as ([k e] & E1 & E2). cbn [fst snd] in E2. destruct (Z.eqb k b); [|destruct E2]. destruct E2 as [<-|[]].
    apply in_flat_map in E1 as (f & F1 & F2). destruct (snd f) as [m|] eqn:Es; [|destruct F2]. destruct (M f m F1 Es) as [_ H]. destruct (H k e F2) as [H1 H2]. split; [exact H1|].
    rewrite gain_mean. destruct (amplitudes lo hi e); congruence. }
  destruct (accum_ok (add_file lo hi) (contents fs) [] (fun b => match vals b (contents fs) with [] => None | _ => Some (entry_of lo hi n (vals b (contents fs))) end)) as (d & D1 & D2 & D3).
  { constructor. }
  { intros b. exact (chain_files lo hi n _ [] (FV b)). }
  destruct (mapres_dict profile d) as (x & X1 & X2 & X3).
  { intros k e He. apply in_dget in He; [|exact D2]. rewrite D3 in He. destruct (vals k _) in He; [discriminate|]. injection He as <-. rewrite profile_of. eauto. }
  exists x. unfold reprocess. cbn [negb andb]. rewrite D1. cbn [bind]. rewrite X1. split; [reflexivity|]. split; [rewrite X2; exact D2|].
  intros b. specialize (X3 b). rewrite D3 in X3. destruct (vals b (contents fs)) eqn:E; [exact X3|]. destruct X3 as (y & Y1 & Y2). rewrite profile_of in Y1. congruence.
Qed.
