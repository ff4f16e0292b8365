(* C69: scripts/xrfi_simple.py. *)
From Coq Require Import Reals Lra Permutation Sorted.
From Verif Require Import Base BaselineModel BaselineProps CleanModel CmdModel GaussModel GaussSpec GaussProps XrsModel XrsSpec XrsProofs.
Open Scope R_scope.

Lemma found_ok chans df dt nsig n rs : Forall (sound n) rs -> distinct rs -> in_range n chans -> (0 < n)%nat ->
  found true chans df dt nsig n rs = Some (masks df dt nsig n (map (ent_of chans) rs)).
Proof.
  intros F D C N. unfold found. rewrite gather_ok; [|exact C|exact F|apply (distinct_keys n); assumption]. cbn [app]. destruct (map (ent_of chans) rs) as [|e es]; [reflexivity|].
  replace (negb true || match df with Some _ => Nat.eqb n 0 | None => false end)%bool with false; [reflexivity|]. destruct df; cbn [negb orb]; [|reflexivity]. symmetry. apply Nat.eqb_neq. lia.
Qed.
Lemma found_get chans df dt nsig n rs r : Forall (sound n) rs -> distinct rs -> In r rs ->
  exists m, get (masks df dt nsig n (map (ent_of chans) rs)) (key_of r) = Some m /\ length m = n /\ forall c, (c < n)%nat -> (nth c m false = true <-> individual chans df dt nsig n rs r c).
Proof.
  intros F D I. pose proof (line_has n rs r F D I) as H. apply In_nth_error in H as [i N]. exists (row chans df dt nsig n (line rs r) i r). split; [|split; [apply row_length|]].
  - apply get_in; [eapply masks_nodup; eauto|]. apply (masks_in chans df dt nsig n); auto. exists r, i. auto.
  - intros c Hc. apply row_spec; auto.
Qed.
(* every record is written, and a channel is flagged when it was, when it is listed, or by the statistics *)
Theorem C69_flags sel chans df dt nsig n rs : Forall (sound n) rs -> distinct rs -> in_range n chans -> (0 < n)%nat -> (forall r, In r rs -> sel r = true) ->
  exists out, run true sel chans df dt nsig n rs = (out, true) /\ Forall2 (fun r r' => becomes n (individual chans df dt nsig n rs r) r r') rs out.
Proof.
  intros F D C N S. unfold run. assert (E : filter sel rs = rs).
  { clear - S. induction rs as [|r rs IH]; [reflexivity|]. cbn. rewrite (S r (or_introl eq_refl)), IH; [reflexivity|]. intros; apply S; right; assumption. }
  rewrite E, found_ok by assumption. apply apply_ok; [exact F|]. intros r I. apply found_get; assumption.
Qed.
Print Assumptions C69_flags.

Definition same_time (a b : record) : bool := if Req_EM_T (time a) (time b) then true else false.
Lemma at_time_map F l t : at_time (map (fun u => (u, F u)) l) t = if in_dec Req_EM_T t l then Some (F t) else None.
Proof.
  induction l as [|u l IH]; [reflexivity|]. cbn [map at_time]. rewrite IH. destruct (Req_EM_T u t) as [->|NE].
  - destruct (in_dec Req_EM_T t (t :: l)) as [|X]; [reflexivity|destruct X; left; reflexivity].
  - destruct (in_dec Req_EM_T t l) as [I|I], (in_dec Req_EM_T t (u :: l)) as [J|J]; try reflexivity; exfalso; [apply J; right; exact I|destruct J; congruence].
Qed.
(* --combine, and the flags of one file given to another: flagged are the samples at a time and channel where
   thresh of the selected records are, and all samples at other times *)
Theorem C69_combine sel chans df dt nsig thresh n rs : Forall (sound n) rs -> distinct (filter sel rs) -> in_range n chans -> (0 < n)%nat -> filter sel rs <> [] ->
  exists (fl : record -> nat -> bool) file, (forall s c, In s (filter sel rs) -> (c < n)%nat -> (fl s c = true <-> individual chans df dt nsig n (filter sel rs) s c)) /\
    to_npz true sel chans df dt nsig thresh n rs = Ok file /\ run_combined true sel chans df dt nsig thresh n rs = from_npz true file rs /\
    forall rs2, Forall (sound n) rs2 -> exists out, from_npz true file rs2 = (out, true) /\
      Forall2 (fun r r' => becomes n (fun c => filter (same_time r) (filter sel rs) = [] \/ (thresh <= Z.of_nat (length (filter (fun s => same_time r s && fl s c) (filter sel rs))))%Z) r r') rs2 out.
Proof.
  intros F D C N NE. set (sr := filter sel rs) in *. assert (FS : Forall (sound n) sr) by (apply Forall_forall; intros r I; apply filter_In in I as [I _]; eapply Forall_forall; eauto).
  set (m := masks df dt nsig n (map (ent_of chans) sr)).
  set (g := fun r : vis => match get m (key_of r) with Some x => x | None => [] end).
  assert (G : forall r, In r sr -> get m (key_of r) = Some (g r) /\ length (g r) = n /\ forall c, (c < n)%nat -> (nth c (g r) false = true <-> individual chans df dt nsig n sr r c)).
  { intros r I. destruct (found_get chans df dt nsig n sr r FS D I) as (x & X1 & X2 & X3). fold m in X1. unfold g. rewrite X1. auto. }
  assert (P : Permutation m (map (fun r => (key_of r, g r)) sr)).
  { pose proof (masks_nodup chans df dt nsig n sr FS D) as ND. apply NoDup_Permutation.
    - eapply NoDup_map_inv. exact ND.
    - apply (NoDup_map_inv fst). rewrite map_map. apply (distinct_keys n); assumption.
    - intros [k x]. split.
      + intros I. pose proof I as I'. apply (masks_in chans df dt nsig n sr k x FS D) in I' as (r & i & I1 & -> & _ & _). apply in_map_iff. exists r. split; [|exact I1]. f_equal. destruct (G r I1) as [G1 _].
        assert (get m (key_of r) = Some x) by (apply get_in; assumption). congruence.
      + intros I. apply in_map_iff in I as (r & E & I). injection E as <- <-. apply in_get. apply G. exact I. }
  exists (fun s c => nth c (g s) false), (shared thresh n m). split; [intros s c I Hc; apply G; assumption|].
  assert (FO : found true chans df dt nsig n sr = Some m) by (apply found_ok; assumption).
  assert (MN : m <> []).
  { intros E. rewrite E in P. apply Permutation_nil in P. apply NE. destruct sr; [reflexivity|discriminate]. }
  split; [|split].
  - unfold to_npz. fold sr. rewrite FO. destruct m; [congruence|reflexivity].
  - unfold run_combined, from_npz. fold sr. rewrite FO. destruct m; [congruence|reflexivity].
  - intros rs2 F2. unfold from_npz. apply apply_ok; [exact F2|]. intros r I. eexists. split; [reflexivity|].
    assert (L : length (flags r) = n) by (rewrite Forall_forall in F2; specialize (F2 r I); destruct r as [[[[[t a] b] p] d] f]; apply F2).
    assert (DF : default_flags (shared thresh n m) r = match at_time (shared thresh n m) (time r) with Some x => x | None => map (fun _ => true) (flags r) end) by (destruct r as [[[[[t a] b] p] d] f]; reflexivity).
    rewrite DF. unfold shared. rewrite (at_time_map (fun t => map (fun c => Z.leb thresh (Z.of_nat (count m t c))) (seq 0 n))).
    assert (T : In (time r) (nodup Req_EM_T (map (fun e : key * list bool => snd (fst e)) m)) <-> filter (same_time r) sr <> []).
    { rewrite nodup_In, in_map_iff. split.
      - intros ([k x] & E & J). eapply Permutation_in in J; [|exact P]. apply in_map_iff in J as (s & E2 & J). injection E2 as <- <-. cbn [fst] in E. rewrite key_time in E.
        intros Z. assert (In s (filter (same_time r) sr)) as Q; [|rewrite Z in Q; exact Q]. apply filter_In. split; [exact J|]. unfold same_time. destruct (Req_EM_T (time r) (time s)); congruence.
      - intros Z. destruct (filter (same_time r) sr) as [|s q] eqn:E; [congruence|]. assert (J : In s (filter (same_time r) sr)) by (rewrite E; left; reflexivity). apply filter_In in J as [J1 J2].
        unfold same_time in J2. destruct (Req_EM_T (time r) (time s)) as [E2|]; [|discriminate]. exists (key_of s, g s). split; [cbn [fst]; rewrite key_time; congruence|]. apply in_get. apply G. exact J1. }
    destruct (in_dec Req_EM_T (time r) _) as [Y|Y].
    + apply T in Y. split; [now rewrite map_length, seq_length|]. intros c Hc. set (h := fun c => Z.leb _ _). rewrite (nth_indep _ false (h 0%nat)) by (rewrite map_length, seq_length; exact Hc). rewrite map_nth, seq_nth by exact Hc. unfold h. cbn [Nat.add].
      assert (CE : count m (time r) c = length (filter (fun s => (same_time r s && nth c (g s) false)%bool) sr)).
      { unfold count. assert (PL : forall (f : key * list bool -> bool) l l', Permutation l l' -> length (filter f l) = length (filter f l')) by (clear; intros f l l' H; induction H; cbn; repeat match goal with |- context [if ?b then _ else _] => destruct b end; cbn; congruence).
        rewrite (PL _ _ _ P). clearbody g. clear. induction sr as [|s q IH]; [reflexivity|]. cbn [map filter fst snd]. rewrite key_time. unfold same_time at 1. destruct (Req_EM_T (time s) (time r)) as [E|E], (Req_EM_T (time r) (time s)) as [E'|E']; try congruence; cbn [andb]; [|exact IH].
        destruct (nth c (g s) false); cbn [length]; congruence. }
      rewrite CE, Z.leb_le. tauto.
    + assert (Z : filter (same_time r) sr = []) by (destruct (filter (same_time r) sr) eqn:E; [reflexivity|]; destruct Y; apply T; discriminate).
      split; [rewrite map_length; exact L|]. intros c Hc. rewrite Z. split; [auto|]. intros _. rewrite (nth_indep _ false true) by (rewrite map_length; lia). apply (map_nth (fun _ => true) (flags r) true).
Qed.
Print Assumptions C69_combine.

(* finding: flags the records came with count as one vote: with thresh above the number of selected records at
   any time the records are written with no flags at all, flagged data as good *)
Theorem C69_unflags_refuted sel chans df dt nsig thresh n rs : Forall (sound n) rs -> distinct (filter sel rs) -> in_range n chans -> (0 < n)%nat -> filter sel rs <> [] ->
  (forall r, In r rs -> filter (same_time r) (filter sel rs) <> [] /\ (Z.of_nat (length (filter (same_time r) (filter sel rs))) < thresh)%Z) ->
  exists out, run_combined true sel chans df dt nsig thresh n rs = (out, true) /\
    Forall2 (fun r r' => becomes n (fun _ => False) r r') rs out.
Proof.
  intros F D C N NE T. destruct (C69_combine sel chans df dt nsig thresh n rs F D C N NE) as (fl & file & _ & _ & E & H). destruct (H rs F) as (out & O1 & O2). exists out. split; [congruence|].
  assert (W : forall l l' : list record, Forall2 (fun r r' => becomes n (fun c => filter (same_time r) (filter sel rs) = [] \/ (thresh <= Z.of_nat (length (filter (fun s => same_time r s && fl s c) (filter sel rs))))%Z) r r') l l' ->
     (forall r, In r l -> filter (same_time r) (filter sel rs) <> [] /\ (Z.of_nat (length (filter (same_time r) (filter sel rs))) < thresh)%Z) -> Forall2 (fun r r' => becomes n (fun _ => False) r r') l l').
  { clear. induction 1 as [|r r' l l' B O IH]; intros T; constructor; [|apply IH; intros; apply T; right; assumption]. destruct (T r (or_introl eq_refl)) as [T1 T2]. destruct B as (B1 & B2 & B3 & B4).
    split; [exact B1|]. split; [exact B2|]. split; [exact B3|]. intros c Hc. destruct (B4 c Hc) as [B5 B6]. split; [|exact B6]. rewrite B5. split; [|tauto]. intros [X|X]; [contradiction|].
    assert (LE : forall q : list record, (length (filter (fun s => same_time r s && fl s c) q) <= length (filter (same_time r) q))%nat).
    { clear. induction q as [|s q IH]; [cbn; lia|]. cbn [filter]. destruct (same_time r s); cbn [andb]; [|exact IH]. destruct (fl s c); cbn [length]; lia. }
    specialize (LE (filter sel rs)). lia. }
  apply W; assumption.
Qed.
Print Assumptions C69_unflags_refuted.
(* finding: the antennas selected are those the statistics are made for, but all records are written: one that
   is not selected (by default an autocorrelation) stops the run *)
Theorem C69_unselected_refuted sel chans df dt nsig n rs r : Forall (sound n) rs -> distinct (filter sel rs) -> in_range n chans -> (0 < n)%nat ->
  In r rs -> sel r = false -> (forall s, In s rs -> like r s = true -> time s = time r -> sel s = false) -> snd (run true sel chans df dt nsig n rs) = false.
Proof.
  intros F D C N I S U. assert (FS : Forall (sound n) (filter sel rs)) by (apply Forall_forall; intros s J; apply filter_In in J as [J _]; eapply Forall_forall; eauto).
  unfold run. rewrite found_ok by assumption. set (m := masks _ _ _ _ _).
  assert (G : get m (key_of r) = None).
  { destruct (get m (key_of r)) as [x|] eqn:E; [|reflexivity]. apply in_get in E. apply (masks_in chans df dt nsig n _ _ _ FS D) in E as (s & i & J & E & _). apply filter_In in J as [J1 J2].
    apply (keys_eq n) in E as [E1 E2]; [|rewrite Forall_forall in F; apply F; assumption..]. rewrite (U s J1 E1) in J2 by congruence. discriminate. }
  clearbody m. clear - I G. induction rs as [|a rs IH]; [destruct I|]. cbn [apply]. destruct a as [[[[[t i] j] p] d] f]. destruct I as [->|I].
  - destruct r as [[[[[t' i'] j'] p'] d'] f']. rewrite G. reflexivity.
  - destruct (get m (key_of (t, i, j, p, d, f))) as [x|]; [|reflexivity]. destruct (bcast _ _ _); [|reflexivity]. specialize (IH I). destruct (apply _ rs). exact IH.
Qed.
Print Assumptions C69_unselected_refuted.
(* finding: Python 3's keys() has no sort and its values() no subscripts *)
Theorem C69_python3_refuted sel chans df dt nsig thresh n file rs : rs <> [] -> (filter sel rs <> [] -> run false sel chans df dt nsig n rs = ([], false)) /\
  run_combined false sel chans df dt nsig thresh n rs = ([], false) /\ from_npz false file rs = ([], false) /\ to_npz false sel chans df dt nsig thresh n rs = Err.
Proof.
  intros NE. assert (FN : forall q, (q <> [] -> found false chans df dt nsig n q = None) /\ (found false chans df dt nsig n q = None \/ found false chans df dt nsig n q = Some [])).
  { intros q. unfold found. destruct (gather chans n q []) as [[|e es]|] eqn:G; [|split; [reflexivity|left; reflexivity]..]. split; [|right; reflexivity]. intros Q. exfalso.
    assert (L : forall q m es, gather chans n q m = Ok es -> (q <> [] \/ m <> []) -> es <> []).
    { clear. induction q as [|a q IH]; intros m es G Q; cbn [gather] in G; [injection G as ->; tauto|]. destruct a as [[[[[t i] j] p] d] f]. destruct (_ && _)%bool; [|discriminate]. destruct (manual chans f); [|discriminate]. cbn [bind] in G. apply (IH _ _ G).
      right. destruct m as [|[c b] m]; cbn; [discriminate|]. destruct (key_eqb c _); discriminate. }
    apply (L q [] [] G (or_introl Q)). reflexivity. }
  assert (AN : forall q, q <> [] -> apply (fun _ => None) q = ([], false)) by (intros [|a q] Q; [congruence|]; cbn [apply]; destruct a as [[[[[t i] j] p] d] f]; reflexivity).
  split; [|split; [|split]].
  - intros S. unfold run. rewrite (proj1 (FN _) S). reflexivity.
  - unfold run_combined. destruct (proj2 (FN (filter sel rs))) as [->| ->]; [reflexivity|]. apply AN. exact NE.
  - apply AN. exact NE.
  - unfold to_npz. destruct (proj2 (FN (filter sel rs))) as [->| ->]; reflexivity.
Qed.
Print Assumptions C69_python3_refuted.
(* a channel named that is not there ends the run with nothing written *)
Theorem C69_channel_range py2 sel chans df dt nsig thresh n rs : Forall (sound n) rs -> filter sel rs <> [] -> ~ in_range n chans ->
  run py2 sel chans df dt nsig n rs = ([], false) /\ run_combined py2 sel chans df dt nsig thresh n rs = ([], false) /\ to_npz py2 sel chans df dt nsig thresh n rs = Err.
Proof.
  intros F NE NR. assert (FD : found py2 chans df dt nsig n (filter sel rs) = None).
  { unfold found. destruct (filter sel rs) as [|a q] eqn:E; [congruence|]. assert (I : In a rs) by (apply (proj1 (filter_In sel a rs)); rewrite E; left; reflexivity).
    rewrite Forall_forall in F. specialize (F a I). destruct a as [[[[[t i] j] p] d] f]. cbn [gather]. destruct (_ && _)%bool; [|reflexivity].
    assert (LF : List.length f = n) by (unfold sound in F; cbn in F; tauto).
    unfold manual. rewrite LF. destruct (forallb _ chans) eqn:B; [|reflexivity]. exfalso. apply NR. rewrite forallb_forall in B. unfold in_range.
    intros c C. specialize (B c C). lia. }
  unfold run, run_combined, to_npz. rewrite FD. auto.
Qed.
Print Assumptions C69_channel_range.
Example C69_channel_range_ex : ~ in_range 3 [3%Z] /\ ~ in_range 3 [(-4)%Z] /\ in_range 3 [(-3)%Z; 2%Z].
Proof. unfold in_range. split; [|split]; [intros H; specialize (H _ (or_introl eq_refl)); lia..|]. intros c [<-|[<-|[]]]; lia. Qed.

(* ---------- at most half ---------- *)
Lemma above_median l h : is_median l h -> (2 * length (filter (fun x => if Rlt_dec h x then true else false) l) <= length l)%nat.
Proof.
  intros (s & P & S & E). assert (PL : forall (f : R -> bool) l l', Permutation l l' -> length (filter f l) = length (filter f l')) by (clear; intros f l l' H; induction H; cbn; repeat match goal with |- context [if ?b then _ else _] => destruct b end; cbn; congruence).
  rewrite (PL _ _ _ P). rewrite (Permutation_length P) in *. clear P PL l. destruct s as [|x0 s0]; [cbn; lia|]. set (s := x0 :: s0) in *. set (L := length s) in *.
  assert (LP : (0 < L)%nat) by (unfold L, s; cbn; lia). set (a := ((L - 1) / 2)%nat) in *.
  assert (A1 : (a < L)%nat) by (unfold a; pose proof (Nat.div_le_upper_bound (L - 1) 2 (L - 1) ltac:(lia)); lia).
  assert (AB : (a <= L / 2)%nat) by (unfold a; apply Nat.div_le_mono; lia).
  assert (BL : (L / 2 < L)%nat) by (apply Nat.div_lt; lia).
  assert (SS : forall (l : list R), StronglySorted Rle l -> forall i j, (i <= j < length l)%nat -> nth i l 0 <= nth j l 0).
  { clear. induction 1 as [|y l S IH F]; intros i j H; [cbn in H; lia|]. destruct i as [|i], j as [|j]; cbn [nth]; [lra| |lia|apply IH; cbn in H; lia]. rewrite Forall_forall in F. apply F. apply nth_In. cbn in H. lia. }
  assert (HA : nth a s 0 <= h) by (rewrite E; pose proof (SS s S a (L / 2)%nat ltac:(lia)); lra).
  assert (C : forall (l : list R), StronglySorted Rle l -> forall k, (k < length l)%nat -> nth k l 0 <= h -> (length (filter (fun x => if Rlt_dec h x then true else false) l) + k + 1 <= length l)%nat).
  { clear. assert (LE : forall l : list R, (length (filter (fun x => if Rlt_dec h x then true else false) l) <= length l)%nat) by (induction l as [|y l IH]; cbn; [lia|]; destruct (Rlt_dec h y); cbn; lia).
    induction 1 as [|y l S IH F]; intros k Hk Hh; [cbn in Hk; lia|]. cbn [filter length] in *. destruct k as [|k].
    - cbn [nth] in Hh. destruct (Rlt_dec h y); [lra|]. specialize (LE l). lia.
    - cbn [nth] in Hh. rewrite Forall_forall in F. assert (y <= nth k l 0) by (apply F, nth_In; lia). destruct (Rlt_dec h y); [lra|]. specialize (IH k ltac:(lia) Hh). lia. }
  specialize (C s S a A1 HA). fold L in C. unfold a in C. pose proof (Nat.div_mod (L - 1) 2 ltac:(lia)). pose proof (Nat.mod_upper_bound (L - 1) 2 ltac:(lia)). lia.
Qed.
Lemma far_above lim h x : 1 <= lim -> 0 <= x -> far lim h x -> h < x.
Proof. intros L X [[-> N]|[H F]]; [destruct X as [X|X]; [exact X|congruence]|]. assert (1 * 1 <= lim * lim) by nra. nra. Qed.
Lemma filter_le {A} (f g : A -> bool) l : (forall x, In x l -> f x = true -> g x = true) -> (length (filter f l) <= length (filter g l))%nat.
Proof.
  induction l as [|a l IH]; intros H; [cbn; lia|]. cbn [filter]. assert (IH' := IH (fun x I => H x (or_intror I))). specialize (H a (or_introl eq_refl)). destruct (f a); [rewrite (H eq_refl)|destruct (g a)]; cbn [length]; lia.
Qed.
Lemma filter_map_length {A B} (f : A -> B) (g : B -> bool) l : length (filter g (map f l)) = length (filter (fun x => g (f x)) l).
Proof. induction l as [|a l IH]; [reflexivity|]. cbn [map filter]. destruct (g (f a)); cbn [length]; congruence. Qed.
(* a channel that was not flagged nor listed is *)
Definition newly (chans : list Z) (n : nat) (r r' : record) (c : nat) : bool :=
  (nth c (flags r') false && negb (nth c (flags r) false) && negb (existsb (fun x => ((x =? Z.of_nat c) || (x =? Z.of_nat c - Z.of_nat n))%Z) chans))%bool.
Lemma newly_stat chans df dt nsig n rs r r' c : becomes n (individual chans df dt nsig n rs r) r r' -> (c < n)%nat -> newly chans n r r' c = true ->
  exists l k, timeline rs r l /\ nth_error l k = Some r /\ statistical df dt nsig n l k r c.
Proof.
  intros (_ & _ & _ & B) Hc H. apply Bool.andb_true_iff in H as [H H3]. apply Bool.andb_true_iff in H as [H1 H2]. destruct (B c Hc) as [B1 _]. apply B1 in H1 as [A|[A|A]]; [rewrite A in H2; discriminate| |exact A].
  exfalso. apply Bool.negb_true_iff in H3. apply Bool.not_true_iff_false in H3. apply H3. apply existsb_exists. destruct A as [A|A]; eexists; (split; [exact A|]); lia.
Qed.
(* with --df of one deviation or more, at most half of the channels of a record between the edges are newly flagged;
   without --df and --dt, for nsig not negative, at most half of the samples of a pair of antennas are *)
Theorem C69_half chans nsig n rs : Forall (sound n) rs -> distinct rs -> in_range n chans -> (0 < n)%nat ->
  (forall lim, 1 <= lim -> exists out, run true (fun _ => true) chans (Some lim) None nsig n rs = (out, true) /\
     Forall2 (fun r r' => 2 * length (filter (newly chans n r r') (seq 1 (n - 2))) <= n - 2)%nat rs out) /\
  (0 <= nsig -> exists out, run true (fun _ => true) chans None None nsig n rs = (out, true) /\
     forall r0, In r0 rs -> let q := filter (fun p => like r0 (fst p)) (combine rs out) in
       (2 * fold_right Nat.add 0 (map (fun p => length (filter (newly chans n (fst p) (snd p)) (seq 0 n))) q) <= n * length q)%nat).
Proof.
  intros F D C N. split.
  - intros lim LM. destruct (C69_flags (fun _ => true) chans (Some lim) None nsig n rs F D C N (fun _ _ => eq_refl)) as (out & O1 & O2). exists out. split; [exact O1|].
    assert (W : forall l l', (forall r, In r l -> In r rs) -> Forall2 (fun r r' => becomes n (individual chans (Some lim) None nsig n rs r) r r') l l' -> Forall2 (fun r r' => 2 * length (filter (newly chans n r r') (seq 1 (n - 2))) <= n - 2)%nat l l').
    { intros l l' SUB O. clear O1 O2. induction O as [|r r' l l' B O IH]; constructor; [|apply IH; intros; apply SUB; right; assumption].
      set (xs := map (freq_bend r) (seq 1 (n - 2))). pose proof (above_median xs (median xs) (median_is xs)) as M. assert (LX : length xs = (n - 2)%nat) by (unfold xs; now rewrite map_length, seq_length). rewrite LX in M.
      assert (FX : forall g : R -> bool, length (filter g xs) = length (filter (fun c => g (freq_bend r c)) (seq 1 (n - 2)))) by (intros g; apply filter_map_length). rewrite FX in M. etransitivity; [|exact M]. apply Nat.mul_le_mono_l. apply filter_le. intros c I H. apply in_seq in I.
      destruct (newly_stat chans (Some lim) None nsig n rs r r' c B ltac:(lia) H) as (ln & k & _ & _ & S). cbn in S. destruct S as [(lim' & E & S)|(lim' & E & _)]; [|discriminate]. injection E as <-.
      destruct S as [S|[S|(h & S1 & S2)]]; [lia|lia|]. fold xs in S1. rewrite (median_unique _ _ _ S1 (median_is xs)) in S2. apply far_above in S2; [|exact LM|apply square_pos]. destruct (Rlt_dec _ _); [reflexivity|contradiction]. }
    apply W; auto.
  - intros NS. destruct (C69_flags (fun _ => true) chans None None nsig n rs F D C N (fun _ _ => eq_refl)) as (out & O1 & O2). exists out. split; [exact O1|]. intros r0 I0 q.
    set (l := line rs r0). set (sz := map size (flat_map data l)). set (h := median sz). set (ab := fun x => if Rlt_dec h x then true else false).
    assert (S0 : sound n r0) by (eapply Forall_forall; eauto).
    (* the newly flagged samples are above the median *)
    assert (W : forall s s', In s rs -> like r0 s = true -> becomes n (individual chans None None nsig n rs s) s s' -> (length (filter (newly chans n s s') (seq 0 n)) <= length (filter ab (map size (data s))))%nat).
    { intros s s' I LK B. assert (Ss : sound n s) by (eapply Forall_forall; eauto). assert (LD : length (data s) = n) by (destruct s as [[[[[t a] b] p] d] f]; apply Ss).
      assert (ED : map size (data s) = map (fun c => size (value s c)) (seq 0 n)).
      { unfold value. rewrite <- LD. clear. induction (data s) as [|z d IH]; [reflexivity|]. cbn [length seq map nth]. f_equal. rewrite <- seq_shift, map_map. exact IH. }
      rewrite ED, filter_map_length. apply filter_le. intros c Ic H. apply in_seq in Ic. destruct (newly_stat chans None None nsig n rs s s' c B ltac:(lia) H) as (ln & k & T & NK & S). cbn in S.
      assert (ln = l).
      { rewrite (timeline_unique n rs s ln F D I T). unfold l, line. f_equal. apply filter_ext_in. intros a A. assert (Sa : sound n a) by (eapply Forall_forall; eauto). apply Bool.eq_true_iff_eq. rewrite <- (keys_like n s a), <- (keys_like n r0 a) by assumption. apply (keys_like n r0 s) in LK; try assumption. rewrite LK. tauto. }
      subst ln. destruct S as (h' & s2 & M1 & M2 & LT). fold sz in M1. rewrite (median_unique _ _ _ M1 (median_is sz)) in LT. fold h in LT. unfold ab. destruct (Rlt_dec h (size (value s c))) as [|X]; [reflexivity|]. exfalso. apply X. pose proof (sqrt_pos s2). nra. }
    assert (PL : forall (f : R -> bool) l l', Permutation l l' -> length (filter f l) = length (filter f l')) by (clear; intros f l l' H; induction H; cbn; repeat match goal with |- context [if ?b then _ else _] => destruct b end; cbn; congruence).
    assert (PS : Permutation sz (map size (flat_map data (filter (like r0) rs)))) by (apply Permutation_map, Permutation_flat_map; symmetry; apply sort_r_perm).
    pose proof (above_median sz h (median_is sz)) as M. fold ab in M. rewrite (PL _ _ _ PS), (Permutation_length PS) in M.
    assert (G : forall a b : list record, (forall r, In r a -> In r rs) -> Forall2 (fun r r' => becomes n (individual chans None None nsig n rs r) r r') a b -> let q := filter (fun p => like r0 (fst p)) (combine a b) in
      (fold_right Nat.add 0 (map (fun p => length (filter (newly chans n (fst p) (snd p)) (seq 0 n))) q) <= length (filter ab (map size (flat_map data (filter (like r0) a)))) /\
       length (map size (flat_map data (filter (like r0) a))) = n * length q)%nat).
    { intros a b SUB O. clear - W SUB O F. induction O as [|s s' a b B O IH]; [cbn; lia|]. destruct IH as [I1 I2]; [intros; apply SUB; right; assumption|]. cbn [combine filter fst]. destruct (like r0 s) eqn:LK; [|split; assumption].
      cbn [map fold_right flat_map fst snd length]. rewrite map_app, filter_app, !app_length. specialize (W s s' (SUB s (or_introl eq_refl)) LK B).
      assert (LD : length (map size (data s)) = n). { rewrite map_length. assert (Ss : sound n s) by (eapply Forall_forall; [exact F|apply SUB; left; reflexivity]). destruct s as [[[[[t a'] b'] p] d] f]; apply Ss. }
      rewrite LD. split; [apply Nat.add_le_mono; assumption|]. rewrite I2. lia. }
    destruct (G rs out (fun _ I => I) O2) as [G1 G2]. fold q in G1, G2. rewrite G2 in M. lia.
Qed.
Print Assumptions C69_half.

(* ---------- a scale on the data ---------- *)
Definition scaled (w : cnum) (r : record) : record :=
  let '(t, i, j, p, d, f) := r in (t, i, j, p, map (fun z => (fst w * fst z - snd w * snd z, fst w * snd z + snd w * fst z)) d, f).
Lemma scaled_data w r : data (scaled w r) = map (fun z => (fst w * fst z - snd w * snd z, fst w * snd z + snd w * fst z)) (data r).
Proof. destruct r as [[[[[t i] j] p] d] f]. reflexivity. Qed.
Lemma scaled_value w r c : value (scaled w r) c = (fst w * fst (value r c) - snd w * snd (value r c), fst w * snd (value r c) + snd w * fst (value r c)).
Proof.
  unfold value. rewrite scaled_data. set (g := fun z : R * R => _). replace (0, 0) with (g (0, 0)) at 1 by (unfold g; cbn [fst snd]; f_equal; ring). apply (map_nth g).
Qed.
Lemma scaled_bend w a b c : let g := fun z : R * R => (fst w * fst z - snd w * snd z, fst w * snd z + snd w * fst z) in bend (g a) (g b) (g c) = square w * bend a b c.
Proof. unfold bend, square. cbn [fst snd]. field. Qed.
Lemma scaled_square w z : square (fst w * fst z - snd w * snd z, fst w * snd z + snd w * fst z) = square w * square z.
Proof. unfold square. cbn [fst snd]. ring. Qed.
Lemma median_scaled k l h : 0 < k -> is_median l h -> is_median (map (fun x => k * x) l) (k * h).
Proof.
  intros K (s & P & S & ->). exists (map (fun x => k * x) s). split; [apply Permutation_map, P|]. split.
  - clear P. induction S as [|a s S IH F]; cbn [map]; constructor; [exact IH|]. rewrite Forall_forall in *. intros y Y. apply in_map_iff in Y as (x & <- & X). apply Rmult_le_compat_l; [lra|apply F, X].
  - rewrite map_length. assert (E : forall i, nth i (map (fun x => k * x) s) 0 = k * nth i s 0).
    { intros i. replace 0 with (k * 0) at 1 by ring. apply (map_nth (fun x => k * x)). }
    rewrite !E. field.
Qed.
Lemma far_scaled k lim h x : 0 < k -> far lim h x -> far lim (k * h) (k * x).
Proof.
  intros K [[-> N]|[H F]]; [left|right]; (split; [nra|]).
  - intros E. apply Rmult_integral in E. destruct E; [lra|contradiction].
  - replace (lim * lim * (k * h)) with (k * (lim * lim * h)) by ring. apply Rmult_lt_compat_l; assumption.
Qed.
Lemma like_scaled w r s : like (scaled w r) (scaled w s) = like r s.
Proof. destruct r as [[[[[t i] j] p] d] f], s as [[[[[t' i'] j'] p'] d'] f']. reflexivity. Qed.
Lemma time_scaled w r : time (scaled w r) = time r.
Proof. destruct r as [[[[[t i] j] p] d] f]. reflexivity. Qed.
Lemma timeline_scaled w rs r l : timeline rs r l -> timeline (map (scaled w) rs) (scaled w r) (map (scaled w) l).
Proof.
  intros [P S]. split.
  - assert (E : filter (like (scaled w r)) (map (scaled w) rs) = map (scaled w) (filter (like r) rs)).
    { clear. induction rs as [|a rs IH]; [reflexivity|]. cbn [map filter]. rewrite like_scaled, IH. destruct (like r a); reflexivity. }
    rewrite E. apply Permutation_map, P.
  - clear P. induction S as [|a l S IH F]; cbn [map]; constructor; [exact IH|]. rewrite Forall_forall in *. intros y Y. apply in_map_iff in Y as (x & <- & X). rewrite !time_scaled. apply F, X.
Qed.
Lemma individual_scaled w chans df dt nsig n rs r c : square w <> 0 -> individual chans df dt nsig n rs r c -> individual chans df dt nsig n (map (scaled w) rs) (scaled w r) c.
Proof.
  intros W [A|[A|(l & k & T & N & A)]]; [left; destruct r as [[[[[t i] j] p] d] f]; exact A|right; left; exact A|right; right].
  assert (K : 0 < square w) by (pose proof (square_pos w); lra).
  exists (map (scaled w) l), k. split; [apply timeline_scaled, T|]. split; [apply map_nth_error, N|].
  assert (FB : forall c, freq_bend (scaled w r) c = square w * freq_bend r c) by (intros c'; unfold freq_bend; rewrite !scaled_value; apply scaled_bend).
  assert (FQ : forall lim, in_freq lim n r c -> in_freq lim n (scaled w r) c).
  { intros lim [B|[B|(h & B1 & B2)]]; [left; exact B|right; left; exact B|right; right]. exists (square w * h). rewrite (map_ext _ _ FB), FB, <- map_map with (f := freq_bend r). split; [apply median_scaled; assumption|apply far_scaled; assumption]. }
  assert (TB : forall k, time_bend (map (scaled w) l) c k = square w * time_bend l c k).
  { intros k'. unfold time_bend. rewrite <- scaled_bend. rewrite map_map. rewrite (map_ext _ _ (fun r => scaled_value w r c)).
    pose (g := fun z : R * R => (fst w * fst z - snd w * snd z, fst w * snd z + snd w * fst z)).
    assert (E : forall j, nth j (map (fun r => g (value r c)) l) (0, 0) = g (nth j (map (fun r => value r c) l) (0, 0))).
    { intros j. replace (0, 0) with (g (0, 0)) at 1 by (unfold g; cbn [fst snd]; f_equal; ring). rewrite <- map_map. apply (map_nth g). }
    unfold g in E. cbv beta zeta in E |- *. rewrite !E. reflexivity. }
  assert (TQ : forall lim, in_time lim l k c -> in_time lim (map (scaled w) l) k c).
  { intros lim [B|[B|(h & B1 & B2)]]; [left; exact B|right; left; now rewrite map_length|right; right]. exists (square w * h). rewrite map_length, (map_ext _ _ TB), TB, <- map_map with (f := time_bend l c). split; [apply median_scaled; assumption|apply far_scaled; assumption]. }
  assert (SQ : in_size nsig l r c -> in_size nsig (map (scaled w) l) (scaled w r) c).
  { intros (h & s & M1 & M2 & L). set (q := sqrt (square w)). assert (Q : 0 < q) by (apply sqrt_lt_R0, K). assert (QQ : q * q = square w) by (apply sqrt_sqrt; lra).
    assert (SZ : forall z, size (fst w * fst z - snd w * snd z, fst w * snd z + snd w * fst z) = q * size z) by (intros z; unfold size; rewrite scaled_square; apply sqrt_mult; [lra|apply square_pos]).
    assert (E : map size (flat_map data (map (scaled w) l)) = map (fun x => q * x) (map size (flat_map data l))).
    { clear - SZ. induction l as [|a l IH]; [reflexivity|]. cbn [map flat_map]. rewrite !map_app, IH, scaled_data, !map_map. f_equal. apply map_ext. exact SZ. }
    exists (q * h), (q * q * s). rewrite E. split; [apply median_scaled; assumption|]. split.
    - rewrite map_map. rewrite (map_ext _ (fun x => q * q * ((x - h) * (x - h)))) by (intros; ring). rewrite <- map_map with (f := fun x => (x - h) * (x - h)). apply median_scaled; [nra|exact M2].
    - rewrite scaled_value, SZ. rewrite sqrt_mult_alt by nra. rewrite sqrt_square by lra. replace (q * h + nsig * (q * sqrt s)) with (q * (h + nsig * sqrt s)) by ring. apply Rmult_lt_compat_l; assumption. }
  revert A. unfold statistical. destruct df as [a|], dt as [b|]; [..|exact SQ]; (intros [(lim & E & A)|(lim & E & A)]; [left|right]; exists lim; split; auto).
Qed.
(* data times any number but zero get the same flags *)
Theorem C69_scale w sel chans df dt nsig n rs : square w <> 0 -> Forall (sound n) rs -> distinct rs -> in_range n chans -> (0 < n)%nat -> (forall r, sel r = true) ->
  exists out out', run true sel chans df dt nsig n rs = (out, true) /\ run true sel chans df dt nsig n (map (scaled w) rs) = (out', true) /\ Forall2 (fun r r' => flags r = flags r' /\ r' = scaled w r) out out'.
Proof.
  intros W F D C N S.
  assert (SF : forall w, Forall (sound n) (map (scaled w) rs)).
  { intros v. rewrite Forall_forall in *. intros r I. apply in_map_iff in I as (s & <- & I). specialize (F s I). destruct s as [[[[[t i] j] p] d] f]. cbn. rewrite map_length. exact F. }
  assert (SD : distinct (map (scaled w) rs)).
  { clear - D. unfold distinct in *. induction D as [|a rs D1 D2 IH]; cbn [map]; constructor; [|exact IH]. rewrite Forall_forall in *. intros y Y. apply in_map_iff in Y as (x & <- & X). rewrite like_scaled, !time_scaled. apply D1, X. }
  destruct (C69_flags sel chans df dt nsig n rs F D C N (fun r _ => S r)) as (out & O1 & O2). destruct (C69_flags sel chans df dt nsig n (map (scaled w) rs) (SF w) SD C N (fun r _ => S r)) as (out' & O1' & O2').
  exists out, out'. split; [exact O1|]. split; [exact O1'|].
  set (iw := (fst w / square w, - snd w / square w)).
  assert (IW : square iw <> 0). { unfold iw, square. cbn [fst snd]. fold (square w). replace (fst w / square w * (fst w / square w) + - snd w / square w * (- snd w / square w)) with (square w / (square w * square w)) by (unfold square; field; exact W). unfold Rdiv. intros E. apply Rmult_integral in E as [E|E]; [contradiction|]. revert E. apply Rinv_neq_0_compat. intros E. apply Rmult_integral in E. tauto. }
  assert (BK : forall r, scaled iw (scaled w r) = r).
  { intros [[[[[t i] j] p] d] f]. cbn [scaled]. f_equal. f_equal. rewrite map_map. rewrite <- map_id. apply map_ext. intros [x y]. unfold iw. cbn [fst snd]. unfold square in *. f_equal; field; exact W. }
  assert (IF : forall r c, individual chans df dt nsig n (map (scaled w) rs) (scaled w r) c <-> individual chans df dt nsig n rs r c).
  { intros r c. split; [|apply individual_scaled, W]. intros A. apply (individual_scaled iw) in A; [|exact IW]. rewrite BK, map_map in A. rewrite (map_ext _ (fun x => x) BK), map_id in A. exact A. }
  assert (G : forall l o o', Forall2 (fun r r' => becomes n (individual chans df dt nsig n rs r) r r') l o -> Forall2 (fun r r' => becomes n (individual chans df dt nsig n (map (scaled w) rs) r) r r') (map (scaled w) l) o' ->
    Forall2 (fun r r' => flags r = flags r' /\ r' = scaled w r) o o').
  { clear - IF. induction l as [|r l IH]; intros o o' A B; inversion A as [|? ra ? la A1 A2]; subst; inversion B as [|? rb ? lb B1 B2]; subst; constructor; [|apply IH; assumption].
    destruct A1 as (P1 & L1 & M1 & V1), B1 as (P2 & L2 & M2 & V2).
    assert (FE : flags ra = flags rb).
    { apply (nth_ext _ _ false false); [congruence|]. intros c Hc. rewrite M1 in Hc. apply Bool.eq_true_iff_eq. destruct (V1 c Hc) as [-> _], (V2 c Hc) as [-> _]. symmetry. apply IF. }
    split; [exact FE|].
    assert (DE : data rb = data (scaled w ra)).
    { apply (nth_ext _ _ (0, 0) (0, 0)); [rewrite scaled_data, map_length; congruence|]. intros c Hc. rewrite L2 in Hc. change (value rb c = value (scaled w ra) c). rewrite scaled_value. destruct (V1 c Hc) as [_ ->], (V2 c Hc) as [_ ->]. rewrite FE, scaled_value.
      destruct (nth c (flags rb) false); cbn [fst snd]; f_equal; ring. }
    destruct r as [[[[[t i] j] p] d] f], ra as [[[[[t1 i1] j1] p1] d1] f1], rb as [[[[[t2 i2] j2] p2] d2] f2]. cbn [scaled data flags] in *. congruence. }
  apply (G rs); assumption.
Qed.
Print Assumptions C69_scale.

(* one record of five channels, a spike in the middle one, --df 1.5 *)
Example C69_flags_ex : run true (fun _ => true) [] (Some (3 / 2)) None 2 5 [(0, 0%Z, 1%Z, (-5)%Z, [(1, 0); (1, 0); (101, 0); (1, 0); (1, 0)], [false; false; false; false; false])] =
  ([(0, 0%Z, 1%Z, (-5)%Z, [(0, 0); (1, 0); (0, 0); (1, 0); (0, 0)], [true; false; true; false; true])], true).
Proof.
  set (r := (0, 0%Z, 1%Z, (-5)%Z, [(1, 0); (1, 0); (101, 0); (1, 0); (1, 0)], [false; false; false; false; false])).
  assert (F : Forall (sound 5) [r]) by (repeat constructor; discriminate).
  destruct (C69_flags (fun _ => true) [] (Some (3 / 2)) None 2 5 [r] F) as (out & -> & O); [repeat constructor|intros ? []|lia|reflexivity|]. f_equal.
  inversion O as [|? r' ? ? B O']; subst. inversion O'; subst. f_equal. destruct B as (P & L1 & L2 & V). destruct r' as [[[[[t i] j] p] d] f]. cbn [data flags] in *. unfold r in P. injection P as <- <- <- <-.
  assert (FB : forall c x, freq_bend r c = x -> forall y, x = y -> freq_bend r c = y) by (intros; congruence).
  assert (B1 : freq_bend r 1 = 2500) by (unfold freq_bend, bend, square, value, r; cbn; lra).
  assert (B2 : freq_bend r 2 = 10000) by (unfold freq_bend, bend, square, value, r; cbn; lra).
  assert (B3 : freq_bend r 3 = 2500) by (unfold freq_bend, bend, square, value, r; cbn; lra).
  assert (M : is_median (map (freq_bend r) (seq 1 (5 - 2))) 2500).
  { cbn [Nat.sub seq map]. rewrite B1, B2, B3. exists [2500; 2500; 10000]. split; [constructor; apply perm_swap|]. split; [repeat constructor; lra|]. cbn. lra. }
  assert (IND : forall c, individual [] (Some (3 / 2)) None 2 5 [r] r c <-> nth c [false; false; false; false; false] false = true \/ in_freq (3 / 2) 5 r c).
  { intros c. split.
    - intros [A|[[[]|[]]|(l & k & _ & _ & [(lim & E & A)|(lim & E & _)])]]; [left; exact A|right; congruence|discriminate].
    - intros [A|A]; [left; exact A|right; right]. exists [r], 0%nat. split; [|split; [reflexivity|left; eauto]]. split; [reflexivity|repeat constructor]. }
  assert (IFQ : forall c, (0 < c < 4)%nat -> (in_freq (3 / 2) 5 r c <-> far (3 / 2) 2500 (freq_bend r c))).
  { intros c H. split; [|intros X; right; right; eauto]. intros [X|[X|(h & X1 & X2)]]; [lia|lia|]. now rewrite (median_unique _ _ _ X1 M) in X2. }
  assert (N0 : nth 0 f false = true) by (apply (V 0%nat); [lia|]; apply IND; right; left; reflexivity).
  assert (N4 : nth 4 f false = true) by (apply (V 4%nat); [lia|]; apply IND; right; right; left; reflexivity).
  assert (N2 : nth 2 f false = true) by (apply (V 2%nat); [lia|]; apply IND; right; apply IFQ; [lia|]; rewrite B2; right; lra).
  assert (N1 : nth 1 f false = false).
  { apply Bool.not_true_is_false. intros E. apply (V 1%nat) in E; [|lia]. apply IND in E as [E|E]; [discriminate|]. apply IFQ in E; [|lia]. rewrite B1 in E. destruct E as [[E _]|[_ E]]; lra. }
  assert (N3 : nth 3 f false = false).
  { apply Bool.not_true_is_false. intros E. apply (V 3%nat) in E; [|lia]. apply IND in E as [E|E]; [discriminate|]. apply IFQ in E; [|lia]. rewrite B3 in E. destruct E as [[E _]|[_ E]]; lra. }
  assert (D : forall c, (c < 5)%nat -> nth c d (0, 0) = if nth c f false then (0, 0) else value r c) by (intros c Hc; apply (V c Hc)).
  pose proof (D 0%nat ltac:(lia)) as D0. pose proof (D 1%nat ltac:(lia)) as D1. pose proof (D 2%nat ltac:(lia)) as D2. pose proof (D 3%nat ltac:(lia)) as D3. pose proof (D 4%nat ltac:(lia)) as D4.
  rewrite N0 in D0. rewrite N1 in D1. rewrite N2 in D2. rewrite N3 in D3. rewrite N4 in D4. clear V D.
  destruct d as [|? [|? [|? [|? [|? [|]]]]]]; try discriminate. destruct f as [|? [|? [|? [|? [|? [|]]]]]]; try discriminate. cbn in *. subst. reflexivity.
Qed.
(* a data set that --combine --thresh 2 takes the flags from: one flagged sample of the only record *)
Example C69_unflags_ex : run_combined true (fun _ => true) [] None None 0 2 1 [(0, 0%Z, 1%Z, (-5)%Z, [(7, 0)], [true])] = ([(0, 0%Z, 1%Z, (-5)%Z, [(7, 0)], [false])], true).
Proof.
  set (r := (0, 0%Z, 1%Z, (-5)%Z, [(7, 0)], [true])). assert (ST : filter (same_time r) [r] = [r]) by (cbn; unfold same_time; cbn; destruct (Req_EM_T 0 0); [reflexivity|lra]).
  destruct (C69_unflags_refuted (fun _ => true) [] None None 0 2 1 [r]) as (out & -> & O); [repeat constructor; discriminate|repeat constructor|intros ? []|lia|discriminate| |].
  { intros s [<-|[]]. change (filter (fun _ => true) [r]) with [r]. rewrite ST. split; [discriminate|reflexivity]. }
  inversion O as [|? r' ? ? B O']; subst. inversion O'; subst. f_equal. f_equal. destruct B as (P & L1 & L2 & V). destruct r' as [[[[[t i] j] p] d] f]. cbn [data flags] in *. unfold r in P. injection P as <- <- <- <-.
  destruct (V 0%nat ltac:(lia)) as [V1 V2]. destruct d as [|? [|]]; try discriminate. destruct f as [|b [|]]; try discriminate. cbn in *. destruct b; [destruct V1 as [V1 _]; destruct (V1 eq_refl)|]. subst. reflexivity.
Qed.
