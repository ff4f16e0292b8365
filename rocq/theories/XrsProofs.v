From Coq Require Import Reals Lra Permutation Sorted.
From Verif Require Import Base BaselineModel BaselineProps CleanModel CmdModel GaussModel GaussSpec GaussProps XrsModel XrsSpec.
Open Scope R_scope.
Local Notation C := (R * R)%type (only parsing).

Lemma key_eqb_spec a b : key_eqb a b = true <-> a = b.
Proof.
  destruct a as [[p l] t], b as [[q m] u]. unfold key_eqb. cbn [fst snd]. rewrite !Bool.andb_true_iff, !Z.eqb_eq. destruct (Req_EM_T t u) as [->|N]; split.
  - intros [[-> ->] _]. reflexivity.
  - intros [= -> ->]. tauto.
  - intros [_ D]. discriminate.
  - intros [= -> -> ->]. congruence.
Qed.
Lemma get_in {A} (l : list (key * A)) k a : NoDup (map fst l) -> In (k, a) l -> get l k = Some a.
Proof.
  induction l as [|[c b] l IH]; intros ND I; [destruct I|]. inversion ND as [|? ? N1 N2]; subst. cbn [get]. destruct (key_eqb c k) eqn:E.
  - apply key_eqb_spec in E. subst c. destruct I as [[= ->]|I]; [reflexivity|]. destruct N1. apply in_map_iff. exists (k, a). auto.
  - destruct I as [[= -> ->]|I]; [|auto]. assert (key_eqb k k = true) by (apply key_eqb_spec; reflexivity). congruence.
Qed.
Lemma in_get {A} (l : list (key * A)) k a : get l k = Some a -> In (k, a) l.
Proof.
  induction l as [|[c b] l IH]; cbn [get]; [discriminate|]. destruct (key_eqb c k) eqn:E; [|intros; right; auto]. apply key_eqb_spec in E. intros [= ->]. left. congruence.
Qed.
Lemma put_new {A} (l : list (key * A)) k a : ~ In k (map fst l) -> put l k a = (l ++ [(k, a)])%list.
Proof.
  induction l as [|[c b] l IH]; intros N; [reflexivity|]. cbn [put app]. destruct (key_eqb c k) eqn:E; [apply key_eqb_spec in E; subst; destruct N; left; reflexivity|].
  rewrite IH; [reflexivity|]. intros I. apply N. right. exact I.
Qed.

(* ---------- the keys ---------- *)
Lemma keys_like n r s : sound n r -> sound n s -> (fst (key_of r) = fst (key_of s) <-> like r s = true).
Proof.
  destruct r as [[[[[t i] j] p] d] f], s as [[[[[u a] b] q] e] g]. intros (A & B & _) (A' & B' & _). cbn [key_of fst like]. split.
  - intros [= -> E]. apply C01_bl_injective in E; auto. lia.
  - intros H. assert (p = q /\ ((i = a /\ j = b) \/ (i = b /\ j = a)))%Z as [-> [[-> ->]|[-> ->]]] by lia; [reflexivity|]. now rewrite C01_bl_order_free.
Qed.
Lemma key_time r : snd (key_of r) = time r.
Proof. destruct r as [[[[[t i] j] p] d] f]. reflexivity. Qed.
Lemma keys_eq n r s : sound n r -> sound n s -> (key_of r = key_of s <-> like r s = true /\ time r = time s).
Proof.
  intros A B. rewrite <- (keys_like n r s A B), <- !key_time. destruct (key_of r), (key_of s). cbn [fst snd]. split; [intros [= -> ->]; auto|intros [-> ->]; reflexivity].
Qed.
Lemma distinct_keys n rs : Forall (sound n) rs -> distinct rs -> NoDup (map key_of rs).
Proof.
  intros F D. induction D as [|r rs D1 D2 IH]; [constructor|]. inversion F; subst. cbn [map]. constructor; [|auto]. intros I. apply in_map_iff in I as (s & E & I).
  rewrite Forall_forall in D1. specialize (D1 s I). symmetry in E. apply (keys_eq n) in E as [E1 E2]; [|assumption|eapply Forall_forall; eauto]. apply D1; assumption.
Qed.

(* ---------- gathering ---------- *)
Definition marks (chans : list Z) (f : list bool) : list bool :=
  map (fun q => (snd q || existsb (fun c => ((c =? Z.of_nat (fst q)) || (c + Z.of_nat (length f) =? Z.of_nat (fst q)))%Z) chans)%bool) (combine (seq 0 (length f)) f).
Definition ent_of (chans : list Z) (r : vis) : ent := (key_of r, (data r, marks chans (flags r))).
Definition in_range (n : nat) (chans : list Z) : Prop := forall c, In c chans -> (- Z.of_nat n <= c < Z.of_nat n)%Z.
Lemma manual_ok chans f : in_range (length f) chans -> manual chans f = Ok (marks chans f).
Proof.
  intros H. unfold manual. replace (forallb _ chans) with true; [reflexivity|]. symmetry. apply forallb_forall. intros c I. specialize (H c I). lia.
Qed.
Lemma gather_ok chans n : in_range n chans -> forall rs m, Forall (sound n) rs -> NoDup (map fst m ++ map key_of rs) -> gather chans n rs m = Ok (m ++ map (ent_of chans) rs)%list.
Proof.
  intros C. induction rs as [|r rs IH]; intros m F ND; cbn [gather map]; [now rewrite app_nil_r|]. inversion F as [|? ? S F']; subst. pose proof S as S'. destruct r as [[[[[t i] j] p] d] f]. destruct S as (_ & _ & L1 & L2).
  rewrite L1, L2, !Nat.eqb_refl. cbn [andb]. rewrite manual_ok by (rewrite L2; exact C). cbn [bind]. rewrite put_new.
  - rewrite IH; [now rewrite <- app_assoc|exact F'|]. rewrite map_app, <- app_assoc. exact ND.
  - cbn [map] in ND. apply NoDup_remove_2 in ND. intros I. apply ND. apply in_or_app. left. exact I.
Qed.
Lemma nth_marks chans f c : (c < length f)%nat -> (nth c (marks chans f) false = true <-> nth c f false = true \/ listed chans (length f) c).
Proof.
  intros H. unfold marks. set (g := fun q : nat * bool => _). rewrite (nth_indep _ false (g (0%nat, false))) by (rewrite map_length, combine_length, seq_length; lia).
  rewrite map_nth, combine_nth by apply seq_length. rewrite seq_nth by exact H. unfold g. cbn [fst snd Nat.add]. rewrite Bool.orb_true_iff, existsb_exists. unfold listed.
  split; (intros [A|A]; [left; exact A|right]).
  - destruct A as (x & I & E). apply Bool.orb_true_iff in E as [E|E]; apply Z.eqb_eq in E; [left; congruence|right]. replace (Z.of_nat c - Z.of_nat (length f))%Z with x by lia. exact I.
  - destruct A as [I|I]; eexists; (split; [exact I|]); lia.
Qed.

(* ---------- sorting by time ---------- *)
Fixpoint insert_r (e : vis) (l : list vis) : list vis :=
  match l with [] => [e] | a :: r => if Rle_dec (time e) (time a) then e :: l else a :: insert_r e r end.
Definition sort_r (l : list vis) : list vis := fold_right insert_r [] l.
Lemma sort_map chans l : sort_t (map (ent_of chans) l) = map (ent_of chans) (sort_r l).
Proof.
  assert (G : forall e l, insert_t (ent_of chans e) (map (ent_of chans) l) = map (ent_of chans) (insert_r e l)).
  { clear. induction l as [|a l IH]; [reflexivity|]. cbn [map insert_t insert_r]. unfold ent_of at 1 2. cbn [fst snd]. destruct (Rle_dec (snd (key_of e)) (snd (key_of a))) as [L|L]; rewrite (key_time e), (key_time a) in L; destruct (Rle_dec (time e) (time a)); try contradiction; [reflexivity|]. cbn [map]. rewrite <- IH. reflexivity. }
  induction l as [|a l IH]; [reflexivity|]. cbn [map sort_t sort_r fold_right]. fold (sort_t (map (ent_of chans) l)). fold (sort_r l). rewrite IH. apply G.
Qed.
Lemma insert_r_perm e l : Permutation (e :: l) (insert_r e l).
Proof. induction l as [|a l IH]; [reflexivity|]. cbn [insert_r]. destruct (Rle_dec (time e) (time a)); [reflexivity|]. etransitivity; [apply perm_swap|]. constructor. exact IH. Qed.
Lemma sort_r_perm l : Permutation l (sort_r l).
Proof. induction l as [|a l IH]; [constructor|]. cbn. etransitivity; [constructor; exact IH|apply insert_r_perm]. Qed.
Lemma sort_r_sorted l : StronglySorted (fun a b => time a <= time b) (sort_r l).
Proof.
  induction l as [|e l IH]; [constructor|]. cbn. fold (sort_r l). induction IH as [|a l' S IH' F]; [repeat constructor|]. cbn [insert_r]. destruct (Rle_dec (time e) (time a)) as [L|L].
  - constructor; [constructor; assumption|]. constructor; [exact L|]. eapply Forall_impl; [|exact F]. cbn. intros. lra.
  - constructor; [exact IH'|]. eapply Permutation_Forall; [apply insert_r_perm|]. constructor; [lra|exact F].
Qed.
Lemma sorted_strict l : StronglySorted (fun a b => time a <= time b) l -> NoDup (map time l) -> StronglySorted (fun a b => time a < time b) l.
Proof.
  induction 1 as [|a l S IH F]; intros ND; [constructor|]. inversion ND as [|? ? N1 N2]; subst. constructor; [auto|]. rewrite Forall_forall in *. intros b B. specialize (F b B).
  assert (time a <> time b) by (intros E; apply N1; rewrite E; apply in_map; exact B). lra.
Qed.
Lemma strict_unique l m : StronglySorted (fun a b => time a < time b) l -> StronglySorted (fun a b => time a < time b) m -> Permutation l m -> l = m.
Proof.
  intros S. revert m. induction S as [|a l S IH F]; intros m T P; [apply Permutation_nil in P; now subst|]. destruct m as [|b m]; [symmetry in P; apply Permutation_nil in P; discriminate|].
  inversion T as [|? ? T1 T2]; subst. rewrite Forall_forall in *. assert (a = b).
  { assert (I : In a (b :: m)) by (eapply Permutation_in; [exact P|left; reflexivity]). assert (J : In b (a :: l)) by (eapply Permutation_in; [symmetry; exact P|left; reflexivity]).
    destruct I as [I|I]; [auto|]. destruct J as [J|J]; [auto|]. specialize (T2 a I). specialize (F b J). lra. }
  subst b. f_equal. apply IH; [exact T1|]. eapply Permutation_cons_inv; eauto.
Qed.
Lemma strict_nodup l : StronglySorted (fun a b => time a < time b) l -> NoDup l.
Proof.
  induction 1 as [|a l S IH F]; constructor; [|exact IH]. intros I. rewrite Forall_forall in F. specialize (F a I). lra.
Qed.
Lemma like_times n rs r : Forall (sound n) rs -> distinct rs -> In r rs -> NoDup (map time (filter (like r) rs)).
Proof.
  intros F D I. assert (Sr : sound n r) by (eapply Forall_forall; eauto).
  assert (T : forall a b, sound n a -> sound n b -> like r a = true -> like r b = true -> like a b = true).
  { intros a b A B L M. apply (keys_like n a b A B). apply (keys_like n r a Sr A) in L. apply (keys_like n r b Sr B) in M. congruence. }
  clear I. induction D as [|a rs D1 D2 IH]; [constructor|]. inversion F as [|? ? Sa F']; subst. cbn [filter]. destruct (like r a) eqn:E; [|auto]. cbn [map]. constructor; [|auto].
  intros J. apply in_map_iff in J as (b & E2 & J). apply filter_In in J as [J1 J2]. rewrite Forall_forall in D1, F'. apply (D1 b J1); [|congruence]. apply T; auto.
Qed.
Definition line (rs : list vis) (r : vis) : list vis := sort_r (filter (like r) rs).
Lemma line_timeline n rs r : Forall (sound n) rs -> distinct rs -> In r rs -> timeline rs r (line rs r).
Proof.
  intros F D I. split; [symmetry; apply sort_r_perm|]. apply sorted_strict; [apply sort_r_sorted|]. eapply Permutation_NoDup; [apply Permutation_map, sort_r_perm|]. eapply like_times; eauto.
Qed.
Lemma timeline_unique n rs r l : Forall (sound n) rs -> distinct rs -> In r rs -> timeline rs r l -> l = line rs r.
Proof.
  intros F D I [P S]. destruct (line_timeline n rs r F D I) as [P' S']. apply strict_unique; auto. etransitivity; [exact P|]. symmetry. exact P'.
Qed.
Lemma like_refl r : like r r = true.
Proof. destruct r as [[[[[t i] j] p] d] f]. cbn. lia. Qed.
Lemma line_has n rs r : Forall (sound n) rs -> distinct rs -> In r rs -> In r (line rs r).
Proof. intros F D I. eapply Permutation_in; [apply sort_r_perm|]. apply filter_In. split; [exact I|apply like_refl]. Qed.

(* ---------- the statistics ---------- *)
Lemma cell_map chans l k c : cell (map (ent_of chans) l) k c = nth k (map (fun r => value r c) l) (0, 0).
Proof.
  unfold cell. revert k. induction l as [|r l IH]; intros [|k]; cbn [map nth]; [destruct c; reflexivity..|reflexivity|]. apply IH.
Qed.
Lemma bend_eq (a b c : C) : bend2 a b c = bend a b c.
Proof. unfold bend2, bend, square, cnorm2, csub, cscale, cadd. destruct a, b, c. cbn [fst snd]. field. Qed.
Lemma median_unique l a b : is_median l a -> is_median l b -> a = b.
Proof.
  intros (s & P & S & ->) (t & P' & T & ->). assert (s = t); [|now subst]. clear - P P' S T. assert (Q : Permutation s t) by (etransitivity; [symmetry; exact P|exact P']). clear P P' l.
  revert t T Q. induction S as [|a s S IH F]; intros t T Q; [apply Permutation_nil in Q; now subst|]. destruct t as [|b t]; [symmetry in Q; apply Permutation_nil in Q; discriminate|].
  inversion T as [|? ? T1 T2]; subst. rewrite Forall_forall in *. assert (a = b).
  { assert (I : In a (b :: t)) by (eapply Permutation_in; [exact Q|left; reflexivity]). assert (J : In b (a :: s)) by (eapply Permutation_in; [symmetry; exact Q|left; reflexivity]).
    destruct I as [I|I]; [auto|]. destruct J as [J|J]; [auto|]. specialize (T2 a I). specialize (F b J). lra. }
  subst b. f_equal. apply IH; [exact T1|]. eapply Permutation_cons_inv; eauto.
Qed.
Lemma median_nonneg l h : (forall x, In x l -> 0 <= x) -> is_median l h -> 0 <= h.
Proof.
  intros P (s & Q & S & ->). assert (G : forall k, 0 <= nth k s 0).
  { intros k. destruct (le_lt_dec (length s) k) as [L|L]; [rewrite nth_overflow by exact L; lra|]. apply P. eapply Permutation_in; [symmetry; exact Q|]. apply nth_In. exact L. }
  pose proof (G ((length l - 1) / 2)%nat). pose proof (G (length l / 2)%nat). lra.
Qed.
Lemma square_pos z : 0 <= square z.
Proof. unfold square. nra. Qed.
Lemma exceeds_far l x lim : (forall x, In x l -> 0 <= x) -> (exceeds x (median l) lim = true <-> exists h, is_median l h /\ far lim h x).
Proof.
  intros P. pose proof (median_is l) as M. pose proof (median_nonneg l _ P M) as N. unfold exceeds, far. rewrite (sqrt_sqrt _ N). split.
  - intros H. exists (median l). split; [exact M|]. destruct (Req_EM_T (median l) 0) as [E|E].
    + left. split; [exact E|]. destruct (Req_EM_T x 0); [discriminate|assumption].
    + right. assert (0 < median l) by lra. split; [lra|]. destruct (Rlt_dec (lim * lim) (x / median l)) as [L|]; [|discriminate]. apply Rmult_lt_compat_r with (r := median l) in L; [|assumption]. replace (x / median l * median l) with x in L by (field; lra). exact L.
  - intros (h & H & F). rewrite (median_unique _ _ _ H M) in F. destruct (Req_EM_T (median l) 0) as [E|E].
    + destruct F as [[_ F]|[F _]]; [|lra]. destruct (Req_EM_T x 0); [contradiction|reflexivity].
    + destruct F as [[F _]|[F1 F2]]; [contradiction|]. destruct (Rlt_dec (lim * lim) (x / median l)) as [|L]; [reflexivity|]. exfalso. apply L.
      apply Rmult_lt_reg_r with (r := median l); [lra|]. replace (x / median l * median l) with x by (field; lra). exact F2.
Qed.
Lemma by_freq_spec chans lim n l k r c : nth_error l k = Some r -> (by_freq lim n (map (ent_of chans) l) k c = true <-> in_freq lim n r c).
Proof.
  intros N. unfold by_freq, in_freq. set (x := fun c => bend2 _ _ _). assert (E : forall c, x c = freq_bend r c).
  { intros c'. unfold x, freq_bend. rewrite bend_eq, !cell_map. assert (V : forall c, nth k (map (fun r => value r c) l) (0, 0) = value r c) by (intros c''; apply nth_error_nth; apply (map_nth_error (fun r => value r c'')); exact N). rewrite !V. reflexivity. }
  rewrite !Bool.orb_true_iff, !Nat.eqb_eq. rewrite exceeds_far.
  - rewrite (map_ext x (freq_bend r) E). pose proof (E c) as Ec. unfold x in Ec. rewrite Ec. tauto.
  - intros y I. apply in_map_iff in I as (c' & <- & _). rewrite E. unfold freq_bend, bend. apply square_pos.
Qed.
Lemma by_time_spec chans lim l k c : (by_time lim (map (ent_of chans) l) k c = true <-> in_time lim l k c).
Proof.
  unfold by_time, in_time. set (x := fun k => bend2 _ _ _). assert (E : forall k, x k = time_bend l c k).
  { intros k'. unfold x, time_bend. rewrite bend_eq, !cell_map. reflexivity. }
  rewrite !Bool.orb_true_iff, !Nat.eqb_eq, map_length. rewrite exceeds_far.
  - rewrite (map_ext x (time_bend l c) E). pose proof (E k) as Ek. unfold x in Ek. rewrite Ek. tauto.
  - intros y I. apply in_map_iff in I as (c' & <- & _). rewrite E. unfold time_bend, bend. apply square_pos.
Qed.
Lemma by_size_spec chans lim l k r c : nth_error l k = Some r -> (by_size lim (map (ent_of chans) l) k c = true <-> in_size lim l r c).
Proof.
  intros N. unfold by_size, in_size. set (ad := flat_map _ _). assert (E : ad = map size (flat_map data l)).
  { unfold ad. clear. induction l as [|r l IH]; [reflexivity|]. cbn [map flat_map]. rewrite IH, map_app. reflexivity. }
  rewrite E. clear E ad. rewrite cell_map. rewrite (nth_error_nth _ _ _ (map_nth_error (fun r => value r c) _ _ N)). set (sz := map size (flat_map data l)).
  change (sqrt (cnorm2 (value r c))) with (size (value r c)).
  assert (SQ : forall h, map (fun a => Rabs (a - h) * Rabs (a - h)) sz = map (fun x => (x - h) * (x - h)) sz) by (intros h; apply map_ext; intros a; rewrite <- Rabs_mult; apply Rabs_right, Rle_ge, Rle_0_sqr).
  rewrite SQ. split.
  - intros H. exists (median sz), (median (map (fun x => (x - median sz) * (x - median sz)) sz)). split; [apply median_is|]. split; [apply median_is|]. destruct (Rlt_dec _ _); [assumption|discriminate].
  - intros (h & s & M1 & M2 & L). rewrite (median_unique _ _ _ M1 (median_is sz)) in *. rewrite (median_unique _ _ _ M2 (median_is _)) in L. destruct (Rlt_dec _ _); [reflexivity|contradiction].
Qed.
Lemma stat_spec chans df dt nsig n l k r c : nth_error l k = Some r -> (stat df dt nsig n (map (ent_of chans) l) k c = true <-> statistical df dt nsig n l k r c).
Proof.
  intros N. unfold stat, statistical.
  assert (B1 : forall lim, by_freq lim n (map (ent_of chans) l) k c = true <-> in_freq lim n r c) by (intros; apply by_freq_spec; exact N).
  assert (B2 : forall lim, by_time lim (map (ent_of chans) l) k c = true <-> in_time lim l k c) by (intros; apply by_time_spec).
  destruct df as [a|], dt as [b|]; [..|apply by_size_spec; exact N]; rewrite Bool.orb_true_iff, ?B1, ?B2; split; intros [H|H]; try discriminate; eauto;
    destruct H as (lim & E & H); try discriminate; injection E as <-; auto.
Qed.

(* ---------- the masks ---------- *)
Definition row (chans : list Z) (df dt : option R) (nsig : R) (n : nat) (l : list vis) (k : nat) (r : vis) : list bool :=
  map (fun c => (nth c (marks chans (flags r)) false || stat df dt nsig n (map (ent_of chans) l) k c)%bool) (seq 0 n).
Lemma masked_row chans df dt nsig n l : masked df dt nsig n (map (ent_of chans) l) = map (fun q => (key_of (snd q), row chans df dt nsig n l (fst q) (snd q))) (combine (seq 0 (length l)) l).
Proof.
  unfold masked. rewrite map_length. set (es := map (ent_of chans) l). unfold row. fold es.
  assert (G : forall m pre, l = (pre ++ m)%list -> map (fun k => let e := nth k es no_ent in (fst e, map (fun c => (nth c (snd (snd e)) false || stat df dt nsig n es k c)%bool) (seq 0 n))) (seq (length pre) (length m)) =
     map (fun q => (key_of (snd q), map (fun c => (nth c (marks chans (flags (snd q))) false || stat df dt nsig n es (fst q) c)%bool) (seq 0 n))) (combine (seq (length pre) (length m)) m)).
  { induction m as [|r m IH]; intros pre E; [reflexivity|]. cbn [length seq map combine fst snd]. f_equal.
    - assert (NE : nth (length pre) es no_ent = ent_of chans r).
      { unfold es. rewrite E, map_app, app_nth2 by (rewrite map_length; lia). rewrite map_length, Nat.sub_diag. reflexivity. }
      cbv zeta. rewrite NE. reflexivity.
    - specialize (IH (pre ++ [r])%list). rewrite app_length in IH. cbn [length] in IH. rewrite Nat.add_1_r in IH. apply IH. rewrite <- app_assoc. exact E. }
  exact (G l [] eq_refl).
Qed.
Lemma group_like chans n rs r : Forall (sound n) rs -> sound n r ->
  filter (fun e : ent => if pair_dec (fst (fst e)) (fst (key_of r)) then true else false) (map (ent_of chans) rs) = map (ent_of chans) (filter (like r) rs).
Proof.
  intros F S. induction F as [|a rs Sa F IH]; [reflexivity|]. cbn [map filter]. rewrite IH. cbn [ent_of fst snd]. destruct (pair_dec (fst (key_of a)) (fst (key_of r))) as [E|E].
  - replace (like r a) with true; [reflexivity|]. symmetry. apply (keys_like n r a S Sa). congruence.
  - replace (like r a) with false; [reflexivity|]. symmetry. apply Bool.not_true_is_false. intros H. apply (keys_like n r a S Sa) in H. congruence.
Qed.
Lemma masks_in chans df dt nsig n rs k m : Forall (sound n) rs -> distinct rs ->
  (In (k, m) (masks df dt nsig n (map (ent_of chans) rs)) <-> exists r i, In r rs /\ k = key_of r /\ nth_error (line rs r) i = Some r /\ m = row chans df dt nsig n (line rs r) i r).
Proof.
  intros F D. unfold masks. rewrite in_flat_map. split.
  - intros (g & G1 & G2). apply nodup_In in G1. rewrite map_map in G1. apply in_map_iff in G1 as (r0 & <- & I0). cbn [ent_of fst] in *.
    assert (S0 : sound n r0) by (eapply Forall_forall; eauto). rewrite (group_like chans n rs r0 F S0), sort_map, masked_row in G2. fold (line rs r0) in G2.
    apply in_map_iff in G2 as ([i r] & E & J). cbn [fst snd] in E. injection E as <- <-.
    assert (N : nth_error (line rs r0) i = Some r).
    { clear - J. revert J. generalize (line rs r0) as l. intros l. assert (G : forall (l : list vis) b, In (i, r) (combine (seq b (length l)) l) -> exists j, i = (b + j)%nat /\ nth_error l j = Some r).
      { clear l. induction l as [|a l IH]; intros b J; [destruct J|]. cbn in J. destruct J as [[= <- <-]|J]; [exists 0%nat; split; [lia|reflexivity]|]. destruct (IH _ J) as (j & E & N). exists (S j). split; [lia|exact N]. }
      intros J. destruct (G l 0%nat J) as (j & E & N). cbn in E. subst. exact N. }
    assert (I : In r rs /\ like r0 r = true).
    { apply nth_error_In in N. eapply Permutation_in in N; [|symmetry; apply sort_r_perm]. apply filter_In in N. exact N. }
    destruct I as [I L]. assert (Sr : sound n r) by (eapply Forall_forall; eauto).
    assert (LE : line rs r0 = line rs r).
    { unfold line. f_equal. apply filter_ext_in. intros a A. assert (Sa : sound n a) by (eapply Forall_forall; eauto). apply Bool.eq_true_iff_eq. rewrite <- (keys_like n r0 a), <- (keys_like n r a) by assumption. apply (keys_like n r0 r) in L; try assumption. rewrite L. tauto. }
    rewrite LE in *. exists r, i. repeat split; auto.
  - intros (r & i & I & -> & N & ->). assert (Sr : sound n r) by (eapply Forall_forall; eauto). exists (fst (key_of r)). split.
    + apply nodup_In. rewrite map_map. apply in_map_iff. exists r. auto.
    + rewrite (group_like chans n rs r F Sr), sort_map, masked_row. fold (line rs r). apply in_map_iff. exists (i, r). split; [reflexivity|].
      assert (G : forall (l : list vis) b i, nth_error l i = Some r -> In ((b + i)%nat, r) (combine (seq b (length l)) l)).
      { clear. induction l as [|a l IH]; intros b [|i] N; cbn in N; try discriminate; cbn [length seq combine]; [left; f_equal; [lia|congruence]|right]. specialize (IH (S b) i N). now rewrite Nat.add_succ_r. }
      apply (G _ 0%nat). exact N.
Qed.
Lemma nodup_flat_map {A B} (F : A -> list B) (g : B -> A) l : NoDup l -> (forall a, In a l -> NoDup (F a)) -> (forall a b, In b (F a) -> g b = a) -> NoDup (flat_map F l).
Proof.
  intros ND H G. induction ND as [|a l N ND IH]; [constructor|]. cbn [flat_map]. assert (NF := H a (or_introl eq_refl)). assert (IH' : NoDup (flat_map F l)) by (apply IH; intros; apply H; right; assumption). clear IH.
  assert (X : forall b, In b (F a) -> ~ In b (flat_map F l)) by (intros b Hb J; apply in_flat_map in J as (a2 & J1 & J2); apply G in J2; apply G in Hb; congruence).
  induction (F a) as [|b f IH]; [exact IH'|]. inversion NF; subst. cbn [app]. constructor; [|apply IH; [assumption|intros; apply X; right; assumption]].
  intros J. apply in_app_or in J as [J|J]; [contradiction|]. apply (X b); [left; reflexivity|exact J].
Qed.
Lemma masks_nodup chans df dt nsig n rs : Forall (sound n) rs -> distinct rs -> NoDup (map fst (masks df dt nsig n (map (ent_of chans) rs))).
Proof.
  intros F D. unfold masks. rewrite flat_map_concat_map, concat_map, map_map, <- flat_map_concat_map.
  set (FF := fun g => map fst (masked _ _ _ _ _)).
  assert (FE : forall g, FF g = map key_of (sort_r (filter (fun r => if pair_dec (fst (key_of r)) g then true else false) rs))).
  { intros g. unfold FF. assert (E : filter (fun e : ent => if pair_dec (fst (fst e)) g then true else false) (map (ent_of chans) rs) = map (ent_of chans) (filter (fun r => if pair_dec (fst (key_of r)) g then true else false) rs)).
    { clear. induction rs as [|a rs IH]; [reflexivity|]. cbn [map filter]. rewrite IH. cbn [ent_of fst]. destruct (pair_dec _ _); reflexivity. }
    rewrite E, sort_map, masked_row, map_map. cbn [fst]. generalize (sort_r (filter (fun r => if pair_dec (fst (key_of r)) g then true else false) rs)) as l. generalize 0%nat as b. clear. intros b l. revert b. induction l as [|a l IH]; intros b; [reflexivity|]. cbn [length seq combine map snd]. f_equal. apply IH. }
  apply (nodup_flat_map _ fst).
  - apply NoDup_nodup.
  - intros g _. rewrite FE. eapply Permutation_NoDup; [apply Permutation_map, sort_r_perm|]. pose proof (distinct_keys n rs F D) as ND. clear - ND. induction rs as [|a rs IH]; [constructor|]. inversion ND as [|? ? N1 N2]; subst. cbn [filter].
    destruct (pair_dec _ _); [|auto]. cbn [map]. constructor; [|auto]. intros I. apply N1. apply in_map_iff in I as (x & <- & I). apply filter_In in I as [I _]. apply in_map. exact I.
  - intros g k K. rewrite FE in K. apply in_map_iff in K as (r & <- & K). eapply Permutation_in in K; [|symmetry; apply sort_r_perm]. apply filter_In in K as [_ K]. destruct (pair_dec _ _); [assumption|discriminate].
Qed.
Lemma row_length chans df dt nsig n l k r : length (row chans df dt nsig n l k r) = n.
Proof. unfold row. now rewrite map_length, seq_length. Qed.
Lemma row_spec chans df dt nsig n rs r i c : Forall (sound n) rs -> distinct rs -> In r rs -> nth_error (line rs r) i = Some r -> (c < n)%nat ->
  (nth c (row chans df dt nsig n (line rs r) i r) false = true <-> individual chans df dt nsig n rs r c).
Proof.
  intros F D I N Hc. unfold row, individual. assert (L : length (flags r) = n) by (rewrite Forall_forall in F; specialize (F r I); destruct r as [[[[[t a] b] p] d] f]; apply F).
  set (g := fun c => _). rewrite (nth_indep _ false (g 0%nat)) by (rewrite map_length, seq_length; exact Hc). rewrite map_nth, seq_nth by exact Hc. unfold g. cbn [Nat.add].
  rewrite Bool.orb_true_iff, nth_marks by lia. rewrite L. rewrite (stat_spec chans df dt nsig n (line rs r) i r c N). split.
  - intros [[A|A]|A]; [left; exact A|right; left; exact A|right; right]. exists (line rs r), i. split; [eapply line_timeline; eauto|]. auto.
  - intros [A|[A|(l & k & T & Nk & A)]]; auto. right. pose proof (timeline_unique n rs r l F D I T) as ->. destruct (line_timeline n rs r F D I) as [_ S]. apply strict_nodup in S.
    assert (k = i); [|subst; exact A]. apply (proj1 (NoDup_nth_error _) S k i); [apply nth_error_Some; intros E0; pose proof (eq_trans (eq_sym E0) Nk); discriminate|exact (eq_trans Nk (eq_sym N))].
Qed.
(* ---------- what is written ---------- *)
Lemma apply_ok n (mask : vis -> option (list bool)) (P : vis -> nat -> Prop) : forall rs, Forall (sound n) rs ->
  (forall r, In r rs -> exists m, mask r = Some m /\ length m = n /\ forall c, (c < n)%nat -> (nth c m false = true <-> P r c)) ->
  exists out, apply mask rs = (out, true) /\ Forall2 (fun r r' => becomes n (P r) r r') rs out.
Proof.
  induction rs as [|r rs IH]; intros F H; [exists []; split; [reflexivity|constructor]|]. inversion F as [|? ? S F']; subst. destruct IH as (out & O1 & O2); [exact F'|intros; apply H; right; assumption|].
  destruct (H r (or_introl eq_refl)) as (m & M1 & M2 & M3). destruct r as [[[[[t i] j] p] d] f]. destruct S as (_ & _ & L1 & L2). cbn [apply]. rewrite M1. unfold bcast. rewrite L1, M2, Nat.eqb_refl, O1. eexists. split; [reflexivity|]. constructor; [|exact O2].
  split; [reflexivity|]. cbn [data flags]. split; [rewrite map_length, combine_length; lia|]. split; [exact M2|]. intros c Hc. split; [apply M3; exact Hc|]. unfold value. cbn [data].
  set (g := fun q : bool * (R * R) => _). rewrite (nth_indep _ (0, 0) (g (false, (0, 0)))) by (rewrite map_length, combine_length; lia). rewrite map_nth, combine_nth by lia. reflexivity.
Qed.
