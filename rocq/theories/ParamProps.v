(* C22, C23, C51: parameters of sources, beams and antennas. *)
From Verif Require Import Base ParamModel ParamSpec ParamProofs ParamProofs2 ParamProofs3.
From Coq Require Import Ascii String.
Ltac Zify.zify_post_hook ::= idtac.
Open Scope nat_scope.

(* ---- C22: sources ---- *)
(* after any sequence of set_params calls each parameter has the value given last, or its
   original value *)
Theorem C22_fixed_source {F} (s : src F) ds k : In k ["jys"; "index"; "ra"; "dec"; "a1"; "a2"; "th"; "dra"; "ddec"]%string ->
  lookup k (fixed_get (fold_left fixed_set ds s) [k]) = last_set k ds (lookup k (fixed_get s [k])).
Proof.
  intros H. unfold fixed_get.
  assert (S : star k = false) by (simpl in H; repeat (destruct H as [<-|H]; [reflexivity|]); destruct H).
  rewrite !choose_one by auto. apply (steps fixed_set fixed_all). intros. apply fixed_step; auto.
Qed.
Theorem C22_special_source {F} (s : src F) ds k : In k ["jys"; "index"; "a1"; "a2"; "th"; "dra"; "ddec"]%string ->
  lookup k (special_get (fold_left special_set ds s) [k]) = last_set k ds (lookup k (special_get s [k])).
Proof.
  intros H. unfold special_get.
  assert (S : star k = false) by (simpl in H; repeat (destruct H as [<-|H]; [reflexivity|]); destruct H).
  rewrite !choose_one by auto. apply (steps special_set special_all). intros. apply special_step; auto.
Qed.
(* the frequency is shown by get_params but set_params ignores it *)
Theorem C22_mfreq_refuted : exists (s : src nat) d, lookup "mfreq" (fixed_get (fixed_set s d) ["mfreq"%string]) <> lookup "mfreq" d /\ lookup "mfreq" d <> None.
Proof. exists (Src 0 0 0 0 0 0 0 0 0 1), [("mfreq"%string, 2)]. split; vm_compute; discriminate. Qed.

(* a request for a list of names without '*' gives those names only *)
Theorem C22_requested_names {F} (s : src F) l k : Forall (fun k => forall t, k <> String "*"%char t) l ->
  lookup k (fixed_get s l) = if existsb (String.eqb k) l then lookup k (fixed_get s ["*"%string]) else None.
Proof.
  intros H. unfold fixed_get. rewrite choose_list by (eapply Forall_impl; [|exact H]; apply star_false). cbn [lookup]. rewrite choose_star.
  destruct (existsb (String.eqb k) l); auto. destruct (lookup k (fixed_all s)); auto.
Qed.

(* catalogues: each source follows its own dictionaries *)
Theorem C22_catalog {F} (c : catalog F) (ds : list (dict (dict F))) s :
  NoDup (map fst c) -> Forall (fun d => NoDup (map fst d)) ds ->
  lookup s (cat_get (fold_left cat_set ds c) [("*", ["*"])]%string) =
  option_map (fun o => fixed_get (fold_left fixed_set (flat_map (fun d => match lookup s d with Some x => [x] | None => [] end) ds) o) ["*"%string])
             (lookup s c).
Proof.
  intros N H. rewrite cat_get_all.
  - rewrite cat_history by auto. destruct (lookup s c); reflexivity.
  - assert (K : map fst (fold_left cat_set ds c) = map fst c); [|rewrite K; auto].
    clear -H. revert c. induction ds as [|d ds IH]; intros c; auto. inversion H; subst. cbn [fold_left]. rewrite IH by auto.
    unfold cat_set. clear. revert c. induction d as [|[k x] d IH]; intros c; auto. cbn [fold_left fst snd]. rewrite IH.
    destruct (lookup k c) eqn:E; auto. apply dset_keys. eapply lookup_in; eauto.
Qed.

(* ---- C22: beams ---- *)
Theorem C22_gaussian_beam {F} (g : gauss F) ds k : In k ["bm_xwidth"; "bm_ywidth"]%string ->
  lookup k (gauss_get (fold_left (fun g d => fst (gauss_set g d)) ds g) [k]) = last_set k ds (lookup k (gauss_get g [k])).
Proof.
  intros H. unfold gauss_get. assert (S : star k = false) by (simpl in H; repeat (destruct H as [<-|H]; [reflexivity|]); destruct H).
  rewrite !choose_one by auto.
  apply (steps (fun g d => fst (gauss_set g d)) (fun g => [("bm_xwidth", g_x g); ("bm_ywidth", g_y g)]%string)).
  intros s d. simpl in H. unfold gauss_set. cbn [fst g_x g_y]. unfold or_old.
  destruct H as [<-|[<-|[]]]; cbn; [destruct (lookup "bm_xwidth" d) | destruct (lookup "bm_ywidth" d)]; reflexivity.
Qed.
(* the beam recomputes iff one of its parameters was given *)
Theorem C22_gaussian_changed {F} (g : gauss F) d :
  snd (gauss_set g d) = true <-> lookup "bm_xwidth" d <> None \/ lookup "bm_ywidth" d <> None.
Proof.
  unfold gauss_set. cbn [snd]. destruct (lookup "bm_xwidth" d), (lookup "bm_ywidth" d); split; intros H; auto; try discriminate;
    try (left; discriminate); try (right; discriminate). destruct H; congruence.
Qed.
Theorem C22_polynomial_beam {F} (p p' : poly F) d : poly_set p d = Ok p' ->
  lookup "bm_poly" (poly_get p' ["bm_poly"%string]) =
    match lookup "bm_poly" d with Some v => Some v | None => lookup "bm_poly" (poly_get p ["bm_poly"%string]) end /\
  p_rows p' = p_rows p /\ p_cols p' = p_cols p.
Proof.
  unfold poly_set. destruct (lookup "bm_poly" d) as [[l|l]|]; try discriminate.
  - destruct (Nat.eqb _ _); [|discriminate]. intros H. injection H as <-. auto.
  - intros H. injection H as <-. auto.
Qed.
(* accepted: nothing for the beam, or an array of as many coefficients as it has *)
Theorem C22_polynomial_accepted {F} (p : poly F) d : (exists p', poly_set p d = Ok p') <->
  match lookup "bm_poly" d with None => True | Some (Arr l) => List.length l = p_rows p * p_cols p | Some (Lst _) => False end.
Proof.
  unfold poly_set. destruct (lookup "bm_poly" d) as [[l|l]|].
  - destruct (Nat.eqb_spec (List.length l) (p_rows p * p_cols p)); split; eauto; [intros (p' & H); discriminate | contradiction].
  - split; [intros (p' & H); discriminate | contradiction].
  - split; eauto.
Qed.
(* the flattened-and-reconstructed form (a Python list) of its own parameters is rejected *)
Theorem C22_polynomial_list_refuted {F} (p : poly F) : poly_set p [("bm_poly"%string, Lst (p_data p))] = Err.
Proof. reflexivity. Qed.

(* spherical harmonic beams: the parameters read back belong to the opposite term *)
Theorem C22_alm_beam {F} (b : almbeam F) c l : c < List.length b ->
  nth_error (alm_get (alm_set b [(c, pairs_flat l)])) (List.length b - 1 - c) = Some (List.length b - 1 - c, pairs_flat l) /\
  forall j, j <> List.length b - 1 - c -> nth_error (alm_get (alm_set b [(c, pairs_flat l)])) j = nth_error (alm_get b) j.
Proof.
  intros L. destruct (alm_one b c (pairs_flat l) L) as [A B].
  assert (N : forall (b : almbeam F) i, nth_error (alm_get b) i = option_map (fun x => (i, pairs_flat x)) (nth_error b i)).
  { clear. intros b i. unfold alm_get.
    assert (G : forall k, nth_error (combine (seq k (List.length b)) (map pairs_flat b)) i = option_map (fun x => (k + i, pairs_flat x)) (nth_error b i)).
    { revert i. induction b as [|x b IH]; intros [|i] k; auto.
      - cbn. rewrite Nat.add_0_r. auto.
      - cbn [List.length seq map combine nth_error]. rewrite IH. destruct (nth_error b i); auto. cbn. repeat f_equal. lia. }
    apply (G 0). }
  split.
  - rewrite N, A, flat_pairs_flat. reflexivity.
  - intros j J. rewrite !N, B by auto. reflexivity.
Qed.
(* any number of parameters: term j takes the last value given under the key that counts from the
   other end, and keys beyond the terms are ignored *)
Theorem C22_alm_set {F} (b : almbeam F) d : List.length (alm_set b d) = List.length b /\
  forall j, j < List.length b -> nth_error (alm_set b d) j =
    match find (fun kv => (fst kv =? List.length b - 1 - j)%nat) (rev d) with
    | Some kv => Some (flat_pairs (snd kv)) | None => nth_error b j end.
Proof.
  unfold alm_set. induction d as [|kv d IH] using rev_ind; [split; auto|].
  rewrite fold_left_app, rev_app_distr. cbn [fold_left rev app find]. destruct IH as [L IH].
  match type of L with List.length ?x = _ => set (b' := x) in * end. rewrite L. destruct (Nat.ltb_spec (fst kv) (List.length b)).
  - rewrite upd_length. split; auto. intros j J. rewrite nth_upd.
    destruct (Nat.eqb_spec (fst kv) (List.length b - 1 - j)), (Nat.eqb_spec (List.length b - 1 - fst kv) j); try lia; [|apply IH; auto].
    destruct (nth_error b' j) eqn:E; auto. apply nth_error_None in E. lia.
  - split; auto. intros j J. destruct (Nat.eqb_spec (fst kv) (List.length b - 1 - j)); [lia|]. apply IH; auto.
Qed.
Example C22_alm_set_case : alm_set [[(1, 2)]; [(3, 4)]; [(5, 6)]] [(0, [7; 8]); (1, [9; 10]); (0, [11; 12]); (5, [13; 14])] = [[(1, 2)]; [(9, 10)]; [(11, 12)]].
Proof. reflexivity. Qed.
Theorem C22_alm_restore {F} (b : almbeam F) : alm_set b (alm_get b) = rev b.
Proof. apply alm_set_get. Qed.
Theorem C22_alm_refuted : exists b : almbeam nat, alm_get (alm_set b (alm_get b)) <> alm_get b.
Proof. exists [[(1, 2)]; [(3, 4)]]. vm_compute. discriminate. Qed.

(* ---- C22: antennas ---- *)
(* what get_params shows after set_params, for each parameter of each polarisation *)
Theorem C22_antenna {F} (w w' : world F) i d a p q :
  nth_error (w_ants w) i = Some a -> good_names (map fst (a_pols a)) ->
  NoDup (map (fun kp => p_off (snd kp)) (a_pols a)) ->
  (forall kp, In kp (a_pols a) -> p_off (snd kp) < List.length (w_heap w) /\ p_bpr (snd kp) < List.length (w_heap w) /\ p_bpi (snd kp) < List.length (w_heap w)) ->
  (forall k l, lookup k d = Some (ARef l) -> l < List.length (w_heap w)) ->
  ant_set w i d = Ok w' -> In (p, q) (a_pols a) ->
  (forall p q, In (p, q) (a_pols a) -> 2 <= List.length (new_content (w_heap w) a d (given d (name "phsoff" p) (p_off q)))) ->
  let offs := new_content (w_heap w) a d (given d (name "phsoff" p) (p_off q)) in
  reads w' i (name "phsoff" p) = Some (VList offs) /\
  (exists r dly off, offs = r ++ [dly; off] /\ reads w' i (name "dly" p) = Some (VNum dly) /\ reads w' i (name "off" p) = Some (VNum off)) /\
  reads w' i (name "bp_r" p) = Some (VList (new_content (w_heap w) a d (given d (name "bp_r" p) (p_bpr q)))) /\
  reads w' i (name "bp_i" p) = Some (VList (new_content (w_heap w) a d (given d (bpi_set_name p) (p_bpi q)))) /\
  reads w' i (name "amp" p) = Some (VNum (given_num d (name "amp" p) (p_amp q))) /\
  reads w' i "x" = Some (VNum (given_num d "x" (a_x a))) /\
  reads w' i "y" = Some (VNum (given_num d "y" (a_y a))) /\
  reads w' i "z" = Some (VNum (given_num d "z" (a_z a))).
Proof.
  intros E GN ND FT RB H HI L2 offs. apply ant_set_ok in H as (a' & E' & h' & Lh & _ & _ & C & ->). rewrite E in E'. injection E' as <-.
  specialize (C ND). 
  match goal with |- context [upd (w_ants w) i (if ?b then update_ant h' ?x else ?x)] => set (a1 := x) in *; set (ch := b) in *;
    set (a2 := if ch then update_ant h' a1 else a1) in * end.
  assert (I2 : nth_error (w_ants (World h' (upd (w_ants w) i a2))) i = Some a2).
  { cbn [w_ants]. rewrite nth_upd, Nat.eqb_refl, E. auto. }
  assert (N2 : map fst (a_pols a2) = map fst (a_pols a)).
  { unfold a2. destruct ch; cbn [update_ant a1 a_pols]; rewrite !map_map; [|reflexivity]. reflexivity. }
  assert (P2 : forall kp, In kp (a_pols a2) -> exists p0 q0, In (p0, q0) (a_pols a) /\ fst kp = p0 /\
     p_off (snd kp) = given d (name "phsoff" p0) (p_off q0) /\ p_bpr (snd kp) = given d (name "bp_r" p0) (p_bpr q0) /\
     p_bpi (snd kp) = given d (bpi_set_name p0) (p_bpi q0)).
  { intros kp HK. unfold a2 in HK. destruct ch.
    - cbn [update_ant a1 a_pols] in HK. rewrite map_map in HK. apply in_map_iff in HK as ([p0 q0] & <- & HK). exists p0, q0. auto.
    - cbn [a1 a_pols] in HK. apply in_map_iff in HK as ([p0 q0] & <- & HK). exists p0, q0. auto. }
  assert (HQ : exists q2, In (p, q2) (a_pols a2) /\ p_off q2 = given d (name "phsoff" p) (p_off q) /\ p_bpr q2 = given d (name "bp_r" p) (p_bpr q) /\
     p_bpi q2 = given d (bpi_set_name p) (p_bpi q) /\ p_amp q2 = given_num d (name "amp" p) (p_amp q)).
  { unfold a2. destruct ch.
    - eexists. split; [cbn [update_ant a1 a_pols]; rewrite map_map; apply in_map_iff; exists (p, q); split; [reflexivity|auto]|]. auto.
    - eexists. split; [cbn [a1 a_pols]; apply in_map_iff; exists (p, q); split; [reflexivity|auto]|]. auto. }
  assert (GB : forall k old, old < List.length (w_heap w) -> given d k old < List.length h').
  { intros k old HO. rewrite Lh. unfold given. destruct (lookup k d) as [[?|l]|] eqn:Q; auto. eapply RB; eauto. }
  assert (F2 : ant_fits (List.length h') a2).
  { apply Forall_forall. intros kp HK. unfold pset_below. destruct (P2 kp HK) as (p0 & q0 & HI0 & _ & -> & -> & ->).
    destruct (FT _ HI0) as (B1 & B2 & B3). cbn [snd] in *. auto. }
  assert (L2' : Forall (fun kp => 2 <= List.length (content h' (p_off (snd kp)))) (a_pols a2)).
  { apply Forall_forall. intros kp HK. destruct (P2 kp HK) as (p0 & q0 & HI0 & _ & -> & _). rewrite C. eapply L2; eauto. }
  destruct HQ as (q2 & HI2 & O2 & R2 & J2 & A2). rewrite <- N2 in GN.
  set (w2 := World h' (upd (w_ants w) i a2)) in *.
  assert (RD := fun b HB => reads_param w2 i a2 p q2 b I2 GN F2 L2' HI2 HB). cbn [w2 w_heap] in RD.
  destruct (reads_xyz w2 i a2 I2 L2') as (X & Y & Z).
  assert (XYZ : a_x a2 = given_num d "x" (a_x a) /\ a_y a2 = given_num d "y" (a_y a) /\ a_z a2 = given_num d "z" (a_z a)).
  { unfold a2. destruct ch; auto. } destruct XYZ as (X1 & Y1 & Z1).
  rewrite X1 in X. rewrite Y1 in Y. rewrite Z1 in Z.
  split; [rewrite RD by (simpl; tauto); cbn [shows String.eqb Ascii.eqb Bool.eqb]; rewrite O2, C; reflexivity|].
  split.
  { destruct (rev_two offs (L2 p q HI)) as (r & dl & of & EO). exists r, dl, of. split; auto.
    rewrite !RD by (simpl; tauto). cbn [shows String.eqb Ascii.eqb Bool.eqb]. unfold second_last, last_of.
    rewrite O2, C. fold offs. rewrite EO, rev_app_distr. split; reflexivity. }
  split; [rewrite RD by (simpl; tauto); cbn [shows String.eqb Ascii.eqb Bool.eqb]; rewrite R2, C; reflexivity|].
  split; [rewrite RD by (simpl; tauto); cbn [shows String.eqb Ascii.eqb Bool.eqb]; rewrite J2, C; reflexivity|].
  split; [rewrite RD by (simpl; tauto); cbn [shows String.eqb Ascii.eqb Bool.eqb]; rewrite A2; reflexivity|]. auto.
Qed.

(* pol.Antenna: the imaginary bandpass shown by get_params cannot be set under its name *)
Definition pol_world : world nat := World [[0; 0]; [1]; [0]; [7]] [AntP 0 0 0 [("x"%string, PSet 0 1 2 1 [0; 0] ([1], [0], 1))]].
Theorem C22_pol_bandpass_refuted :
  exists w', ant_set pol_world 0 [("bp_i_x"%string, ARef 3)] = Ok w' /\ reads w' 0 "bp_i_x" = reads pol_world 0 "bp_i_x" /\
             reads w' 0 "bp_i_x" <> Some (VList [7]).
Proof. eexists. split; [reflexivity|]. split; [reflexivity | discriminate]. Qed.
(* a delay given together with another phsoff list is lost *)
Theorem C22_delay_with_list_refuted :
  exists w', ant_set (World [[0; 0]; [1]; [0]; [3; 4]] [AntP 0 0 0 [(""%string, PSet 0 1 2 1 [0; 0] ([1], [0], 1))]]) 0
                     [("dly"%string, ANum 9); ("phsoff"%string, ARef 3)] = Ok w' /\ reads w' 0 "dly" = Some (VNum 3).
Proof. eexists. split; reflexivity. Qed.

(* ---- C23 ---- *)
Lemma run_inv {F} owner ops : forall (w w' : world F), inv owner w -> disciplined owner w ops -> wrun w ops = Ok w' -> inv owner w'.
Proof.
  induction ops as [|o ops IH]; intros w w' I D R; cbn [wrun] in R.
  - injection R as <-. auto.
  - destruct D as (U & B & D). destruct (wstep w o) as [w1|] eqn:S; [|discriminate]. cbn [bind] in R.
    destruct (step_inv owner w o w1 I U B S) as [I1 _]. eapply IH; eauto.
Qed.
Lemma start_inv {F} owner (z o : F) : inv owner (wstart z o).
Proof. intros i a E. cbn in E. destruct i; discriminate. Qed.
Lemma disciplined_app {F} owner ops o : forall (w w' : world F), disciplined owner w (ops ++ [o]) -> wrun w ops = Ok w' ->
  disciplined owner w ops /\ uses_ok owner (List.length (w_ants w')) o /\ refs_below (List.length (w_heap w')) o.
Proof.
  induction ops as [|x ops IH]; intros w w' D R; cbn [wrun app] in *.
  - injection R as <-. cbn [disciplined] in D. split; [exact I|]. tauto.
  - cbn [disciplined] in D. destruct D as (U & B & D). destruct (wstep w x) as [w1|] eqn:S; [|discriminate]. cbn [bind] in R.
    destruct (IH w1 w' (D w1 eq_refl) R) as (D1 & U1 & B1). split; auto. cbn [disciplined]. split; auto. split; auto.
    intros w2 E. rewrite S in E. injection E as <-. auto.
Qed.

(* if no list is used as the phase polynomial of two antennas (or polarisations) nor as a
   bandpass too, an operation on one antenna leaves every other antenna's parameters, phases
   and gains as they were *)
Theorem C23_independent {F} owner (zero one : F) ops o w w' j :
  disciplined owner (wstart zero one) (ops ++ [o]) -> wrun (wstart zero one) ops = Ok w -> wstep w o = Ok w' ->
  j < List.length (w_ants w) -> ~ on_antenna j o ->
  (forall k, reads w' j k = reads w j k) /\ in_effect w' j = in_effect w j.
Proof.
  intros D R S L N. destruct (disciplined_app owner ops o _ _ D R) as (D1 & U & B).
  assert (I := run_inv owner ops _ _ (start_inv owner zero one) D1 R).
  destruct (step_inv owner w o w' I U B S) as [_ K]. destruct (K j L N) as (a & E1 & E2 & A). split.
  - intros k. symmetry. eapply reads_ext; eauto.
  - unfold in_effect. rewrite E1, E2. auto.
Qed.

(* C51: the phases and gains in effect are those of the parameters shown *)
Theorem C51_parameters_in_effect {F} owner (zero one : F) ops w j l p ph r im am :
  disciplined owner (wstart zero one) ops -> wrun (wstart zero one) ops = Ok w ->
  in_effect w j = Some l -> good_names (map fst l) -> (forall x, In x l -> 2 <= List.length (fst (snd x))) ->
  In (p, (ph, (r, im, am))) l ->
  reads w j (name "phsoff" p) = Some (VList ph) /\ reads w j (name "bp_r" p) = Some (VList r) /\
  reads w j (name "bp_i" p) = Some (VList im) /\ reads w j (name "amp" p) = Some (VNum am).
Proof.
  intros D R E GN L2 HI. assert (I := run_inv owner ops _ _ (start_inv owner zero one) D R).
  unfold in_effect in E. destruct (nth_error (w_ants w) j) as [a|] eqn:EA; [|discriminate]. injection E as <-.
  specialize (I j a EA). rewrite map_map in GN. cbn [fst] in GN.
  apply in_map_iff in HI as ([p0 q] & EQ & HI). cbn [fst snd] in EQ. injection EQ as E1 E2 E3. subst p0.
  rewrite Forall_forall in I. destruct (I _ HI) as (_ & _ & F1 & F2). cbn [snd] in *.
  assert (FT : ant_fits (List.length (w_heap w)) a). { apply Forall_forall. intros kp HK. apply (I _ HK). }
  assert (L2' : Forall (fun kp => 2 <= List.length (content (w_heap w) (p_off (snd kp)))) (a_pols a)).
  { apply Forall_forall. intros kp HK. destruct (I _ HK) as (_ & _ & G1 & _). rewrite <- G1.
    apply (L2 (fst kp, (p_phs (snd kp), p_gain (snd kp)))). apply in_map_iff. exists kp. auto. }
  rewrite !(reads_param w j a p q) by (auto; simpl; tauto). cbn [shows String.eqb Ascii.eqb Bool.eqb].
  rewrite F2 in E3. injection E3 as <- <- <-. rewrite <- F1, E2. auto.
Qed.

(* set_params that names none of the antenna's parameters does nothing, in particular no update() *)
Theorem C51_nothing_set {F} (w : world F) i d a : nth_error (w_ants w) i = Some a ->
  (forall k, In k ["x"; "y"; "z"]%string -> lookup k d = None) ->
  (forall p q k, In (p, q) (a_pols a) -> In k [name "dly" p; name "off" p; name "phsoff" p; name "bp_r" p; bpi_set_name p; name "amp" p] -> lookup k d = None) ->
  ant_set w i d = Ok w.
Proof.
  intros E X P.
  assert (S : forall l h, (forall p q k, In (p, q) l -> In k [name "dly" p; name "off" p; name "phsoff" p; name "bp_r" p; bpi_set_name p; name "amp" p] -> lookup k d = None) ->
    psets_set h l d = Ok (h, l, false)).
  { induction l as [|[p q] l IH]; intros h H; auto. cbn [psets_set]. assert (N := fun k => H p q k (or_introl eq_refl)).
    unfold pset_set, poke, get_ref, get_num, present. cbn [existsb]. rewrite !N by (simpl; tauto). cbn [bind orb].
    rewrite IH by (intros p0 q0 k HI; apply (H p0 q0 k (or_intror HI))). destruct q. auto. }
  unfold ant_set. rewrite E. unfold get_num, present. cbn [existsb]. rewrite !X by (simpl; tauto). cbn [bind]. rewrite S by auto. cbn [bind orb].
  destruct a, w as [h ants]. cbn [w_ants w_heap] in *. do 2 f_equal. clear -E. revert i E. induction ants as [|b l IH]; intros [|i] E; cbn in *; try congruence.
  rewrite IH; auto.
Qed.
Example C51_nothing_set_case : ant_set (World [[8; 0]; [1]; [0]] [AntP 5 0 0 [(""%string, PSet 0 1 2 1 [0; 0] ([1], [0], 1))]]) 0 [("bm_xwidth"%string, ANum 3)]
  = Ok (World [[8; 0]; [1]; [0]] [AntP 5 0 0 [(""%string, PSet 0 1 2 1 [0; 0] ([1], [0], 1))]]).
Proof. reflexivity. Qed.

(* findings: all antennas built without a phsoff argument share one list *)
Definition two_defaults : list (wop nat) :=
  [WNew 0 0 0 [(""%string, NewP None None None 1)]; WNew 5 0 0 [(""%string, NewP None None None 1)]].
Theorem C23_default_argument_refuted :
  exists w w', wrun (wstart 0 1) two_defaults = Ok w /\ wstep w (WSet 0 [("dly"%string, ANum 8)]) = Ok w' /\
  reads w 1 "dly" = Some (VNum 0) /\ reads w' 1 "dly" = Some (VNum 8) /\
  (* and the phase in effect for antenna 1 is still the old one *)
  in_effect w' 1 = in_effect w 1.
Proof.
  exists (World [[0; 0]; [1]; [0]] [AntP 0 0 0 [(""%string, PSet 0 1 2 1 [0; 0] ([1], [0], 1))]; AntP 5 0 0 [(""%string, PSet 0 1 2 1 [0; 0] ([1], [0], 1))]]),
         (World [[8; 0]; [1]; [0]] [AntP 0 0 0 [(""%string, PSet 0 1 2 1 [8; 0] ([1], [0], 1))]; AntP 5 0 0 [(""%string, PSet 0 1 2 1 [0; 0] ([1], [0], 1))]]).
  vm_compute. repeat split.
Qed.
(* parameters read from one antenna and set on another tie the two together *)
Definition two_owned : list (wop nat) :=
  [WList [1; 2]; WList [3; 4]; WNew 0 0 0 [(""%string, NewP (Some 3) None None 1)]; WNew 5 0 0 [(""%string, NewP (Some 4) None None 1)]].
Definition got (r : res (world nat)) : world nat := match r with Ok w => w | Err => wstart 0 1 end.
Definition copied0 := Eval vm_compute in got (wrun (wstart 0 1) two_owned).
Definition copied1 := Eval vm_compute in match ant_get copied0 0 ["*"%string] with Ok x => x | Err => (wstart 0 1, []) end.
Definition copied2 := Eval vm_compute in got (ant_set (fst copied1) 1 (snd copied1)).
Definition copied3 := Eval vm_compute in got (ant_set copied2 0 [("dly"%string, ANum 8)]).
Theorem C23_copied_parameters_refuted :
  exists w w1 d w2 w3, wrun (wstart 0 1) two_owned = Ok w /\ ant_get w 0 ["*"%string] = Ok (w1, d) /\
  ant_set w1 1 d = Ok w2 /\ ant_set w2 0 [("dly"%string, ANum 8)] = Ok w3 /\
  reads w2 1 "dly" = Some (VNum 1) /\ reads w3 1 "dly" = Some (VNum 8).
Proof. exists copied0, (fst copied1), (snd copied1), copied2, copied3. vm_compute. repeat split. Qed.

(* ---- concrete cases ---- *)
Definition owner2 (l : loc) : option (nat * string) :=
  match l with 3 => Some (0, ""%string) | 4 => Some (1, ""%string) | _ => None end.
Definition hist : list (wop nat) := two_owned ++ [WSet 1 [("dly", ANum 6); ("amp", ANum 2)]%string; WGet 0 ["*"%string]].
Definition hist1 := Eval vm_compute in got (wrun (wstart 0 1) hist).
Definition hist2 := Eval vm_compute in got (wstep hist1 (WSet 0 [("off"%string, ANum 3)])).
Lemma lookup_in_list {A} (k : string) (v : A) d : lookup k d = Some v -> In v (map snd d).
Proof. induction d as [|[k2 v2] d IH]; [discriminate|]. cbn. destruct (String.eqb k k2); intros H; [injection H as <-; auto | auto]. Qed.
Ltac noref := let H := fresh in intros H; apply lookup_in_list in H; simpl in H; repeat (destruct H as [H|H]; [discriminate H|]); destruct H.
Example hist_ok : disciplined owner2 (wstart 0 1) (hist ++ [WSet 0 [("off"%string, ANum 3)]]) /\
  exists w w', wrun (wstart 0 1) hist = Ok w /\ wstep w (WSet 0 [("off"%string, ANum 3)]) = Ok w' /\
  reads w' 0 "off" = Some (VNum 3) /\ reads w' 1 "phsoff" = Some (VList [6; 4]) /\
  in_effect w' 1 = Some [(""%string, ([6; 4], ([1], [0], 2)))].
Proof.
  split.
  - cbn [hist two_owned app disciplined].
    split; [exact I|split; [exact I|]]. intros w1 E; injection E as <-.
    split; [exact I|split; [exact I|]]. intros w2 E; injection E as <-.
    split; [repeat constructor|split; [repeat constructor|]]. intros w3 E; injection E as <-.
    split; [repeat constructor|split; [repeat constructor|]]. intros w4 E; injection E as <-.
    split; [intros p; split; [|split]; intros l; noref|split; [intros k l; noref|]]. intros w5 E; injection E as <-.
    split; [exact I|split; [exact I|]]. intros w6 E; injection E as <-.
    split; [intros p; split; [|split]; intros l; noref|split; [intros k l; noref|]]. intros w7 E; injection E as <-.
    exact I.
  - exists hist1, hist2. vm_compute. repeat split.
Qed.
Example c22_case : In "jys"%string ["jys"; "index"; "ra"; "dec"; "a1"; "a2"; "th"; "dra"; "ddec"]%string /\
  lookup "jys" (fixed_get (fold_left fixed_set [[("jys", 4); ("ra", 1)]; [("ra", 2)]]%string (Src 0 0 0 0 0 0 0 0 0 1)) ["jys"%string]) = Some 4.
Proof. split; [simpl; auto | reflexivity]. Qed.
Example c22_catalog_case :
  let c := [("cyg", Src 0 0 0 0 0 0 0 0 0 1); ("cas", Src 1 0 0 0 0 0 0 0 0 1)]%string in
  NoDup (map fst c) /\ Forall (fun d : dict (dict nat) => NoDup (map fst d)) [[("cas", [("jys", 9)]); ("vir", [])]]%string /\
  option_map (lookup "jys") (lookup "cas" (cat_get (fold_left cat_set [[("cas", [("jys", 9)]); ("vir", [])]] c) [("*", ["*"])]))%string = Some (Some 9).
Proof.
  split; [repeat constructor; simpl; intuition discriminate|]. split; [|reflexivity].
  repeat constructor; simpl; intuition discriminate.
Qed.

Print Assumptions C22_fixed_source. Print Assumptions C22_special_source. Print Assumptions C22_mfreq_refuted.
Print Assumptions C22_requested_names. Print Assumptions C22_catalog. Print Assumptions C22_gaussian_beam.
Print Assumptions C22_gaussian_changed. Print Assumptions C22_polynomial_beam. Print Assumptions C22_polynomial_accepted. Print Assumptions C22_alm_set. Print Assumptions C22_polynomial_list_refuted.
Print Assumptions C22_alm_beam. Print Assumptions C22_alm_restore. Print Assumptions C22_alm_refuted.
Print Assumptions C22_antenna. Print Assumptions C22_pol_bandpass_refuted. Print Assumptions C22_delay_with_list_refuted.
Print Assumptions C23_independent. Print Assumptions C51_parameters_in_effect. Print Assumptions C51_nothing_set.
Print Assumptions C23_default_argument_refuted. Print Assumptions C23_copied_parameters_refuted.
