(* C31: add2array. C32: gridding and degridding (exact arithmetic). *)
From Coq Require Import Reals Lra Permutation.
From Verif Require Import Base CleanModel CleanSpec CleanProofs CleanProofs2 GridModel GridSpec GridProofs GridProofs2.
Ltac Zify.zify_post_hook ::= idtac.
Open Scope Z_scope.

Lemma valid_small shape : forall index, small_shape shape -> valid_index shape index -> small_index index.
Proof.
  intros index S [c H]. revert S. induction H; intros S; constructor.
  - inversion S; subst. lia. - inversion S; subst. apply IHaddresses. auto.
Qed.
Lemma valid_rows shape ind : small_shape shape -> Forall (valid_index shape) ind ->
  Forall (fun r => small_index r /\ length r = length shape) ind.
Proof. intros S. apply Forall_impl. intros r V. split; [eapply valid_small; eauto | destruct V as [c V]; eapply addresses_len; eauto]. Qed.
Lemma forall_combine {A B} (P : A -> Prop) (l : list A) (m : list B) : Forall P l -> Forall (fun r => P (fst r)) (combine l m).
Proof. intros H. revert m. induction H; intros [|y m]; cbn; constructor; auto. Qed.

(* every datum is added to the cell it addresses, in order; other cells are unchanged *)
Theorem C31_adds_every_datum {T} (add : T -> T -> T) shape (a : list Z -> T) ind data :
  Forall (fun d => 0 <= d <= 2147483648) shape -> length ind = length data -> Forall (valid_index shape) ind ->
  exists b, add2array add shape a ind data = Some (true, b) /\
  forall cell l, addressed shape cell (combine ind data) l -> b cell = fold_left add l (a cell).
Proof.
  intros S L V. unfold add2array. rewrite L, Nat.eqb_refl. pose proof (valid_rows shape ind S V) as R.
  replace (forallb _ ind) with true.
  2: { symmetry. apply forallb_forall. intros r I. apply Nat.eqb_eq. rewrite Forall_forall in R. apply R in I. tauto. }
  cbn [andb]. destruct (addloop_ok add shape (combine ind data) S) with (a := a) as (b & E & H).
  - apply (forall_combine (fun r => small_index r /\ length r = length shape)). auto.
  - apply (forall_combine (valid_index shape)). auto.
  - exists b. rewrite E. auto.
Qed.
(* every cell has such a list: the statement above covers all cells *)
Theorem C31_addressed_total {T} shape cell (rows : list (list Z * T)) : exists l, addressed shape cell rows l.
Proof.
  induction rows as [|[i x] rows [l IH]]; [exists []; constructor|].
  assert (D : {addresses shape i cell} + {~ addresses shape i cell}).
  { clear. revert i cell. induction shape as [|d shape IH]; intros i cell.
    - destruct i, cell; [left; constructor | right; intros H; inversion H ..].
    - destruct i as [|v i]; [right; intros H; inversion H|]. destruct cell as [|k cell]; [right; intros H; inversion H|].
      destruct (IH i cell) as [A|A]; [|right; intros H; inversion H; auto].
      destruct (Z_le_dec 0 k); [|right; intros H; inversion H; lia]. destruct (Z_lt_dec k d); [|right; intros H; inversion H; lia].
      destruct (Z.eq_dec v k); [left; constructor; auto; lia|]. destruct (Z.eq_dec v (k - d)); [left; constructor; auto; lia|].
      right; intros H; inversion H; lia. }
  destruct D; [exists (x :: l); constructor 2; auto | exists l; constructor 3; auto].
Qed.
(* an invalid index raises; what was addressed before it has been added, nothing after it *)
Theorem C31_invalid_raises {T} (add : T -> T -> T) shape (a : list Z -> T) good i bad dgood x dbad :
  Forall (fun d => 0 <= d <= 2147483648) shape -> length good = length dgood -> length bad = length dbad ->
  Forall (valid_index shape) good -> Forall (fun r => length r = length shape) (i :: bad) ->
  Forall (fun v => -2147483648 <= v < 2147483648) i -> ~ valid_index shape i ->
  exists b, add2array add shape a (good ++ i :: bad) (dgood ++ x :: dbad) = Some (false, b) /\
            add2array add shape a good dgood = Some (true, b).
Proof.
  intros S L1 L2 V LB SI NV. destruct (C31_adds_every_datum add shape a good dgood S L1 V) as (b & E & _). exists b. split; auto.
  unfold add2array in *. pose proof (valid_rows shape good S V) as R.
  replace (Nat.eqb (length (good ++ i :: bad)) (length (dgood ++ x :: dbad))) with true by (symmetry; apply Nat.eqb_eq; rewrite !app_length; cbn; lia).
  replace (forallb _ (good ++ i :: bad)) with true.
  2: { symmetry. apply forallb_forall. intros r I. apply Nat.eqb_eq. apply in_app_iff in I as [I|I].
       - rewrite Forall_forall in R. apply R in I. tauto. - rewrite Forall_forall in LB. auto. }
  cbn [andb]. destruct (_ && _) in E; [|discriminate]. injection E as E.
  replace (combine (good ++ i :: bad) (dgood ++ x :: dbad)) with (combine good dgood ++ (i, x) :: combine bad dbad).
  2: { clear - L1. revert dgood L1. induction good as [|g good IH]; intros [|d dgood] L; try discriminate; cbn; auto. f_equal. apply IH. auto. }
  rewrite addloop_bad; auto; [rewrite E; auto| |apply (forall_combine (valid_index shape)); auto].
  apply Forall_app. split; [apply (forall_combine (fun r => small_index r /\ length r = length shape)); auto|].
  constructor; [|constructor]. cbn. split; auto. inversion LB; auto.
Qed.
(* finding: indices are truncated to 32 bits, so 2^32 is accepted and addresses cell 0 *)
Theorem C31_long_index_refuted : exists b, add2array Z.add [2] (fun _ => 0) [[4294967296]] [5] = Some (true, b) /\ b [0] = 5 /\ ~ valid_index [2] [4294967296].
Proof.
  eexists. split; [vm_compute; reflexivity|]. split; [reflexivity|]. intros [c H]. inversion H; subst. lia.
Qed.
Example C31_case : Forall (fun d => 0 <= d <= 2147483648) [2; 3] /\ Forall (valid_index [2; 3]) [[1; 2]; [-1; -1]; [0; 0]] /\
  addressed [2; 3] [1; 2] (combine [[1; 2]; [-1; -1]; [0; 0]] [10; 20; 40]) [10; 20].
Proof.
  split; [repeat constructor; lia|]. split.
  - repeat constructor; [exists [1; 2] | exists [1; 2] | exists [0; 0]]; repeat constructor; lia.
  - cbn. constructor 2; [repeat constructor; lia|]. constructor 2; [repeat constructor; lia|]. constructor 3; [|constructor].
    intros H. inversion H; lia.
Qed.

(* ---------------- C32 ---------------- *)
Open Scope R_scope.
(* `W f` lists the integers within h of f (rounded outwards), h half the footprint *)
Definition windows (h : Z) (W : R -> list Z) : Prop := forall f, is_window f h (W f).
(* a ring of n cells *)
Theorem C32_grid1D n fp W samples buf : (0 < n)%Z -> windows (Z.quot fp 2) W ->
  exists buf', grid1D n fp samples buf = Ok buf' /\
  (forall a, buf' a = cadd (buf a) (csum samples (fun '(f, d) => cscale (foot1 n (W f) f a) d))) /\
  csum (ring n) buf' = cadd (csum (ring n) buf) (csum samples (fun '(f, d) => cscale (rsum (W f) (fun j => gauss1 (f - IZR j))) d)).
Proof.
  intros N HW. destruct (grid1D_sum n fp samples buf N) as (b & E & H). exists b. split; auto.
  assert (H' : forall a, b a = cadd (buf a) (csum samples (fun '(f, d) => cscale (foot1 n (W f) f a) d))).
  { intros a. rewrite H. f_equal. apply csum_ext. intros [f d] _. cbn [fst snd]. f_equal. apply foot1_perm. apply (window_perm f (fp ÷ 2)); [apply taps_window | apply HW]. }
  split; auto.
  transitivity (csum (ring n) (fun a => cadd (buf a) (csum samples (fun '(f, d) => cscale (foot1 n (W f) f a) d)))). { apply csum_ext. auto. }
  transitivity (cadd (csum (ring n) buf) (csum (ring n) (fun a => csum samples (fun '(f, d) => cscale (foot1 n (W f) f a) d)))).
  { unfold csum, cadd. cbn [fst snd]. f_equal; apply rsum_plus. }
  f_equal. rewrite csum_swap. apply csum_ext. intros [f d] _. rewrite csum_scale. f_equal. apply foot1_total. auto.
Qed.
(* a square of n*n cells, cell (a, b) at offset a*n+b *)
Theorem C32_grid2D n fp W samples buf : (0 < n)%Z -> windows (Z.quot fp 2) W ->
  exists buf', grid2D n n fp samples buf = Ok buf' /\
  (forall a b, (0 <= a < n)%Z -> (0 <= b < n)%Z ->
     buf' (a * n + b)%Z = cadd (buf (a * n + b)%Z) (csum samples (fun '(f1, f2, d) => cscale (foot2 n (W f1) (W f2) f1 f2 a b) d))).
Proof.
  intros N HW. destruct (grid2D_sum n fp samples buf N) as (b & E & H). exists b. split; auto.
  intros a c A B. rewrite H by auto. f_equal. apply csum_ext. intros [[f1 f2] d] _. cbn [fst snd]. f_equal.
  apply foot2_perm; (eapply window_perm; [apply taps_window | apply HW]).
Qed.
(* the grid's sum grows by the data, each times the total of its weights *)
Theorem C32_grid2D_total n fp W samples buf buf' : (0 < n)%Z -> windows (Z.quot fp 2) W -> grid2D n n fp samples buf = Ok buf' ->
  csum (ring n) (fun a => csum (ring n) (fun b => buf' (a * n + b)%Z)) =
  cadd (csum (ring n) (fun a => csum (ring n) (fun b => buf (a * n + b)%Z))) (csum samples (fun '(f1, f2, d) => cscale (total2 (W f1) (W f2) f1 f2) d)).
Proof.
  intros N HW E. destruct (C32_grid2D n fp W samples buf N HW) as (b & E' & H). rewrite E in E'. injection E' as <-.
  transitivity (csum (ring n) (fun a => csum (ring n) (fun b => cadd (buf (a * n + b)%Z) (csum samples (fun '(f1, f2, d) => cscale (foot2 n (W f1) (W f2) f1 f2 a b) d))))).
  { apply csum_ext. intros a A. apply csum_ext. intros c B. apply in_ring in A, B. auto. }
  transitivity (cadd (csum (ring n) (fun a => csum (ring n) (fun b => buf (a * n + b)%Z)))
     (csum (ring n) (fun a => csum (ring n) (fun b => csum samples (fun '(f1, f2, d) => cscale (foot2 n (W f1) (W f2) f1 f2 a b) d))))).
  { unfold csum, cadd. cbn [fst snd]. f_equal; rewrite <- rsum_plus; apply rsum_ext; intros; rewrite <- rsum_plus; reflexivity. }
  f_equal. transitivity (csum (ring n) (fun a => csum samples (fun s => csum (ring n) (fun b => let '(f1, f2, d) := s in cscale (foot2 n (W f1) (W f2) f1 f2 a b) d)))).
  { apply csum_ext. intros. apply csum_swap. }
  rewrite csum_swap. apply csum_ext. intros [[f1 f2] d] _.
  transitivity (csum (ring n) (fun a => cscale (rsum (ring n) (fun b => foot2 n (W f1) (W f2) f1 f2 a b)) d)). { apply csum_ext. intros. apply csum_scale. }
  rewrite csum_scale. f_equal. apply foot2_total. auto.
Qed.
(* degridding from a zeroed output: the weighted mean of the cells with the same weights *)
Theorem C32_degrid2D n fp W buf samples : (0 < n)%Z -> (0 <= fp)%Z -> windows (Z.quot fp 2) W ->
  degrid2D n n fp buf (map (fun '(f1, f2) => (f1, f2, (0, 0))) samples) =
  Ok (map (fun '(f1, f2) => cscale (/ total2 (W f1) (W f2) f1 f2)
        (csum (ring n) (fun a => csum (ring n) (fun b => cscale (foot2 n (W f1) (W f2) f1 f2 a b) (buf (a * n + b)%Z))))) samples) /\
  (forall f1 f2, 0 < total2 (W f1) (W f2) f1 f2).
Proof.
  intros N F HW. assert (P : forall f, Permutation (taps f fp) (W f)) by (intros f; eapply window_perm; [apply taps_window | apply HW]).
  split; [|intros f1 f2; rewrite <- (total2_perm _ _ _ _ f1 f2 (P f1) (P f2)); apply total2_pos; auto].
  induction samples as [|[f1 f2] samples IH]; cbn [map degrid2D]; auto.
  rewrite degrid1_ok by auto. cbn [bind]. rewrite IH. cbn [bind]. do 2 f_equal. rewrite degrid_sum by auto.
  rewrite (total2_perm _ _ _ _ f1 f2 (P f1) (P f2)). f_equal.
  rewrite <- (cadd_0_r (csum (ring n) (fun a => csum (ring n) (fun b => cscale (foot2 n (W f1) (W f2) f1 f2 a b) (buf (a * n + b)%Z))))).
  replace (cadd (0, 0) _) with (cadd (csum (ring n) (fun a => csum (ring n) (fun b => cscale (foot2 n (taps f1 fp) (taps f2 fp) f1 f2 a b) (buf (a * n + b)%Z)))) (0, 0)).
  2: { unfold cadd. cbn [fst snd]. f_equal; ring. }
  f_equal. apply csum_ext. intros a _. apply csum_ext. intros b _. f_equal. apply foot2_perm; apply P.
Qed.
(* a constant grid degrids to the constant *)
Theorem C32_degrid_constant n fp buf samples v : (0 < n)%Z -> (0 <= fp)%Z ->
  (forall a b, (0 <= a < n)%Z -> (0 <= b < n)%Z -> buf (a * n + b)%Z = v) ->
  degrid2D n n fp buf (map (fun '(f1, f2) => (f1, f2, (0, 0))) samples) = Ok (map (fun _ => v) samples).
Proof.
  intros N F HB. destruct (C32_degrid2D n fp (fun f => taps f fp) buf samples N F (fun f => taps_window f fp)) as [E P]. rewrite E. clear E. f_equal.
  apply map_ext. intros [f1 f2]. specialize (P f1 f2).
  replace (csum (ring n) _) with (cscale (total2 (taps f1 fp) (taps f2 fp) f1 f2) v).
  - destruct v. unfold cscale. cbn [fst snd]. f_equal; field; lra.
  - rewrite <- (foot2_total n) by auto. rewrite <- csum_scale. apply csum_ext. intros a A. rewrite <- csum_scale. apply csum_ext. intros b B.
    apply in_ring in A, B. rewrite HB; auto.
Qed.
(* gridding onto zeros and degridding are transposes, up to the normalisation *)
Theorem C32_transpose n fp W samples g buf' out : (0 < n)%Z -> (0 <= fp)%Z -> windows (Z.quot fp 2) W ->
  grid2D n n fp samples (fun _ => (0, 0)) = Ok buf' ->
  degrid2D n n fp g (map (fun '(f1, f2, _) => (f1, f2, (0, 0))) samples) = Ok out ->
  csum (ring n) (fun a => csum (ring n) (fun b => cmul (buf' (a * n + b)%Z) (g (a * n + b)%Z))) =
  csum (combine samples out) (fun '((f1, f2, d), o) => cmul (cscale (total2 (W f1) (W f2) f1 f2) d) o).
Proof.
  intros N F HW E1 E2. destruct (C32_grid2D n fp W samples (fun _ => (0, 0)) N HW) as (b0 & E' & H). rewrite E1 in E'. injection E' as <-.
  replace (map (fun '(f1, f2, _) => (f1, f2, (0, 0))) samples) with (map (fun '(f1, f2) => (f1, f2, ((0, 0) : C))) (map fst samples)) in E2.
  2: { rewrite map_map. apply map_ext. intros [[f1 f2] d]. auto. }
  destruct (C32_degrid2D n fp W g (map fst samples) N F HW) as [E3 P]. pose proof (eq_trans (eq_sym E2) E3) as E4. injection E4 as ->. clear E2.
  transitivity (csum (ring n) (fun a => csum (ring n) (fun b => csum samples (fun '(f1, f2, d) => cmul (cscale (foot2 n (W f1) (W f2) f1 f2 a b) d) (g (a * n + b)%Z))))).
  { apply csum_ext. intros a A. apply csum_ext. intros b B. apply in_ring in A, B. rewrite H by auto.
    replace (cadd (0, 0) _) with (csum samples (fun '(f1, f2, d) => cscale (foot2 n (W f1) (W f2) f1 f2 a b) d)).
    2: { unfold cadd, csum. cbn [fst snd]. f_equal; ring. }
    generalize (g (a * n + b)%Z). intros z. clear. induction samples as [|[[f1 f2] d] samples IH]; [unfold csum, cmul; cbn; f_equal; ring|].
    rewrite !csum_cons, <- IH. generalize (csum samples (fun '(f1, f2, d) => cscale (foot2 n (W f1) (W f2) f1 f2 a b) d)). intros y. cring. }
  transitivity (csum samples (fun '(f1, f2, d) => cmul d (csum (ring n) (fun a => csum (ring n) (fun b => cscale (foot2 n (W f1) (W f2) f1 f2 a b) (g (a * n + b)%Z)))))).
  { transitivity (csum (ring n) (fun a => csum samples (fun s => csum (ring n) (fun b => let '(f1, f2, d) := s in cmul (cscale (foot2 n (W f1) (W f2) f1 f2 a b) d) (g (a * n + b)%Z))))).
    { apply csum_ext. intros. apply csum_swap. }
    rewrite csum_swap. apply csum_ext. intros [[f1 f2] d] _.
    assert (L : forall (X : Type) (l : list X) (h : X -> C), cmul d (csum l h) = csum l (fun x => cmul d (h x))).
    { clear. intros X l h. induction l as [|x l IH]; [unfold csum, cmul; cbn; f_equal; ring|]. rewrite !csum_cons, <- IH. generalize (csum l h), (h x). intros y w. cring. }
    rewrite L. apply csum_ext. intros a _. rewrite L. apply csum_ext. intros b _. generalize (foot2 n (W f1) (W f2) f1 f2 a b), (g (a * n + b)%Z). intros r z. cring. }
  clear H E1 E3. induction samples as [|[[f1 f2] d] samples IH]; [reflexivity|]. cbn [map combine fst]. rewrite !csum_cons, IH. f_equal.
  specialize (P f1 f2). generalize (csum (ring n) (fun a => csum (ring n) (fun b => cscale (foot2 n (W f1) (W f2) f1 f2 a b) (g (a * n + b)%Z)))). intros z.
  destruct d, z. unfold cmul, cscale. cbn [fst snd]. f_equal; field; lra.
Qed.
Example C32_windows_exist : windows 3 (fun f => taps f 6).
Proof. intros f. apply (taps_window f 6). Qed.

(* ---- findings ---- *)
(* the weights of a sample do not sum to one: at an integer coordinate, default footprint, they exceed it *)
Lemma exp_m2 : / 7.7 < exp (- 2).
Proof.
  assert (U : exp (/ 32) <= 32 / 31).
  { pose proof (exp_ineq1_le (- / 32)) as L. rewrite exp_Ropp in L. pose proof (exp_pos (/ 32)) as P.
    apply Rmult_le_reg_l with (/ exp (/ 32)); [apply Rinv_0_lt_compat; auto|]. rewrite Rinv_l by lra.
    apply Rle_trans with ((1 + - / 32) * (32 / 31)); [lra|]. apply Rmult_le_compat_r; lra. }
  assert (D : forall x b, exp x <= b -> exp (x + x) <= b * b).
  { intros x b H. rewrite exp_plus. pose proof (exp_pos x). apply Rmult_le_compat; lra. }
  pose proof (D _ _ U) as U1. assert (U1' : exp (/ 16) <= 1.0657). { replace (/ 16) with (/ 32 + / 32) by lra. lra. }
  pose proof (D _ _ U1') as U2. assert (U2' : exp (/ 8) <= 1.1358). { replace (/ 8) with (/ 16 + / 16) by lra. lra. }
  pose proof (D _ _ U2') as U3. assert (U3' : exp (/ 4) <= 1.2901). { replace (/ 4) with (/ 8 + / 8) by lra. lra. }
  pose proof (D _ _ U3') as U4. assert (U4' : exp (/ 2) <= 1.6644). { replace (/ 2) with (/ 4 + / 4) by lra. lra. }
  pose proof (D _ _ U4') as U5. assert (U5' : exp 1 <= 2.7703). { replace 1 with (/ 2 + / 2) at 1 by lra. lra. }
  pose proof (D _ _ U5') as U6. assert (U6' : exp 2 <= 7.68). { replace 2 with (1 + 1) at 1 by lra. lra. }
  replace (- 2) with (Ropp 2) by ring. rewrite exp_Ropp. apply Rinv_lt_contravar; [|lra]. apply Rmult_lt_0_compat; [apply exp_pos | lra].
Qed.
Theorem C32_weights_sum_refuted : 1 < rsum (taps 0 6) (fun j => gauss1 (0 - IZR j)) /\
  exists n buf', grid1D n 6 [(0, (1, 0))] (fun _ => (0, 0)) = Ok buf' /\ 1 < fst (csum (ring n) buf').
Proof.
  assert (S : 1 < rsum (taps 0 6) (fun j => gauss1 (0 - IZR j))).
  { assert (P : Permutation (taps 0 6) (zrange (-3) 3)).
    { eapply window_perm; [apply taps_window|]. split; [apply zrange_nodup|]. intros j. rewrite zrange_in. unfold in_window. change (6 ÷ 2)%Z with 3%Z. split.
      - intros [A B]. apply IZR_le in A, B. lra.
      - intros [A B]. split; [apply Z.lt_succ_r, lt_IZR; rewrite succ_IZR; lra | apply Z.lt_succ_r, lt_IZR; rewrite succ_IZR; lra]. }
    rewrite (rsum_perm _ _ _ P). change (zrange (-3) 3) with [-3; -2; -1; 0; 1; 2; 3]%Z. cbn [rsum]. unfold gauss1.
    replace (- 2 * ((0 - 0) * (0 - 0))) with 0 by ring. rewrite exp_0.
    replace (- 2 * ((0 - 1) * (0 - 1))) with (- 2) by ring. replace (- 2 * ((0 - -1) * (0 - -1))) with (- 2) by ring.
    pose proof exp_m2. pose proof (exp_pos (- 2 * ((0 - -3) * (0 - -3)))). pose proof (exp_pos (- 2 * ((0 - -2) * (0 - -2)))).
    pose proof (exp_pos (- 2 * ((0 - 2) * (0 - 2)))). pose proof (exp_pos (- 2 * ((0 - 3) * (0 - 3)))). lra. }
  split; auto. exists 8%Z. destruct (C32_grid1D 8 6 (fun f => taps f 6) [(0, (1, 0))] (fun _ => (0, 0))) as (b & E & _ & T); [lia | apply C32_windows_exist |].
  exists b. split; auto. rewrite T. unfold csum, cadd, cscale. cbn [fst snd rsum]. rewrite rsum_const0 by auto.
  change (rsum (taps 0 6) (fun j => gauss1 (0 - IZR j))) with (rsum (taps 0 6) (fun j => gauss1 (0 - IZR j))) in *.
  generalize dependent (rsum (taps 0 6) (fun j => gauss1 (0 - IZR j))). intros r S. lra.
Qed.
(* a buffer that is not square is addressed with the wrong row length: cells of other rows
   are written, or memory outside the buffer *)
Lemma taps_int0 (z : Z) : Permutation (taps (IZR z) 0) [z].
Proof.
  eapply window_perm; [apply taps_window|]. split; [repeat constructor; auto|]. intros j. unfold in_window. change (0 ÷ 2)%Z with 0%Z. cbn [In]. split.
  - intros [->|[]]. lra.
  - intros [A B]. left. assert (z - 1 < j)%Z by (apply lt_IZR; rewrite minus_IZR; lra). assert (j < z + 1)%Z by (apply lt_IZR; rewrite plus_IZR; lra). lia.
Qed.
Theorem C32_not_square_refuted : grid2D 3 1 0 [(2, 0, (1, 0))] (fun _ => (0, 0)) = Err /\
  exists buf', grid2D 2 3 0 [(1, 0, (1, 0))] (fun _ => (0, 0)) = Ok buf' /\ fst (buf' 2%Z) <> 0 /\ buf' (1 * 3 + 0)%Z = (0, 0).
Proof.
  assert (T0 : taps 0 0 = [0%Z]) by (apply Permutation_length_1_inv, Permutation_sym, (taps_int0 0)).
  assert (T1 : taps 1 0 = [1%Z]) by (apply Permutation_length_1_inv, Permutation_sym, (taps_int0 1)).
  assert (T2 : taps 2 0 = [2%Z]) by (apply Permutation_length_1_inv, Permutation_sym, (taps_int0 2)).
  split.
  - unfold grid2D, foldr_ok. cbn [fold_left bind]. rewrite T0, T2. cbn [fold_left bind]. reflexivity.
  - unfold grid2D, foldr_ok. cbn [fold_left bind]. rewrite T0, T1. cbn [fold_left bind].
    unfold put1. change (inb (2 * 3) (jmod 1 2 * 2 + jmod 0 3)) with true. cbv iota. eexists. split; [reflexivity|].
    change (jmod 1 2 * 2 + jmod 0 3)%Z with 2%Z. unfold upd. cbn [Z.eqb]. split; [|reflexivity].
    cbn. pose proof (gauss2_pos (1 - 1) (0 - 0)). unfold wgt2, gauss2 in *. lra.
Qed.
(* degridding adds to what the output array held before *)
Theorem C32_degrid_initial_refuted : exists n buf f1 f2 d, degrid2D n n 6 buf [(f1, f2, d)] <> degrid2D n n 6 buf [(f1, f2, (0, 0))].
Proof.
  exists 4%Z, (fun _ => (0, 0)), 0, 0, (1, 0). generalize (fun _ : Z => ((0, 0) : C)). intros buf. cbn [degrid2D].
  rewrite !degrid1_ok by lia. cbn [bind].
  pose proof (total2_pos 0 0 6 ltac:(lia)) as P. apply Rinv_0_lt_compat in P. intros H.
  match type of H with context [cadd (0, 0) ?s] => generalize dependent s end. intros [x y] H. unfold cscale, cadd in H. cbn [fst snd] in H.
  injection H as H. generalize dependent (/ total2 (taps 0 6) (taps 0 6) 0 0). intros r P H. lra.
Qed.
Print Assumptions C31_adds_every_datum. Print Assumptions C31_addressed_total. Print Assumptions C31_invalid_raises. Print Assumptions C31_long_index_refuted.
Print Assumptions C32_grid1D. Print Assumptions C32_grid2D. Print Assumptions C32_grid2D_total. Print Assumptions C32_degrid2D. Print Assumptions C32_degrid_constant.
Print Assumptions C32_transpose. Print Assumptions C32_weights_sum_refuted. Print Assumptions C32_not_square_refuted. Print Assumptions C32_degrid_initial_refuted.
