From Coq Require Import Reals Lra Permutation Sorted.
From Verif Require Import Base CleanModel CleanSpec CleanProofs CleanProofs2 GridModel GridSpec GridProofs GridProofs2 ImgModel ImgSpec ImgProofs ImgProofs2.
Ltac Zify.zify_post_hook ::= idtac.
Open Scope R_scope.

Lemma map_repeat_c {A B} (f : A -> B) x n : map f (repeat x n) = repeat (f x) n.
Proof. induction n; cbn; congruence. Qed.
Definition ind_of (rs : R) (p : R * R * R) : R * R := let '(u, v, _) := p in get_indices rs u v.
Lemma ind_mirror rs p : ind_of rs (mirror p) = neg2 (ind_of rs p).
Proof. destruct p as [[u v] w]. unfold ind_of, mirror, get_indices, neg2, Rdiv. cbn. f_equal; ring. Qed.
Lemma grid_all_herm n inds : (0 < n)%Z -> forall wgts bm, length wgts = length bm ->
  Forall (fun l => length l = length inds /\ Forall (fun z : C => snd z = 0) l) wgts -> Forall (hermitian n) bm ->
  exists bm', grid_all n (inds ++ map neg2 inds) (map (fun l => l ++ l) wgts) bm = Ok bm' /\ length bm' = length bm /\ Forall (hermitian n) bm'.
Proof.
  intros N. induction wgts as [|l wgts IH]; intros [|b bm] L F H; try discriminate; cbn [map grid_all].
  - exists []. auto.
  - inversion F as [|? ? [FL FR] F']; inversion H as [|? ? HB H']; subst.
    assert (RE : map cconjugate l = l).
    { clear - FR. induction FR as [|[x y] l E _ IH]; cbn; auto. cbn in E. rewrite IH. unfold cconjugate. cbn. rewrite E. do 2 f_equal. ring. }
    cbv beta. replace (l ++ l) with (l ++ map cconjugate l) by (rewrite RE; auto). destruct (grid_herm n inds l b N (eq_sym FL) HB) as (b' & E & HB'). rewrite E. cbn [bind].
    destruct (IH bm ltac:(auto) F' H') as (bm' & E2 & L2 & H2). rewrite E2. cbn [bind]. exists (b' :: bm'). split; auto. split; [cbn; auto | constructor; auto].
Qed.
Lemma put_herm im uvw data w ws uvw2 data2 w2 : (0 < i_n im)%Z -> length data = length uvw -> (0 < length (i_bm im))%nat ->
  (w = WNone \/ (norm_wgts (length (i_bm im)) (length data) w = Ok ws /\ Forall (fun l => length l = length uvw /\ Forall (fun z : C => snd z = 0) l) ws)) ->
  hermitian (i_n im) (i_uv im) -> Forall (hermitian (i_n im)) (i_bm im) ->
  append_hermitian (length (i_bm im)) uvw data w = Ok (uvw2, data2, w2) ->
  exists im', put im uvw2 data2 w2 = Ok im' /\ i_n im' = i_n im /\ hermitian (i_n im) (i_uv im') /\ Forall (hermitian (i_n im)) (i_bm im').
Proof.
  intros N L NB W HU HB E. unfold put.
  assert (X : exists ws', uvw2 = uvw ++ map mirror uvw /\ data2 = data ++ map cconjugate data /\
    norm_wgts (length (i_bm im)) (length data2) w2 = Ok (map (fun l => l ++ l) ws') /\ length ws' = length (i_bm im) /\
    Forall (fun l => length l = length uvw /\ Forall (fun z : C => snd z = 0) l) ws').
  { destruct W as [->|[W1 W2]].
    - unfold append_hermitian in E. injection E as <- <- <-. exists (repeat (1, 0) (length data) :: repeat (repeat (0, 0) (length data)) (length (i_bm im) - 1)).
      split; auto. split; auto. split.
      { cbn [norm_wgts map]. rewrite app_length, map_length. rewrite <- repeat_app. rewrite map_repeat_c. rewrite <- repeat_app. reflexivity. }
      split; [cbn; rewrite repeat_length; lia|]. constructor.
      { rewrite repeat_length. split; auto. apply Forall_forall. intros z Z. apply repeat_spec in Z. subst. auto. }
      apply Forall_forall. intros l Z. apply repeat_spec in Z. subst l. rewrite repeat_length. split; auto. apply Forall_forall. intros z Z. apply repeat_spec in Z. subst. auto.
    - assert (NL : length ws = length (i_bm im)).
      { unfold norm_wgts in W1. destruct w as [|l|ls].
        - injection W1 as <-. cbn. rewrite repeat_length. lia.
        - destruct (Nat.eqb_spec (length (i_bm im)) 1) as [->|]; [|discriminate]. destruct (negb _); [|discriminate]. injection W1 as <-. auto.
        - destruct (Nat.eqb_spec (length ls) (length (i_bm im))); [|discriminate]. injection W1 as <-. auto. }
      assert (E' : uvw2 = uvw ++ map mirror uvw /\ data2 = data ++ map cconjugate data /\ (w2 = WList (map (fun l => l ++ l) ws) \/ w = WNone)).
      { unfold append_hermitian in E. destruct w; [injection E as <- <- <-; auto| |]; rewrite W1 in E; cbn [bind] in E; injection E as <- <- <-; auto. }
      destruct E' as (E1 & E2 & E3). destruct E3 as [-> | ->].
      + exists ws. split; auto. split; auto. split; [|split; auto]. cbn [norm_wgts]. rewrite map_length, NL, Nat.eqb_refl. auto.
      + cbn [norm_wgts] in W1. injection W1 as <-. unfold append_hermitian in E. injection E as <- <- <-.
        exists (repeat (1, 0) (length data) :: repeat (repeat (0, 0) (length data)) (length (i_bm im) - 1)). split; auto. split; auto. split; auto.
        cbn [norm_wgts map]. rewrite app_length, map_length. rewrite <- repeat_app. rewrite map_repeat_c. rewrite <- repeat_app. reflexivity. }
  destruct X as (ws' & -> & -> & E2 & L2 & F2). rewrite E2. cbn [bind]. unfold put_on.
  assert (EI : map (fun '(u, v, _) => get_indices (i_res im) u v) (uvw ++ map mirror uvw) = map (ind_of (i_res im)) uvw ++ map neg2 (map (ind_of (i_res im)) uvw)).
  { rewrite map_app, !map_map. f_equal. apply map_ext. intros p. apply (ind_mirror (i_res im) p). }
  rewrite EI. destruct (grid_herm (i_n im) (map (ind_of (i_res im)) uvw) data (i_uv im) N) as (uv' & EU & HU'); auto. { rewrite map_length. auto. }
  cbn [fst snd]. rewrite EU. cbn [bind].
  destruct (grid_all_herm (i_n im) (map (ind_of (i_res im)) uvw) N ws' (i_bm im) L2) as (bm' & EB & LB & HB'); auto.
  { apply Forall_impl with (2 := F2). intros l. rewrite map_length. auto. }
  rewrite EB. cbn [bind]. eexists. split; [reflexivity|]. cbn. auto.
Qed.
(* ---------------- chunks ---------------- *)
Lemma ss_le l x : (searchsorted l x <= length l)%nat.
Proof. induction l as [|y l IH]; cbn; auto. destruct (Rltb y x); lia. Qed.
Lemma ss_spec l x : StronglySorted Rle l -> forall i, (i < length l)%nat -> ((i < searchsorted l x)%nat <-> nth i l 0 < x).
Proof.
  induction 1 as [|y l SS IH F]; intros i I; cbn in I; [lia|]. cbn [searchsorted]. destruct (Rltb y x) eqn:E.
  - apply Rltb_true in E. destruct i as [|i]; cbn [nth]; [split; intros; [lra | lia]|]. assert (I' : (i < length l)%nat) by lia. rewrite <- (IH i I'). lia.
  - apply Rltb_false in E. split; [lia|]. intros H. destruct i as [|i]; cbn [nth] in H; [lra|].
    rewrite Forall_forall in F. assert (I' : (i < length l)%nat) by lia. specialize (F (nth i l 0) (nth_In _ _ I')). lra.
Qed.
Fixpoint tiles (i n : nat) (cs : list (nat * nat)) : Prop :=
  match cs with [] => i = n | (a, b) :: cs => a = i /\ (i < b <= n)%nat /\ tiles b n cs end.
Lemma chunks_ok wres sq : 0 < wres -> StronglySorted Rle sq -> forall fuel i, (i < length sq)%nat -> (length sq - i <= fuel)%nat ->
  exists cs, chunks fuel wres sq i = Some cs /\ tiles i (length sq) cs /\
    Forall (fun '(a, b) => forall p q, (a <= p < b)%nat -> (a <= q < b)%nat -> nth q sq 0 - nth p sq 0 < wres) cs.
Proof.
  intros W S. induction fuel as [|fuel IH]; intros i I F; [lia|]. cbn [chunks].
  set (j := searchsorted sq (nth i sq 0 + wres)). pose proof (ss_le sq (nth i sq 0 + wres)) as JL. fold j in JL.
  assert (IJ : (i < j)%nat) by (apply ss_spec; auto; lra).
  assert (NA : forall p q, (i <= p < j)%nat -> (i <= q < j)%nat -> nth q sq 0 - nth p sq 0 < wres).
  { intros p q P Q. assert (nth q sq 0 < nth i sq 0 + wres) by (apply ss_spec; auto; [lia | apply Q]).
    assert (nth i sq 0 <= nth p sq 0); [|lra]. destruct (Nat.eq_dec i p) as [->|]; [lra|]. clear - S P n JL.
    assert (L : (p < length sq)%nat) by lia. assert (H : (i < p)%nat) by lia. clear - S L H. revert i p H L. induction S as [|y l SS IH F]; intros i p H L; [cbn in L; lia|].
    destruct p as [|p]; [lia|]. destruct i as [|i]; cbn [nth].
    - rewrite Forall_forall in F. apply F. apply nth_In. cbn in L. lia.
    - apply IH; cbn in L; lia. }
  destruct (Nat.leb_spec (length sq) j) as [H|H].
  - exists [(i, j)]. split; auto. split; [cbn; lia|]. repeat constructor; auto.
  - destruct (IH j H ltac:(lia)) as (cs & E & T & N). rewrite E. exists ((i, j) :: cs). split; auto. split; [cbn; split; auto; split; auto; lia|]. constructor; auto.
Qed.
Lemma chunks_zero_hang sq : (0 < length sq)%nat -> forall fuel, (forall x, In x sq -> x = nth 0 sq 0) -> chunks fuel 0 sq 0 = None.
Proof.
  intros L. induction fuel as [|fuel IH]; intros H; auto. cbn [chunks]. replace (searchsorted sq (nth 0 sq 0 + 0)) with 0%nat.
  2: { destruct sq as [|x sq]; [cbn in L; lia|]. cbn. destruct (Rltb x (x + 0)) eqn:E; auto. apply Rltb_true in E. lra. }
  replace (length sq <=? 0)%nat with false by (symmetry; apply Nat.leb_gt; auto). rewrite IH; auto.
Qed.
Lemma slice_take {A} (d : A) i j order l : slice i j (take d order l) = take d (slice i j order) l.
Proof. unfold slice, take. rewrite skipn_map, firstn_map. auto. Qed.
Lemma tiles_concat {A} (l : list A) : forall cs i, tiles i (length l) cs -> concat (map (fun '(a, b) => slice a b l) cs) = skipn i l.
Proof.
  induction cs as [|[a b] cs IH]; cbn [tiles map concat]; intros i T.
  - subst. rewrite skipn_all. auto.
  - destruct T as (-> & I & T). rewrite (IH _ T). unfold slice. rewrite <- (firstn_skipn (b - i) (skipn i l)) at 2. f_equal. rewrite skipn_skipn. f_equal. lia.
Qed.
Lemma tiles_slices {A} (l : list A) : forall cs i, tiles i (length l) cs -> Forall (fun '(a, b) => (a < b <= length l)%nat /\ length (slice a b l) = (b - a)%nat) cs.
Proof.
  induction cs as [|[a b] cs IH]; cbn [tiles]; intros i T; constructor.
  - destruct T as (-> & I & T). split; auto. unfold slice. rewrite firstn_length, skipn_length. lia.
  - destruct T as (-> & I & T). eapply IH; eauto.
Qed.
(* ---------------- signed square root ---------------- *)
Lemma ssqrt_spec w : signed_sqrt w (ssqrt w).
Proof.
  unfold signed_sqrt, ssqrt. destruct (Rltb w 0) eqn:E.
  - apply Rltb_true in E. split; intros; [lra|]. pose proof (sqrt_lt_R0 (- w) ltac:(lra)). pose proof (sqrt_sqrt (- w) ltac:(lra)). split; [lra|]. rewrite Rmult_opp_opp. auto.
  - apply Rltb_false in E. split; intros; [|lra]. split; [apply sqrt_pos | apply sqrt_sqrt; auto].
Qed.
Lemma ssqrt_le a b : a <= b -> ssqrt a <= ssqrt b.
Proof.
  intros H. unfold ssqrt. destruct (Rltb a 0) eqn:EA; destruct (Rltb b 0) eqn:EB; try (apply Rltb_true in EA); try (apply Rltb_false in EA); try (apply Rltb_true in EB); try (apply Rltb_false in EB).
  - apply Ropp_le_contravar. apply sqrt_le_1; lra.
  - pose proof (sqrt_pos b). pose proof (sqrt_pos (- a)). lra.
  - lra.
  - apply sqrt_le_1; lra.
Qed.
Lemma sorted_map (f : R -> R) l : (forall a b, a <= b -> f a <= f b) -> StronglySorted Rle l -> StronglySorted Rle (map f l).
Proof.
  intros M. induction 1 as [|x l S IH F]; cbn; constructor; auto. apply Forall_forall. intros y Y. apply in_map_iff in Y as (z & <- & Z).
  apply M. rewrite Forall_forall in F. auto.
Qed.
