From Coq Require Import Reals Lra Permutation Sorted.
From Verif Require Import Base CleanModel CleanSpec CleanProofs CleanProofs2 GridModel GridSpec GridProofs GridProofs2 ImgModel ImgSpec ImgProofs ImgProofs2 ImgProofs3.
Ltac Zify.zify_post_hook ::= idtac.
Open Scope R_scope.

Definition T6 (f : R) : list Z := taps f 6.
Lemma gridded_perm W W' n res uvw X c g : (forall f, Permutation (W f) (W' f)) -> gridded W n res uvw X c g -> gridded W' n res uvw X c g.
Proof.
  intros P G a b A B. rewrite (G a b A B). apply csum_ext. intros k _. unfold footprint.
  rewrite (foot2_perm n _ _ _ _ _ _ a b (P (fst (put_at res (nth k uvw (0, 0, 0))))) (P (snd (put_at res (nth k uvw (0, 0, 0)))))). auto.
Qed.
Lemma interp_perm W W' n res m p : (forall f, Permutation (W f) (W' f)) -> interpolated W n res m p = interpolated W' n res m p.
Proof.
  intros P. unfold interpolated. set (f := get_at res p). rewrite (total2_perm _ _ _ _ (fst f) (snd f) (P (fst f)) (P (snd f))).
  replace (csum (ring n) (fun a => csum (ring n) (fun b => (footprint W n f a b * fst (m (a * n + b)%Z), footprint W n f a b * snd (m (a * n + b)%Z)))))
    with (csum (ring n) (fun a => csum (ring n) (fun b => (footprint W' n f a b * fst (m (a * n + b)%Z), footprint W' n f a b * snd (m (a * n + b)%Z))))); auto.
  apply csum_ext. intros a _. apply csum_ext. intros b _. unfold footprint. rewrite (foot2_perm n _ _ _ _ _ _ a b (P (fst f)) (P (snd f))). auto.
Qed.
Lemma put_grid n res uvw (X : list C) c buf : (0 < n)%Z -> exists g,
  grid n (map (fun '(u, v, _) => get_indices res u v) (take (0, 0, 0) c uvw)) (take ((0, 0) : C) c X) buf = Ok g /\
  forall a b, (0 <= a < n)%Z -> (0 <= b < n)%Z -> g (a * n + b)%Z = cadd (buf (a * n + b)%Z)
    (csum c (fun k => cscale (footprint T6 n (put_at res (nth k uvw (0, 0, 0))) a b) (nth k X (0, 0)))).
Proof.
  intros N. destruct (grid_ok n (map (fun '(u, v, _) => get_indices res u v) (take (0, 0, 0) c uvw)) (take ((0, 0) : C) c X) buf N) as (g & E & G).
  { unfold take. rewrite !map_length. auto. }
  exists g. split; auto. intros a b A B. rewrite (G a b A B). f_equal. unfold take. rewrite map_map. clear.
  induction c as [|k c IH]; [reflexivity|]. cbn [map combine]. rewrite !csum_cons, <- IH. cbn [fst snd]. f_equal.
Qed.
Lemma put_grid0 n res uvw (X : list C) c : (0 < n)%Z -> exists g,
  grid n (map (fun '(u, v, _) => get_indices res u v) (take (0, 0, 0) c uvw)) (take ((0, 0) : C) c X) zeros = Ok g /\ gridded T6 n res uvw X c g.
Proof.
  intros N. destruct (put_grid n res uvw X c zeros N) as (g & E & G). exists g. split; auto. intros a b A B. rewrite (G a b A B).
  unfold zeros. match goal with |- cadd _ ?x = _ => transitivity x; [generalize x; intros z; cring | reflexivity] end.
Qed.
Lemma grid_all0 n res uvw c : (0 < n)%Z -> forall (wgts : list (list C)), exists hs,
  grid_all n (map (fun '(u, v, _) => get_indices res u v) (take (0, 0, 0) c uvw)) (map (take ((0, 0) : C) c) wgts) (repeat zeros (length wgts)) = Ok hs /\
  Forall2 (fun X h => gridded T6 n res uvw X c h) wgts hs.
Proof.
  intros N. induction wgts as [|X wgts (hs & E & F)]; cbn [map repeat length grid_all]; [exists []; auto|].
  destruct (put_grid0 n res uvw X c N) as (g & EG & G). rewrite EG. cbn [bind]. rewrite E. cbn [bind]. exists (g :: hs). auto.
Qed.
Lemma zip_length {A B D} (f : A -> B -> D) l : forall m, length l = length m -> length (zip_with f l m) = length l.
Proof. induction l; intros [|b m] E; cbn in *; auto; discriminate. Qed.
Lemma zip_nth {A B D} (f : A -> B -> D) da db dd l : forall m i, length l = length m -> (i < length l)%nat -> nth i (zip_with f l m) dd = f (nth i l da) (nth i m db).
Proof. induction l; intros [|b m] [|i] E I; cbn in *; try discriminate; try lia; auto. apply IHl; lia. Qed.
Lemma Forall2_nth_i {A B} (P : A -> B -> Prop) l m da db : Forall2 P l m -> forall i, (i < length l)%nat -> P (nth i l da) (nth i m db).
Proof. induction 1; intros [|i] I; cbn in *; try lia; auto. apply IHForall2. lia. Qed.
Lemma Forall2_length_eq {A B} (P : A -> B -> Prop) l m : Forall2 P l m -> length l = length m.
Proof. induction 1; cbn; auto. Qed.
Lemma Forall2_impl {A B} (P Q : A -> B -> Prop) l m : (forall a b, P a b -> Q a b) -> Forall2 P l m -> Forall2 Q l m.
Proof. intros H. induction 1; constructor; auto. Qed.
Lemma cadd_assoc a b c : cadd (cadd a b) c = cadd a (cadd b c).
Proof. cring. Qed.

Section S.
Variables (wproj : R -> (Z -> C) -> (Z -> C)) (rnd : R -> Z).
Lemma put_chunks_ok n res uvw (data : list C) (wgts : list (list C)) order : (0 < n)%Z -> forall cs m, length (snd m) = length wgts ->
  exists gs hs m', put_chunks wproj n res (length wgts) (take (0, 0, 0) order uvw) (take ((0, 0) : C) order data) (map (take ((0, 0) : C) order) wgts) cs m = Ok m' /\
  length gs = length cs /\ length hs = length cs /\ length (snd m') = length wgts /\
  Forall2 (fun '(i, j) g => gridded T6 n res uvw data (slice i j order) g) cs gs /\
  Forall2 (fun '(i, j) h => length h = length wgts /\ forall q, (q < length wgts)%nat -> gridded T6 n res uvw (nth q wgts []) (slice i j order) (nth q h zeros)) cs hs /\
  (forall k, fst m' k = cadd (fst m k) (csum (combine (map (fun '(i, j) => slice i j order) cs) gs)
     (fun '(c, g) => wproj (mean (map (fun p => snd (nth p uvw (0, 0, 0))) c)) g k))) /\
  (forall q, (q < length wgts)%nat -> forall k, nth q (snd m') zeros k = cadd (nth q (snd m) zeros k) (csum (combine (map (fun '(i, j) => slice i j order) cs) hs)
     (fun '(c, h) => wproj (mean (map (fun p => snd (nth p uvw (0, 0, 0))) c)) (nth q h zeros) k))).
Proof.
  intros N. induction cs as [|[i j] cs IH]; intros m LM.
  - exists [], [], m. cbn. repeat (split; [solve [auto]|]). split; intros; unfold csum; cbn [rsum fold_right map]; symmetry; apply cadd_0_r.
  - cbn [put_chunks]. rewrite (map_map (take ((0, 0) : C) order)). rewrite !slice_take.
    replace (map (fun x => slice i j (take ((0, 0) : C) order x)) wgts) with (map (take ((0, 0) : C) (slice i j order)) wgts).
    2: { apply map_ext. intros. symmetry. apply slice_take. }
    set (c := slice i j order). unfold put_on. cbn [fst snd].
    destruct (put_grid0 n res uvw data c N) as (g & EG & G). rewrite EG. cbn [bind].
    destruct (grid_all0 n res uvw c N wgts) as (h & EH & H). rewrite EH. cbn [bind]. pose proof (Forall2_length_eq _ _ _ H) as LH.
    assert (EA : avg (map w_of (take (0, 0, 0) c uvw)) = mean (map (fun p => snd (nth p uvw (0, 0, 0))) c)).
    { unfold avg, mean, take. rewrite map_map. auto. }
    rewrite EA. set (aw := mean _).
    destruct (IH (madd (fst m) (wproj aw g), zip_with (fun b x => madd b (wproj aw x)) (snd m) h)) as (gs & hs & m' & E & L1 & L2 & L3 & F1 & F2 & S1 & S2).
    { cbn [snd]. rewrite zip_length; [exact LM | exact (eq_trans LM LH)]. }
    exists (g :: gs), (h :: hs), m'. split; [exact E|]. split; [cbn; lia|]. split; [cbn; lia|]. split; [auto|].
    split; [constructor; auto|]. split.
    { constructor; auto. split; auto. intros q Q. apply (Forall2_nth_i _ _ _ [] zeros H q Q). }
    split.
    + intros k. rewrite S1. cbn [fst map combine]. rewrite csum_cons. fold c. fold aw. unfold madd. apply cadd_assoc.
    + intros q Q k. rewrite S2 by auto. cbn [snd map combine]. rewrite csum_cons. fold c. fold aw.
      rewrite (zip_nth _ zeros zeros); [|exact (eq_trans LM LH)|exact (eq_ind_r (fun x => (q < x)%nat) Q LM)]. unfold madd. apply cadd_assoc.
Qed.
(* ---------------- get ---------------- *)
Definition val (n : Z) (res : R) (plane : (Z -> C) * (Z -> C)) (p : R * R * R) : option C :=
  cdiv (interpolated T6 n res (fst plane) p) (interpolated T6 n res (snd plane) p).
Lemma degrid_vals n res m : (0 < n)%Z -> forall uvw,
  degrid2D n n 6 m (map (fun '(u, v, _) => let '(u1, v1) := get_indices res (- u) v in (- v1, u1, (0, 0))) uvw) = Ok (map (interpolated T6 n res m) uvw).
Proof.
  intros N. induction uvw as [|[[u v] w] uvw IH]; [reflexivity|]. cbn [map]. unfold get_indices at 1. cbn [degrid2D]. rewrite degrid1_ok by auto. cbn [bind].
  rewrite IH. cbn [bind]. do 2 f_equal. unfold interpolated, get_at. cbn [fst snd]. rewrite degrid_sum by auto.
  replace (- (- u / res)) with (u / res) by (unfold Rdiv; ring). unfold cscale, cadd, csum, footprint, T6. cbn [fst snd].
  f_equal; rewrite Rplus_0_l; reflexivity.
Qed.
Lemma get_vals n res uvw plane : (0 < n)%Z -> get_uv n res uvw (fst plane) (snd plane) = Ok (map (val n res plane) uvw).
Proof.
  intros N. unfold get_uv. rewrite !degrid_vals by auto. cbn [bind]. f_equal. induction uvw as [|p uvw IH]; cbn; auto. f_equal. auto.
Qed.
Definition pid (wres : R) (uvw : list (R * R * R)) (c : list nat) : Z := rnd (mean (map (fun k => ssqrt (snd (nth k uvw (0, 0, 0)))) c) / wres).
Definition proj (uv bm : Z -> C) (uvw : list (R * R * R)) (c : list nat) : (Z -> C) * (Z -> C) :=
  let aw := mean (map (fun k => snd (nth k uvw (0, 0, 0))) c) in (wproj (- aw) uv, wproj (- aw) bm).
Lemma get_chunks_ok n res wres uv bm uvw order : (0 < n)%Z -> forall cs cache,
  exists planes cache', get_chunks wproj rnd n res wres uv bm (take (0, 0, 0) order uvw) cs cache =
     Ok (concat (map (fun '(c, pl) => map (fun k => val n res pl (nth k uvw (0, 0, 0))) c) (combine (map (fun '(i, j) => slice i j order) cs) planes)), cache') /\
  length planes = length cs /\
  Forall2 (fun c pl => find_plane cache (pid wres uvw c) = Some pl \/
             (find_plane cache (pid wres uvw c) = None /\ exists c', In c' (map (fun '(i, j) => slice i j order) cs) /\ pid wres uvw c' = pid wres uvw c /\ pl = proj uv bm uvw c'))
          (map (fun '(i, j) => slice i j order) cs) planes.
Proof.
  intros N. induction cs as [|[i j] cs IH]; intros cache.
  - exists [], cache. cbn. repeat (split; [auto|]). constructor.
  - cbn [get_chunks]. rewrite !slice_take. set (c := slice i j order).
    assert (EI : rnd (avg (map (fun p => ssqrt (w_of p)) (take (0, 0, 0) c uvw)) / wres) = pid wres uvw c).
    { unfold pid, avg, mean, take. rewrite map_map, !map_length. reflexivity. }
    assert (EA : avg (map w_of (take (0, 0, 0) c uvw)) = mean (map (fun p => snd (nth p uvw (0, 0, 0))) c)).
    { unfold avg, mean, take. rewrite map_map. auto. }
    rewrite EI, EA. cbn [map combine]. fold c. destruct (find_plane cache (pid wres uvw c)) as [pl|] eqn:EF.
    + rewrite get_vals by auto. cbn [bind]. destruct (IH cache) as (planes & cache' & E & L & F). rewrite E. cbn [bind].
      exists (pl :: planes), cache'. split. { cbn [combine map concat]. unfold take. rewrite map_map. auto. } split; [cbn; lia|].
      constructor; [auto|]. eapply Forall2_impl; [|exact F]. intros a b [H|(H & c' & I & H2)]; [left; auto|]. right. split; auto. exists c'. split; [right; auto | auto].
    + pose proof (get_vals n res (take (0, 0, 0) c uvw) (proj uv bm uvw c) N) as EV. cbn [proj fst snd] in EV |- *. rewrite EV. cbn [bind].
      destruct (IH ((pid wres uvw c, proj uv bm uvw c) :: cache)) as (planes & cache' & E & L & F). unfold proj at 1 in E. rewrite E. cbn [bind].
      exists (proj uv bm uvw c :: planes), cache'. split. { cbn [combine map concat]. unfold take. rewrite map_map. auto. } split; [cbn; lia|].
      constructor. { right. split; auto. exists c. split; [left; auto|]. auto. }
      eapply Forall2_impl; [|exact F]. cbn [find_plane]. intros a b. destruct (Z.eqb_spec (pid wres uvw c) (pid wres uvw a)) as [EQ|NE].
      * intros [H|(H & _)]; [|discriminate]. injection H as <-. right. rewrite <- EQ. split; auto. exists c. split; [left; auto|]. auto.
      * intros [H|(H & c' & I & H2)]; [left; auto|]. right. split; auto. exists c'. split; [right; auto | auto].
Qed.
End S.
Lemma index_of_nth order : NoDup order -> forall j, (j < length order)%nat -> index_of order (nth j order 0%nat) = j.
Proof.
  unfold index_of. induction 1 as [|x l NI N IH]; intros [|j] J; cbn in J; try lia; cbn [nth].
  - rewrite Nat.eqb_refl. auto.
  - destruct (Nat.eqb_spec x (nth j l 0%nat)) as [->|]. { exfalso. apply NI. apply nth_In. lia. } f_equal. apply IH. lia.
Qed.
(* the values come back in the caller's order *)
Lemma deorder_vals {V} (f : V -> nat -> option C) (cs : list (list nat)) (planes : list V) order n :
  length planes = length cs -> concat cs = order -> Permutation order (seq 0 n) ->
  let out := take None (deorder order) (concat (map (fun '(c, pl) => map (f pl) c) (combine cs planes))) in
  length out = n /\ forall c pl k, In (c, pl) (combine cs planes) -> In k c -> nth k out None = f pl k.
Proof.
  intros L EC P out. assert (LO : length order = n) by (rewrite (Permutation_length P); apply seq_length).
  assert (ND : NoDup order) by (eapply Permutation_NoDup; [symmetry; eauto | apply seq_NoDup]).
  split. { unfold out, take, deorder. rewrite !map_length, seq_length. auto. }
  intros c pl k I K.
  set (LL := concat (map (fun '(c, pl) => map (fun k => (k, pl)) c) (combine cs planes))).
  assert (E1 : map fst LL = order).
  { unfold LL. rewrite <- EC. clear -L. revert planes L. induction cs as [|c cs IH]; intros [|pl planes] L; try discriminate; auto.
    cbn. rewrite map_app, IH by auto. f_equal. rewrite map_map. cbn. apply map_id. }
  assert (E2 : concat (map (fun '(c, pl) => map (f pl) c) (combine cs planes)) = map (fun '(k, pl) => f pl k) LL).
  { unfold LL. clear. generalize (combine cs planes). intros l. induction l as [|[c pl] l IH]; cbn; auto. rewrite map_app, map_map, IH. auto. }
  assert (IN : In (k, pl) LL). { unfold LL. apply in_concat. exists (map (fun k => (k, pl)) c). split; [apply in_map_iff; exists (c, pl); auto | apply in_map_iff; eauto]. }
  destruct (In_nth _ _ (0%nat, pl) IN) as (j & J & EJ).
  assert (JO : (j < length order)%nat) by (rewrite <- E1, map_length; auto).
  assert (EK : nth j order 0%nat = k). { rewrite <- E1. change 0%nat with (fst (0%nat, pl)). rewrite map_nth, EJ. auto. }
  assert (KN : (k < n)%nat). { assert (In k order) by (rewrite <- EK; apply nth_In; auto). eapply Permutation_in in H; [|exact P]. apply in_seq in H. lia. }
  unfold out. rewrite E2. unfold take, deorder. rewrite map_map.
  rewrite (nth_indep _ None ((fun x => nth (index_of order x) (map (fun '(k, pl) => f pl k) LL) None) 0%nat)) by (rewrite map_length, seq_length; lia).
  rewrite (map_nth (fun x => nth (index_of order x) (map (fun '(k, pl) => f pl k) LL) None)). rewrite seq_nth by lia. cbn [plus].
  rewrite <- EK at 1. rewrite index_of_nth by auto.
  transitivity ((fun '(k, pl) => f pl k) (nth j LL (0%nat, pl))); [|rewrite EJ; auto].
  rewrite <- (map_nth (fun '(k, pl) => f pl k)). apply nth_indep. rewrite map_length. auto.
Qed.
Lemma cdiv_quotient a b : is_quotient a b (cdiv a b).
Proof.
  unfold cdiv. destruct (Req_EM_T (cnorm2 b) 0) as [E|NE]; unfold is_quotient.
  - destruct b as [x y]. unfold cnorm2 in E. cbn in E. f_equal; nra.
  - split. { intros ->. apply NE. unfold cnorm2. cbn. ring. }
    destruct a as [x y], b as [z w]. unfold cmul, cinverse, cnorm2 in *. cbn [fst snd] in *. f_equal; field; auto.
Qed.
(* the runs *)
Lemma planes_ok wres uvw order fuel : 0 < wres -> (0 < length uvw)%nat -> (length uvw <= fuel)%nat -> argsorts (map snd uvw) order ->
  exists cs, chunks fuel wres (map (fun p => ssqrt (w_of p)) (take (0, 0, 0) order uvw)) 0 = Some cs /\
  concat (map (fun '(i, j) => slice i j order) cs) = order /\
  w_planes wres (map snd uvw) (map (fun '(i, j) => slice i j order) cs).
Proof.
  intros W L F [P S]. rewrite map_length in P.
  assert (LO : length order = length uvw) by (rewrite (Permutation_length P); apply seq_length).
  assert (EQ : map (fun p => ssqrt (w_of p)) (take (0, 0, 0) order uvw) = map ssqrt (map (fun i => nth i (map snd uvw) 0) order)).
  { unfold take. rewrite !map_map. apply map_ext. intros k. f_equal. unfold w_of. change 0 with (snd (0, 0, 0)) at 4. rewrite map_nth. auto. }
  rewrite EQ. set (sq := map ssqrt _). assert (LS : length sq = length order) by (unfold sq; rewrite !map_length; auto).
  assert (SS : StronglySorted Rle sq) by (apply sorted_map; [apply ssqrt_le | auto]).
  destruct (chunks_ok wres sq W SS fuel 0%nat) as (cs & E & T & N); [lia | lia |].
  exists cs. split; auto. rewrite LS in T. pose proof (tiles_concat order cs 0%nat T) as EC. cbn [skipn] in EC. split; auto.
  unfold w_planes. rewrite EC, map_length. split; auto. pose proof (tiles_slices order cs 0%nat T) as TS.
  split. { apply Forall_forall. intros c C. apply in_map_iff in C as ([i j] & <- & I). rewrite Forall_forall in TS. destruct (TS _ I) as [IJ LL]. intros EE. rewrite EE in LL. cbn in LL. lia. }
  split; auto. apply Forall_forall. intros c C. apply in_map_iff in C as ([i j] & <- & I). rewrite Forall_forall in TS, N. destruct (TS _ I) as [IJ LL]. specialize (N _ I). cbn beta in N.
  intros p q s t HP HQ SP SQ.
  assert (PS : forall x, In x (slice i j order) -> exists y, (i <= y < j)%nat /\ nth y sq 0 = ssqrt (nth x (map snd uvw) 0)).
  { intros x X. apply (In_nth _ _ 0%nat) in X as (y & Y & EY). exists (i + y)%nat. split; [lia|].
    assert (EO : nth (i + y) order 0%nat = x).
    { rewrite <- EY. unfold slice. apply nth_error_nth. symmetry in EY. rewrite nth_error_nth' with (d := 0%nat) by lia. f_equal.
      rewrite <- (firstn_skipn i order) at 1. rewrite app_nth2; rewrite firstn_length; [|lia]. replace (i + y - Nat.min i (length order))%nat with y by lia.
      rewrite <- (firstn_skipn (j - i) (skipn i order)) at 1. apply app_nth1. unfold slice in Y. auto. }
    unfold sq. rewrite (nth_indep _ 0 (ssqrt (nth 0%nat (map snd uvw) 0))) by (rewrite !map_length; lia). rewrite map_nth. f_equal.
    rewrite (map_nth (fun i => nth i (map snd uvw) 0)). rewrite EO. auto. }
  assert (U : forall x a b, signed_sqrt x a -> signed_sqrt x b -> a = b).
  { clear. intros x a b [A1 A2] [B1 B2]. destruct (Rle_lt_dec 0 x) as [H|H]; [destruct (A1 H), (B1 H) | destruct (A2 H), (B2 H)]; nra. }
  destruct (PS p HP) as (y & Y & EY), (PS q HQ) as (z & Z & EZ).
  rewrite (U _ _ _ SP (ssqrt_spec _)), (U _ _ _ SQ (ssqrt_spec _)), <- EY, <- EZ. apply N; auto.
Qed.
