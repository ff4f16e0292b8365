(* C52: what simulated visibilities are. *)
From Coq Require Import Reals Lra String Permutation.
From Verif Require Import Base CleanModel ImgModel GeoModel GeoSpec GeoProofs ArrModel ArrSpec ArrProofs ArrProofs2 ArrProofs3 ArrProps ArrProps2 ArrProofs5 ArrProofs6 ArrProofs7 ArrProps4.
Ltac Zify.zify_post_hook ::= idtac.
Open Scope R_scope.
Local Notation length := List.length.
Lemma c_eq (a b : C) : fst a = fst b -> snd a = snd b -> a = b.
Proof. destruct a, b; cbn; congruence. Qed.
Lemma conj_mul a b : conj (cmul a b) = cmul (conj a) (conj b).
Proof. apply c_eq; cbn; ring. Qed.
Lemma conj_scale k a : conj (cscale k a) = cscale k (conj a).
Proof. apply c_eq; cbn; ring. Qed.
Lemma conj_add a b : conj (cadd a b) = cadd (conj a) (conj b).
Proof. apply c_eq; cbn; ring. Qed.
Lemma conj_conj a : conj (conj a) = a.
Proof. apply c_eq; cbn; ring. Qed.
Lemma conj_sum l : conj (csum l) = csum (map conj l).
Proof. induction l as [|a l IH]; cbn [map csum fold_right]; [apply c_eq; cbn; ring|]. rewrite conj_add. f_equal. exact IH. Qed.
Lemma csum_app a b : csum (a ++ b) = cadd (csum a) (csum b).
Proof. induction a as [|x a IH]; cbn [app]; unfold csum in *; cbn [fold_right]; [apply c_eq; cbn; ring|]. rewrite IH. apply c_eq; cbn; ring. Qed.
Section S.
Context (sid j1 : R -> R).
Lemma bl_swap r i j q : bl_to sid r j i q = vscale (-1) (bl_to sid r i j q).
Proof.
  unfold bl_to. destruct (eq2radec (q_v q)) as [ra dec]. unfold seen_from, separation. destruct (pos_of r i) as [[? ?] ?], (pos_of r j) as [[? ?] ?]. unfold dot, east, north, towards. cbn. vec_eq; ring.
Qed.
Lemma bl_self r i q : bl_to sid r i i q = (0, 0, 0).
Proof.
  unfold bl_to. destruct (eq2radec (q_v q)) as [ra dec]. unfold seen_from, separation. destruct (pos_of r i) as [[? ?] ?]. unfold dot, east, north, towards. cbn. vec_eq; ring.
Qed.
Lemma offset_swap' r i j f : offset_at r j i f = - offset_at r i j f.
Proof. unfold offset_at. destruct (nth_error (r_ants r) i), (nth_error (r_ants r) j); ring. Qed.
Lemma disk_neg q u v : disk j1 q (- u) (- v) = disk j1 q u v.
Proof. unfold disk. cbv zeta. match goal with |- context [sqrt ?a] => match goal with |- _ = ?rhs => match rhs with context [sqrt ?b] => replace a with b by ring end end end. auto. Qed.
Lemma turns_neg b x y m f : turns (vscale (-1) b) x y m f = - turns b x y m f.
Proof. destruct b as [[? ?] ?]. cbn. unfold Rdiv. ring. Qed.
Lemma contribution_swap r m p1 p2 i j q f I : contribution sid j1 r m p2 p1 j i q f I = conj (contribution sid j1 r m p1 p2 i j q f I).
Proof.
  unfold contribution. rewrite (bl_swap r i j). destruct (bl_to sid r i j q) as [[x y] z] eqn:B. cbn [vscale].
  replace (f * (-1 * x)) with (- (f * x)) by ring. replace (f * (-1 * y)) with (- (f * y)) by ring. rewrite disk_neg.
  change ((-1 * x, -1 * y, -1 * z) : vec) with (vscale (-1) (x, y, z)). rewrite turns_neg, offset_swap', <- Ropp_plus_distr, cexp_neg.
  rewrite !conj_mul, !conj_scale, !conj_mul, !conj_conj. f_equal. f_equal. apply c_eq; cbn; ring.
Qed.
Lemma turn0 : cexp_turn 0 = (1, 0).
Proof. unfold cexp_turn. rewrite Rmult_0_r, cos_0, sin_0. f_equal. ring. Qed.
Lemma disk0 q : disk j1 q 0 0 = 1.
Proof.
  unfold disk. cbv zeta. match goal with |- context [Req_EM_T ?x 0] => replace x with 0 end. destruct (Req_EM_T 0 0); [auto|congruence].
  match goal with |- context [sqrt ?a] => replace a with 0 by ring end. rewrite sqrt_0. ring.
Qed.
Lemma contribution_self r m p i q f I : contribution sid j1 r m p p i i q f I =
  (I * modulus2 (gain_at (ant_of r i) f) * modulus2 (beam_at r i p f (mv m (q_v q))), 0).
Proof.
  unfold contribution. rewrite bl_self. cbn [vscale]. rewrite Rmult_0_r, disk0. replace (turns (0, 0, 0) _ _ _ f + offset_at r i i f) with 0.
  2:{ unfold turns, offset_at. destruct (nth_error (r_ants r) i); unfold Rdiv; ring. }
  rewrite turn0. unfold modulus2. apply c_eq; cbn; ring.
Qed.
Lemma visibility_app r m p1 p2 i j a b fs k : visibility sid j1 r m p1 p2 i j (a ++ b) fs k = cadd (visibility sid j1 r m p1 p2 i j a fs k) (visibility sid j1 r m p1 p2 i j b fs k).
Proof. unfold visibility. rewrite map_app, csum_app. auto. Qed.
End S.
Lemma sees_snoc ops t qs p : sees ops t qs -> sees (ops ++ [OPol p]) t qs.
Proof.
  intros [before [mid [eqs [jys [mf [ion [shp [a1 [a2 [-> [G [W1 [W2 [W3 W4]]]]]]]]]]]]]].
  exists before, mid, eqs, jys, mf, ion, shp, a1, (a2 ++ [OPol p]). unfold without in *. rewrite !Forall_app in *.
  split. { rewrite <- !app_assoc. cbn [app]. rewrite <- !app_assoc. cbn [app]. rewrite <- !app_assoc. auto. }
  assert (N : forall f, f (OPol p) = false -> Forall (fun o => f o = false) [OPol p]) by (intros; repeat constructor; auto).
  split; [exact G|]. split; [|split; [|split]]; auto; try tauto; repeat split; try tauto; apply N; auto.
Qed.
Lemma nth_eq {A} (d : A) a b : length a = length b -> (forall k, (k < length a)%nat -> nth k a d = nth k b d) -> a = b.
Proof. intros L H. apply (nth_ext _ _ d d); auto. Qed.
Lemma nth_cadd (va vb : list C) k : length va = length vb -> (k < length va)%nat -> nth k (zip_with cadd va vb) (0, 0) = cadd (nth k va (0, 0)) (nth k vb (0, 0)).
Proof. revert vb k. induction va as [|x va IH]; intros [|y vb] k E L; cbn in *; try lia. destruct k; auto. apply IH; lia. Qed.
Lemma nth_conj (v : list C) k : (k < length v)%nat -> nth k (map conj v) (0, 0) = conj (nth k v (0, 0)).
Proof. intros L. rewrite <- (map_nth conj). apply nth_indep. rewrite map_length. auto. Qed.
(* r as it is once sim_cache has been told of the sources qs *)
Section Sky.
Variable sid j1 : R -> R.
Theorem C52_sum : forall lat t0 bs ants before t mid eqs jys mf ion shp qs fs i j p1 p2,
  let ops := before ++ OTime t :: mid in let r := run sid j1 ops (new_arr lat t0 bs ants) in let m := eq2top_m (- sid t) lat in
  let r' := run sid j1 (ops ++ [OCache eqs jys mf ion shp]) (new_arr lat t0 bs ants) in
  without is_time mid -> given eqs jys mf ion shp qs -> in_step r fs -> (i < length (r_ants r))%nat -> (j < length (r_ants r))%nat -> r_pol r = Some (p1, p2) ->
  (forall q, In q qs -> length (q_jys q) = length fs) ->
  exists vis, snd (sim sid j1 r' i j) = Val vis /\ length vis = length fs /\
  forall k, (k < length fs)%nat -> nth k vis (0, 0) = visibility sid j1 r m p1 p2 i j (filter (is_up m) qs) fs k.
Proof.
  intros lat t0 bs ants before t mid eqs jys mf ion shp qs fs i j p1 p2 ops r m r' W G I A B P J.
  destruct (C30_kept r m qs eqs jys mf ion shp (eq2top_run sid j1 lat t0 bs ants before t mid W) G) as [c [Q _]].
  assert (R : r' = with_cache r c). { unfold r'. rewrite run_app, run_cons. fold r. cbn [step run fold_left]. rewrite Q. auto. }
  destruct (filter (is_up m) qs) as [|u us] eqn:U.
  - pose proof (C29_none_up sid j1 lat t0 bs ants before t mid eqs jys mf ion shp qs [] fs i j) as K. cbv zeta in K.
    replace (before ++ OTime t :: mid ++ [OCache eqs jys mf ion shp]) with (ops ++ [OCache eqs jys mf ion shp]) in K by (unfold ops; rewrite <- app_assoc; auto). fold r' in K.
    rewrite (K W ltac:(constructor) ltac:(constructor) ltac:(constructor) G U ltac:(rewrite R; exact I) ltac:(rewrite R; exact A) ltac:(rewrite R; exact B)). exists (map (fun _ => (0, 0)) fs). split; auto. split; [apply map_length|].
    intros k L. unfold visibility. cbn. clear. revert k. induction fs; intros [|k]; cbn; auto.
  - pose proof (C29_sources sid j1 lat t0 bs ants (ops ++ [OCache eqs jys mf ion shp]) t qs fs i j p1 p2) as K. cbv zeta in K. fold r' in K. fold m in K. rewrite U, R in K. rewrite R.
    apply K; auto.
    + exists before, mid, eqs, jys, mf, ion, shp, [], []. split; [unfold ops; rewrite <- app_assoc; auto|]. split; auto. rewrite app_nil_r. split; [auto|]. repeat split; constructor.
    + discriminate.
    + intros q Iq. apply J. assert (H : In q (filter (is_up m) qs)) by (rewrite U; auto). apply filter_In in H. tauto.
Qed.
(* several sources at once: the sum of what each group gives alone *)
Theorem C52_superposition : forall lat t0 bs ants before t mid fs i j p1 p2 qa qb qc ea ja ma ia sa eb jb mb ib sb ec jc mc ic sc,
  let ops := before ++ OTime t :: mid in let r := run sid j1 ops (new_arr lat t0 bs ants) in
  let with_sources e j m i s := run sid j1 (ops ++ [OCache e j m i s]) (new_arr lat t0 bs ants) in
  without is_time mid -> given ea ja ma ia sa qa -> given eb jb mb ib sb qb -> given ec jc mc ic sc qc -> Permutation qc (qa ++ qb) ->
  in_step r fs -> (i < length (r_ants r))%nat -> (j < length (r_ants r))%nat -> r_pol r = Some (p1, p2) -> (forall q, In q qc -> length (q_jys q) = length fs) ->
  exists va vb, snd (sim sid j1 (with_sources ea ja ma ia sa) i j) = Val va /\ snd (sim sid j1 (with_sources eb jb mb ib sb) i j) = Val vb /\
  snd (sim sid j1 (with_sources ec jc mc ic sc) i j) = Val (zip_with cadd va vb).
Proof.
  intros lat t0 bs ants before t mid fs i j p1 p2 qa qb qc ea ja ma ia sa eb jb mb ib sb ec jc mc ic sc ops r ws W Ga Gb Gc Pm I A B P J.
  assert (Pm' := Permutation_in (A := source)). 
  destruct (C52_sum lat t0 bs ants before t mid ea ja ma ia sa qa fs i j p1 p2 W Ga I A B P) as [va [Ea [La Va]]]. { intros q Q. apply J. eapply Pm'; [apply Permutation_sym, Pm|]. apply in_or_app. auto. }
  destruct (C52_sum lat t0 bs ants before t mid eb jb mb ib sb qb fs i j p1 p2 W Gb I A B P) as [vb [Eb [Lb Vb]]]. { intros q Q. apply J. eapply Pm'; [apply Permutation_sym, Pm|]. apply in_or_app. auto. }
  destruct (C52_sum lat t0 bs ants before t mid ec jc mc ic sc qc fs i j p1 p2 W Gc I A B P J) as [vc [Ec [Lc Vc]]].
  exists va, vb. split; [exact Ea|]. split; [exact Eb|]. unfold ws. etransitivity; [exact Ec|]. f_equal. apply (nth_eq (0, 0)).
  - assert (Z := zip_with_length cadd va vb). etransitivity; [exact Lc|]. symmetry. etransitivity; [exact Z|]. etransitivity; [apply f_equal2; [exact La|exact Lb]|]. apply Nat.min_id.
  - intros k L0. assert (L : (k < length fs)%nat) by (rewrite <- Lc; exact L0). etransitivity; [exact (Vc k L)|].
    symmetry. etransitivity; [apply nth_cadd; [rewrite La; exact (eq_sym Lb)|rewrite La; exact L]|]. etransitivity; [apply f_equal2; [exact (Va k L)|exact (Vb k L)]|].
    rewrite <- visibility_app, <- filter_app. symmetry. unfold visibility.
    assert (Pf : forall f (a b : list source), Permutation a b -> csum (map f (filter (is_up (eq2top_m (- sid t) lat)) a)) = csum (map f (filter (is_up (eq2top_m (- sid t) lat)) b))).
    { clear. intros f a b H. induction H as [|x a b H IH|x y a|a b c H1 IH1 H2 IH2]; cbn [filter]; auto; try congruence.
      - destruct (is_up _ x); auto. cbn [map]. unfold csum in *. cbn [fold_right]. congruence.
      - destruct (is_up _ x), (is_up _ y); auto. cbn [map]. unfold csum. cbn [fold_right]. apply c_eq; cbn; ring. }
    apply Pf. auto.
Qed.
(* the other way round, with polarisations exchanged: the conjugate *)
Theorem C52_conjugate : forall lat t0 bs ants ops t qs fs i j p1 p2, let r0 := new_arr lat t0 bs ants in
  let r := run sid j1 ops r0 in let ups := filter (is_up (eq2top_m (- sid t) lat)) qs in
  sees ops t qs -> in_step r fs -> (i < length (r_ants r))%nat -> (j < length (r_ants r))%nat -> ups <> [] -> (forall q, In q ups -> length (q_jys q) = length fs) ->
  exists vis, snd (sim sid j1 (run sid j1 (ops ++ [OPol (Some (p1, p2))]) r0) i j) = Val vis /\
              snd (sim sid j1 (run sid j1 (ops ++ [OPol (Some (p2, p1))]) r0) j i) = Val (map conj vis).
Proof.
  intros lat t0 bs ants ops t qs fs i j p1 p2 r0 r ups S I A B N J.
  assert (R : forall p, run sid j1 (ops ++ [OPol (Some p)]) r0 = fst (set_active_pol r (Some p))) by (intros; rewrite run_app; auto).
  destruct (C29_sources sid j1 lat t0 bs ants (ops ++ [OPol (Some (p1, p2))]) t qs fs i j p1 p2) as [v1 [E1 [L1 V1]]]; auto.
  { apply sees_snoc; auto. } { fold r0. rewrite R. auto. } { fold r0. rewrite R. auto. } { fold r0. rewrite R. auto. } { fold r0. rewrite R. auto. }
  destruct (C29_sources sid j1 lat t0 bs ants (ops ++ [OPol (Some (p2, p1))]) t qs fs j i p2 p1) as [v2 [E2 [L2 V2]]]; auto.
  { apply sees_snoc; auto. } { fold r0. rewrite R. auto. } { fold r0. rewrite R. auto. } { fold r0. rewrite R. auto. } { fold r0. rewrite R. auto. }
  exists v1. split; [exact E1|]. etransitivity; [exact E2|]. f_equal. apply (nth_eq (0, 0)).
  - etransitivity; [exact L2|]. symmetry. etransitivity; [apply map_length|exact L1].
  - intros k L0. assert (L : (k < length fs)%nat) by (rewrite <- L2; exact L0). etransitivity; [exact (V2 k L)|]. symmetry. etransitivity; [apply nth_conj; rewrite L1; exact L|].
    etransitivity; [apply f_equal; exact (V1 k L)|]. unfold visibility. rewrite conj_sum, map_map. f_equal. apply map_ext. intros q. fold r0. rewrite !R. symmetry. exact (contribution_swap sid j1 r _ p1 p2 i j q _ _).
Qed.
(* an antenna with itself: real, the sum of fluxes times squared gain and response; not negative if no flux is *)
Definition rsum (l : list R) : R := fold_right Rplus 0 l.
Theorem C52_auto : forall lat t0 bs ants ops t qs fs i p, let r := run sid j1 ops (new_arr lat t0 bs ants) in
  let m := eq2top_m (- sid t) lat in let ups := filter (is_up m) qs in
  sees ops t qs -> in_step r fs -> (i < length (r_ants r))%nat -> r_pol r = Some (p, p) -> ups <> [] -> (forall q, In q ups -> length (q_jys q) = length fs) ->
  exists vis, snd (sim sid j1 r i i) = Val vis /\ length vis = length fs /\
  forall k, (k < length fs)%nat -> let f := nth k fs 0 in
    nth k vis (0, 0) = (rsum (map (fun q => nth k (q_jys q) 0 * modulus2 (gain_at (ant_of r i) f) * modulus2 (beam_at r i p f (mv m (q_v q)))) ups), 0) /\
    ((forall q, In q ups -> 0 <= nth k (q_jys q) 0) -> 0 <= fst (nth k vis (0, 0))).
Proof.
  intros lat t0 bs ants ops t qs fs i p r m ups S I A P N J. destruct (C29_sources sid j1 lat t0 bs ants ops t qs fs i i p p S I A A P N J) as [vis [E [L V]]].
  exists vis. split; auto. split; auto. intros k Lk f. specialize (V k Lk). fold r m ups in V. rewrite V. unfold visibility. fold f.
  replace (map _ ups) with (map (fun q => (nth k (q_jys q) 0 * modulus2 (gain_at (ant_of r i) f) * modulus2 (beam_at r i p f (mv m (q_v q))), 0)) ups).
  2:{ apply map_ext. intros q. rewrite contribution_self. auto. }
  assert (Z : forall (g : source -> R) l, csum (map (fun q => (g q, 0)) l) = (rsum (map g l), 0)).
  { intros g l. induction l as [|q l IH]; [reflexivity|]. cbn [map]. unfold csum, rsum in *. cbn [fold_right]. rewrite IH. apply c_eq; cbn; ring. }
  rewrite Z. split; auto. cbn [fst]. clear. intros H. induction ups as [|q l IH]; cbn [map]; unfold rsum in *; cbn [fold_right]; [lra|].
  assert (0 <= nth k (q_jys q) 0) by (apply H; left; auto). assert (M : forall z, 0 <= modulus2 z) by (intros; unfold modulus2; nra).
  apply Rplus_le_le_0_compat; [repeat apply Rmult_le_pos; auto|]. apply IH. intros; apply H; right; auto.
Qed.
(* phasing a visibility to its only source takes the fringe away: flux, resolution, gains and responses stay *)
Theorem C52_phased : forall lat t0 bs ants ops t q fs i j p1 p2, let r := run sid j1 ops (new_arr lat t0 bs ants) in
  let m := eq2top_m (- sid t) lat in
  sees ops t [q] -> is_up m q = true -> in_step r fs -> (i < length (r_ants r))%nat -> (j < length (r_ants r))%nat -> r_pol r = Some (p1, p2) -> length (q_jys q) = length fs ->
  exists vis d, snd (sim sid j1 r i j) = Val vis /\ phs2src sid j1 r vis (SVecs [q_v q]) i j (Sc (q_mf q)) (Some (Sc (q_dra q), Sc (q_ddec q))) = Val [d] /\ length d = length fs /\
  forall k, (k < length fs)%nat -> let f := nth k fs 0 in
    nth k d (0, 0) = cscale (nth k (q_jys q) 0 * (let '(u, v, w) := vscale f (bl_to sid r i j q) in disk j1 q u v))
      (cmul (cmul (gain_at (ant_of r j) f) (conj (gain_at (ant_of r i) f))) (cmul (beam_at r j p2 f (mv m (q_v q))) (conj (beam_at r i p1 f (mv m (q_v q)))))).
Proof.
  intros lat t0 bs ants ops t q fs i j p1 p2 r m S U I A B P J.
  assert (F : filter (is_up m) [q] = [q]) by (cbn [filter]; rewrite U; auto).
  destruct (C29_sources sid j1 lat t0 bs ants ops t [q] fs i j p1 p2 S I A B P) as [vis [E [L V]]]. { fold m. rewrite F. discriminate. } { fold m. rewrite F. intros x [<-|[]]. auto. }
  fold r m in E, V. rewrite F in V.
  exists vis. unfold phs2src. rewrite (gen_phs_step sid j1 r fs) by auto. change [q_v q] with (map q_v [q]). rewrite baseline_q by auto. cbn [map length obind refr spread fst snd repeat combine phase_rows zip_with omap].
  rewrite bcast_eq by (rewrite map_length; auto). cbn [obind]. eexists. split; [exact E|]. split; [reflexivity|]. split; [rewrite zip_with_length, map_length, L, Nat.min_id; auto|].
  intros k Lk. set (f := nth k fs 0). rewrite zip_with_map_r.
  set (g := fun f => cexp_turn (turns (bl_to sid r i j q) (q_dra q) (q_ddec q) (q_mf q) f + offset_at r i j f)).
  assert (Z : nth k (zip_with (fun x y => cmul x (g y)) vis fs) (0, 0) = cmul (nth k vis (0, 0)) (g (nth k fs 0))).
  { clear - L Lk. revert vis k L Lk. induction fs as [|x fs IH]; intros [|y vis] k L Lk; cbn in *; try lia. destruct k; auto. apply IH; lia. }
  etransitivity; [exact Z|]. rewrite V by auto. unfold visibility. cbn [map csum fold_right]. unfold contribution. fold f.
  destruct (vscale f (bl_to sid r i j q)) as [[u v] w]. fold (g f). pose proof (modulus_turn (turns (bl_to sid r i j q) (q_dra q) (q_ddec q) (q_mf q) f + offset_at r i j f)) as M. fold (g f) in M.
  destruct (g f) as [x y]. unfold modulus2 in M. cbn [fst snd] in M.
  set (G := cmul (cmul _ _) _). destruct G as [a b]. apply c_eq; cbn.
  - replace (nth k (q_jys q) 0 * disk j1 q u v * a) with (nth k (q_jys q) 0 * disk j1 q u v * a * (x * x + y * y)) by (rewrite M; ring). ring.
  - replace (nth k (q_jys q) 0 * disk j1 q u v * b) with (nth k (q_jys q) 0 * disk j1 q u v * b * (x * x + y * y)) by (rewrite M; ring). ring.
Qed.
End Sky.
(* Finding: set_ephemtime does not discard sources. Here they have set, and are still simulated. *)
Definition lone := [OPol (Some (PX, PX)); OTime 0; high].
Lemma lone_sees l : without is_time l -> without is_cache l -> without is_tune l -> sees (lone ++ l) 0 [src_of (1, 0, 0)].
Proof.
  intros A B D. exists [OPol (Some (PX, PX))], [], [(1, 0, 0)], [[1]], (Sc 0), (Sc 0, Sc 0), (Sc 0, Sc 0, Sc 0), [], l. split; [reflexivity|]. split; [apply given_of|].
  split; [exact A|]. split; [exact B|]. split; [constructor|exact D].
Qed.
Lemma up1 : is_up (eq2top_m (- 0) 0) (src_of (1, 0, 0)) = true.
Proof. rewrite src_up0. unfold Rltb. destruct (Rlt_dec 0 1); [auto|lra]. Qed.
Theorem C29_ephem_refuted : exists sid j1 lat t0 bs ants ops t qs i j vis,
  let r := run sid j1 ops (new_arr lat t0 bs ants) in
  sees ops t qs /\ filter (is_up (eq2top_m (- lst sid r) lat)) qs = [] /\ snd (sim sid j1 r i j) = Val vis /\ Exists (fun z => z <> (0, 0)) vis.
Proof.
  set (sid := fun t : R => t). set (ops := lone ++ [OEphem PI]).
  assert (S : sees ops 0 [src_of (1, 0, 0)]) by (apply lone_sees; repeat constructor).
  assert (G : geo (run sid sid ops (new_arr 0 0 [unit_beam] two_ants)) = (0, PI, eq2top_m 0 0, Some (rot_m (- PI) (0, 0, 1)), Some (eq2top_m (- 0) 0))) by apply run_geo.
  pose proof (C52_auto sid sid 0 0 [unit_beam] two_ants ops 0 [src_of (1, 0, 0)] [1] 0 PX S) as K. cbv zeta in K.
  assert (Rp : (fun r => (r_ants r, r_beams r, r_pol r)) (run sid sid ops (new_arr 0 0 [unit_beam] two_ants)) = (two_ants, [unit_beam], Some (PX, PX))).
  { unfold ops, lone, high. cbn [app]. rewrite !run_cons. cbn [run fold_left step set_ephemtime r_ants r_beams r_pol].
    exact (sim_cache_keeps (fun r => (r_ants r, r_beams r, r_pol r)) (fun r x => eq_refl) _ _ _ _ _ _). }
  set (r := run sid sid ops (new_arr 0 0 [unit_beam] two_ants)) in *. cbv beta in Rp.
  assert (R1 : r_ants r = two_ants) by congruence. assert (R2 : r_beams r = [unit_beam]) by congruence. assert (R3 : r_pol r = Some (PX, PX)) by congruence.
  change (sid 0) with 0 in K. cbn [filter] in K. rewrite up1 in K. destruct K as [vis [E [L V]]].
  { destruct two_in_step as [Q1 Q2]. split; rewrite R1; auto. intros a Ia. destruct (Q2 a Ia) as [[b [X Y]] Z]. split; auto. exists b. rewrite R2. auto. }
  { rewrite R1. cbn. lia. } { auto. } { discriminate. } { intros q [<-|[]]. auto. }
  exists sid, sid, 0, 0, [unit_beam], two_ants, ops, 0, [src_of (1, 0, 0)], 0%nat, 0%nat, vis. cbv zeta. fold r. split; auto. split; [|split; auto].
  - cbn [filter]. replace (is_up _ _) with false; auto. unfold is_up, Rltb. assert (D : r_date r = PI) by (unfold geo in G; congruence). unfold lst, sid. rewrite D.
    destruct (Rlt_dec _ _) as [H|H]; auto. exfalso. cbn in H. rewrite cos_neg, cos_PI, cos_0 in H. lra.
  - destruct vis as [|v [|? ?]]; try discriminate. constructor. destruct (V 0%nat ltac:(cbn; lia)) as [Z _]. cbn [nth] in Z. rewrite Z. intros X. apply (f_equal fst) in X. cbn [fst snd map rsum fold_right src_of q_jys nth] in X.
    unfold ant_of, beam_at, ant_of in X. rewrite R1, R2 in X. cbn in X. unfold modulus2, gain_at in X. cbn in X. lra.
Qed.
(* Finding: responses once computed for the cached sources are used even after an antenna has been pointed
   elsewhere, until sim_cache is called again with the same sources. *)
Definition tilt_beam := new_beam [1] (fun _ v => (third v, 0)).
Definition pointing_low := OPoint 0 0 0 0.
Theorem C29_stale_refuted : exists sid j1 lat t0 bs ants before cache after i j v1 v2,
  let r0 := new_arr lat t0 bs ants in is_cache cache = true /\ without is_time after /\ without is_ephem after /\
  snd (sim sid j1 (run sid j1 (before ++ cache :: after) r0) i j) = Val v1 /\
  snd (sim sid j1 (run sid j1 (before ++ cache :: after ++ [cache]) r0) i j) = Val v2 /\ v1 <> v2.
Proof.
  set (z := fun _ : R => 0). set (bs := [tilt_beam]).
  set (r0 := new_arr 0 0 bs two_ants). set (ops1 := lone ++ [OSim 0 0]). set (ops2 := lone ++ [OSim 0 0; pointing_low]).
  set (s0 := {| c_jys := [[1]]; c_mfreq := Sc 0; c_eqs := [(1, 0, 0)]; c_top := [mv (eq2top_m (- 0) 0) (1, 0, 0)]; c_shp := (Sc 0, Sc 0, Sc 0); c_iref := (Sc 0, Sc 0) |}).
  assert (Hc : forall r, r_eq2top r = Some (eq2top_m (- 0) 0) -> step z z r high = with_cache r (CDict (Some s0) [])).
  { intros r E. unfold high. cbn [step]. unfold sim_cache. rewrite E. cbn [map]. change (Rltb 0 (third (mv (eq2top_m (- 0) 0) (1, 0, 0)))) with (is_up (eq2top_m (- 0) 0) (src_of (1, 0, 0))).
    rewrite up1. reflexivity. }
  assert (St : snd (sim z z (run z z ops2 r0) 0 0) = snd (sim z z (run z z ops1 r0) 0 0)).
  { unfold ops1, ops2, lone. cbn [app]. rewrite !run_cons. rewrite Hc by reflexivity. reflexivity. }
  set (ops3 := lone ++ [OSim 0 0; pointing_low; high]).
  assert (S1 : sees ops1 0 [src_of (1, 0, 0)]) by (apply lone_sees; repeat constructor).
  assert (S3 : sees ops3 0 [src_of (1, 0, 0)]).
  { exists [OPol (Some (PX, PX))], [high; OSim 0 0; pointing_low], [(1, 0, 0)], [[1]], (Sc 0), (Sc 0, Sc 0), (Sc 0, Sc 0, Sc 0), [], []. split; [reflexivity|]. split; [apply given_of|].
    split; [repeat constructor|]. split; [repeat constructor|]. split; constructor. }
  assert (A1 : let r := run z z ops1 r0 in r_ants r = two_ants /\ r_beams r = bs /\ r_pol r = Some (PX, PX)).
  { unfold ops1, lone. cbn [app]. rewrite !run_cons. rewrite Hc by reflexivity. split; [|split]; reflexivity. }
  assert (A3 : let r := run z z ops3 r0 in r_ants r = [set_pointing (ant_at (0, 0, 0)) 0 0 0; ant_at (0, 1, 0)] /\ r_beams r = bs /\ r_pol r = Some (PX, PX)).
  { unfold ops3, lone. cbn [app]. rewrite !run_cons. rewrite (Hc (step z z (step z z r0 (OPol (Some (PX, PX)))) (OTime 0))) by reflexivity. rewrite Hc by reflexivity. split; [|split]; reflexivity. }
  assert (K1 := C52_auto z z 0 0 bs two_ants ops1 0 [src_of (1, 0, 0)] [1] 0 PX S1). assert (K3 := C52_auto z z 0 0 bs two_ants ops3 0 [src_of (1, 0, 0)] [1] 0 PX S3).
  cbv zeta in *. fold r0 in K1, K3. set (r1 := run z z ops1 r0) in *. set (r3 := run z z ops3 r0) in *. destruct A1 as [A1 [B1 P1]], A3 as [A3 [B3 P3]].
  change (z 0) with 0 in K1, K3. cbn [filter] in K1, K3. rewrite up1 in K1, K3.
  destruct K1 as [v1 [E1 [L1 V1]]].
  { split; rewrite A1; [discriminate|]. intros a [<-|[<-|[]]]; (split; [exists tilt_beam; rewrite B1; auto|]); split; cbn; unfold gain_at; cbn; repeat f_equal; ring. }
  { rewrite A1. cbn. lia. } { auto. } { discriminate. } { intros q [<-|[]]. auto. }
  destruct K3 as [v3 [E3 [L3 V3]]].
  { split; rewrite A3; [discriminate|]. intros a [<-|[<-|[]]]; (split; [exists tilt_beam; rewrite B3; auto|]); split; cbn; unfold gain_at; cbn; repeat f_equal; ring. }
  { rewrite A3. cbn. lia. } { auto. } { discriminate. } { intros q [<-|[]]. auto. }
  exists z, z, 0, 0, bs, two_ants, [OPol (Some (PX, PX)); OTime 0], high, [OSim 0 0; pointing_low], 0%nat, 0%nat, v1, v3. cbv zeta. fold r0.
  split; [reflexivity|]. split; [repeat constructor|]. split; [repeat constructor|]. split; [etransitivity; [exact St|exact E1]|]. split; [exact E3|].
  destruct (V1 0%nat ltac:(cbn; lia)) as [Z1 _]. destruct (V3 0%nat ltac:(cbn; lia)) as [Z3 _]. intros ->. rewrite Z3 in Z1. apply (f_equal fst) in Z1.
  cbn [fst snd map rsum fold_right src_of q_jys nth] in Z1. unfold ant_of, beam_at, ant_of in Z1. rewrite A1, B1, A3, B3 in Z1. cbn [nth nth_error bs a_beam set_pointing ant_at tilt_beam new_beam b_pat a_rotx] in Z1.
  assert (Tp : mv (eq2top_m (- 0) 0) (1, 0, 0) = (0, 0, 1)). { cbn. rewrite Ropp_0, sin_0, cos_0. vec_eq; ring. }
  cbn [q_v src_of] in Z1. rewrite Tp in Z1. unfold pointing_m in Z1. unfold rot_m, mm, mv, modulus2, gain_at, ident in Z1. cbn in Z1.
  replace (0 - PI / 2) with (- (PI / 2)) in Z1 by ring. rewrite !cos_neg, !cos_PI2 in Z1. rewrite Ropp_0, cos_0, sin_0 in Z1. lra.
Qed.
Example C52_case : sees lone 0 [src_of (1, 0, 0)] /\ is_up (eq2top_m (- 0) 0) (src_of (1, 0, 0)) = true /\
  in_step (run (fun _ => 0) (fun _ => 0) [OPol (Some (PX, PX)); OTime 0] (new_arr 0 0 [unit_beam] two_ants)) [1].
Proof. split; [|split]; [exact (lone_sees [] ltac:(constructor) ltac:(constructor) ltac:(constructor))|apply up1|apply two_in_step]. Qed.
Print Assumptions C52_sum. Print Assumptions C52_superposition. Print Assumptions C52_conjugate. Print Assumptions C52_auto. Print Assumptions C52_phased.
Print Assumptions C29_ephem_refuted. Print Assumptions C29_stale_refuted.
