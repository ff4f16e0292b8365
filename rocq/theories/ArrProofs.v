From Coq Require Import Reals Lra String Nsatz.
From Verif Require Import Base CleanModel ImgModel GeoModel GeoSpec GeoProofs ArrModel ArrSpec.
Ltac Zify.zify_post_hook ::= idtac.
Open Scope R_scope.
Local Notation length := List.length.
Ltac obinv H := repeat match type of H with obind ?x _ = Val _ => destruct x eqn:?; cbn [obind] in H; [|discriminate H] end.
Lemma get_val {A} (l : list A) i x : get l i = Val x <-> nth_error l i = Some x.
Proof. unfold get. destruct (nth_error l i); split; congruence. Qed.
Lemma mv_add m a b : mv m (vadd a b) = vadd (mv m a) (mv m b).
Proof. destruct m as [[[[? ?] ?] [[? ?] ?]] [[? ?] ?]], a as [[? ?] ?], b as [[? ?] ?]. cbn. vec_eq; ring. Qed.
Lemma mv_scale m k a : mv m (vscale k a) = vscale k (mv m a).
Proof. destruct m as [[[[? ?] ?] [[? ?] ?]] [[? ?] ?]], a as [[? ?] ?]. cbn. vec_eq; ring. Qed.
Lemma mv_0 m : mv m (0, 0, 0) = (0, 0, 0).
Proof. destruct m as [[[[? ?] ?] [[? ?] ?]] [[? ?] ?]]. cbn. vec_eq; ring. Qed.
Section S.
Context (sid : R -> R).
(* all the frames get_baseline knows are matrices applied to the separation *)
Definition frames (r : arr) (src : srcarg) : out (list mat) :=
  match src with
  | SStr s => if String.eqb s "e" then match r_eq2now r with Some m => Val [m] | None => Exc AttributeError end
              else if String.eqb s "z" then Val [r_eq2zen r] else if String.eqb s "r" then Val [ident] else Exc ValueError
  | SBody b => if Rlt_dec (s_alt b) 0 then Exc PointingError else Val [s_map b]
  | SVecs l => Val (map (fun v => let '(ra, dec) := eq2radec v in eq2top_m (lst sid r - ra) dec) l)
  end.
Lemma sep_sub r i j ai aj : nth_error (r_ants r) i = Some ai -> nth_error (r_ants r) j = Some aj -> vsub (a_pos aj) (a_pos ai) = separation r i j.
Proof.
  intros E F. unfold separation, pos_of. rewrite E, F. destruct (a_pos ai) as [[? ?] ?], (a_pos aj) as [[? ?] ?]. cbn. vec_eq; ring.
Qed.
Lemma baseline_frames r i j src :
  get_baseline sid r i j src =
  match nth_error (r_ants r) j, nth_error (r_ants r) i with
  | Some _, Some _ => obind (frames r src) (fun ms => Val (map (fun m => mv m (separation r i j)) ms))
  | _, _ => Exc IndexError
  end.
Proof.
  unfold get_baseline, get. destruct (nth_error (r_ants r) j) as [aj|] eqn:F; cbn [obind]; auto.
  destruct (nth_error (r_ants r) i) as [ai|] eqn:E; cbn [obind]; auto. rewrite (sep_sub r i j ai aj) by auto.
  unfold frames. destruct src as [s|b|l].
  - destruct (String.eqb s "e"); [destruct (r_eq2now r); auto|]. destruct (String.eqb s "z"); auto. destruct (String.eqb s "r"); auto.
    cbn [obind map]. rewrite mv_ident. auto.
  - destruct (Rlt_dec (s_alt b) 0); auto.
  - cbn [obind]. rewrite map_map. f_equal. apply map_ext. intros v. destruct (eq2radec v). auto.
Qed.
Lemma baseline_val r i j src l : get_baseline sid r i j src = Val l <->
  (i < length (r_ants r))%nat /\ (j < length (r_ants r))%nat /\ exists ms, frames r src = Val ms /\ l = map (fun m => mv m (separation r i j)) ms.
Proof.
  rewrite baseline_frames. pose proof (nth_error_Some (r_ants r) i) as Hi. pose proof (nth_error_Some (r_ants r) j) as Hj.
  destruct (nth_error (r_ants r) j), (nth_error (r_ants r) i).
  1:{ destruct (frames r src); cbn [obind]; split.
    - intros E. inversion E; subst. split; [apply Hi; congruence|]. split; [apply Hj; congruence|]. eauto.
    - intros [_ [_ [ms [E1 E2]]]]. congruence.
    - discriminate.
    - intros [_ [_ [ms [E1 E2]]]]. congruence. }
  all: split; [discriminate|]. all: intros [A [B _]]; exfalso; try (apply Hi in A; congruence); apply Hj in B; congruence.
Qed.
(* what operations leave alone *)
Definition geo (r : arr) := (r_lat r, r_date r, r_eq2zen r, r_eq2now r, r_eq2top r).
Lemma each_keeps {X} (p : arr -> X) f l : (forall r i, p (fst (f r i)) = p r) -> forall r, p (fst (each f l r)) = p r.
Proof.
  intros H. induction l as [|i l IH]; intros r; cbn [each]; auto. specialize (H r i). destruct (f r i) as [r' o]. cbn [fst] in H.
  destruct o; cbn [fst]; auto. rewrite IH. auto.
Qed.
Lemma update_at_keeps {X} (p : arr -> X) : (forall r x, p (with_ants r x) = p r) -> forall r i, p (fst (ant_update_at r i)) = p r.
Proof. intros H r i. unfold ant_update_at. destruct (get _ _); auto. destruct (ant_update _ _); cbn [fst]; auto. Qed.
Lemma ant_select_keeps {X} (p : arr -> X) : (forall r x, p (with_ants r x) = p r) -> (forall r x, p (with_beams r x) = p r) ->
  forall ks r i, p (fst (ant_select r i ks)) = p r.
Proof.
  intros H G ks r i. unfold ant_select. destruct (get _ _); auto. destruct (get _ _); auto. destruct (beam_select _ _) as [b' o].
  destruct o; cbn [fst]; auto. rewrite update_at_keeps; auto.
Qed.
Lemma bm_fill_keeps {X} (p : arr -> X) : (forall r x, p (with_cache r x) = p r) -> forall r c q, p (fst (bm_fill r c q)) = p r.
Proof.
  intros H r c q. unfold bm_fill. destruct (r_cache r) as [| |s bm]; auto. cbv zeta.
  destruct (find xy_eqb _ q); cbn [fst]; auto. destruct s; cbn [fst]; auto. destruct (ant_response _ _ _ _); cbn [fst]; auto. rewrite !H. auto.
Qed.
Lemma bm_response_keeps {X} (p : arr -> X) : (forall r x, p (with_cache r x) = p r) -> forall r i j, p (fst (bm_response r i j)) = p r.
Proof.
  intros H r i j. unfold bm_response. destruct (r_pol r) as [[p1 p2]|]; auto.
  pose proof (bm_fill_keeps p H r i p1) as E1. destruct (bm_fill r i p1) as [r1 o1]. cbn [fst] in E1. destruct o1; cbn [fst]; auto.
  pose proof (bm_fill_keeps p H r1 j p2) as E2. destruct (bm_fill r1 j p2) as [r2 o2]. cbn [fst] in E2. destruct o2; cbn [fst]; congruence.
Qed.
Lemma sim_keeps {X} (p : arr -> X) j1 : (forall r x, p (with_cache r x) = p r) -> forall r i j, p (fst (sim sid j1 r i j)) = p r.
Proof.
  intros H r i j. unfold sim. destruct (r_cache r) as [| |s bm]; auto. destruct s as [s|]; [|destruct bm; auto].
  destruct (gen_uvw _ _ _ _ _); auto. destruct (passband _ _ _); auto.
  pose proof (bm_response_keeps p H r i j) as E. destruct (bm_response r i j). auto.
Qed.
Lemma sim_cache_keeps {X} (p : arr -> X) : (forall r x, p (with_cache r x) = p r) -> forall r e j m n s, p (fst (sim_cache r e j m n s)) = p r.
Proof.
  intros H r e j m n s. unfold sim_cache. destruct (r_eq2top r); auto. cbv zeta. destruct (forallb _ _); cbn [fst]; auto.
  destruct s as [[a1 a2] th], n as [d1 d2]. destruct (obind _ _); cbn [fst]; auto.
Qed.
Definition times (l : list op) : list R := flat_map (fun o => match o with OTime t => [t] | OEphem t => [t] | _ => [] end) l.
Definition jtimes (l : list op) : list R := flat_map (fun o => match o with OTime t => [t] | _ => [] end) l.
Definition lastopt {A} (l : list A) : option A := fold_left (fun _ x => Some x) l None.
Lemma geo_update r : geo (fst (arr_update r)) = (r_lat r, r_date r, eq2top_m 0 (r_lat r), r_eq2now r, r_eq2top r).
Proof. unfold arr_update. cbv zeta. rewrite (each_keeps geo); [reflexivity|]. apply update_at_keeps. auto. Qed.
Lemma geo_select r ks : geo (fst (select_chans r ks)) = geo r \/ geo (fst (select_chans r ks)) = (r_lat r, r_date r, eq2top_m 0 (r_lat r), r_eq2now r, r_eq2top r).
Proof.
  unfold select_chans. pose proof (each_keeps geo (fun r i => ant_select r i ks) (seq 0 (length (r_ants r)))) as K.
  specialize (K ltac:(intros; apply (ant_select_keeps geo); auto) r). destruct (each _ _ _) as [r1 o]. cbn [fst] in K.
  destruct o; [right|left; auto]. rewrite geo_update. unfold geo in K. congruence.
Qed.
Lemma lastopt_app {A} (l : list A) x : lastopt (l ++ [x]) = Some x.
Proof. unfold lastopt. rewrite fold_left_app. auto. Qed.
Lemma run_geo j1 lat t0 bs ants l :
  let r := run sid j1 l (new_arr lat t0 bs ants) in
  geo r = (lat, last (times l) t0, eq2top_m 0 lat, option_map (fun t => rot_m (- sid t) (0, 0, 1)) (lastopt (times l)),
           option_map (fun t => eq2top_m (- sid t) lat) (lastopt (jtimes l))).
Proof.
  cbv zeta. induction l as [|o l IH] using rev_ind; [reflexivity|].
  unfold run in *. rewrite fold_left_app. cbn [fold_left]. set (r := fold_left (step sid j1) l (new_arr lat t0 bs ants)) in *.
  unfold times, jtimes in *. rewrite !flat_map_app. cbn [flat_map]. rewrite app_nil_r.
  destruct o; cbn [step]; rewrite ?app_nil_r.
  - destruct (geo_select r ks) as [E|E]; rewrite E; auto. unfold geo in IH. congruence.
  - rewrite geo_update. unfold geo in IH. congruence.
  - rewrite last_last, lastopt_app. unfold geo in *. cbn. congruence.
  - rewrite last_last, !lastopt_app. unfold geo in *. cbn. assert (r_lat r = lat) by congruence. unfold lst. cbn. congruence.
  - destruct p; auto.
  - rewrite (sim_cache_keeps geo); auto.
  - rewrite (bm_response_keeps geo); auto.
  - rewrite (sim_keeps geo); auto.
  - unfold point_ant. destruct (get _ _); auto.
  - rewrite (ant_select_keeps geo); auto.
Qed.
Lemma frames_rot j1 lat t0 bs ants l src ms :
  (forall b, src = SBody b -> rotation (s_map b)) -> frames (run sid j1 l (new_arr lat t0 bs ants)) src = Val ms -> Forall rotation ms.
Proof.
  intros B. pose proof (run_geo j1 lat t0 bs ants l) as G. cbv zeta in G. set (r := run sid j1 l (new_arr lat t0 bs ants)) in *. clearbody r.
  assert (U : unit (0, 0, 1)) by (unfold unit; cbn; ring).
  assert (G1 : r_eq2zen r = eq2top_m 0 lat) by (unfold geo in G; congruence).
  assert (G2 : r_eq2now r = option_map (fun t => rot_m (- sid t) (0, 0, 1)) (lastopt (times l))) by (unfold geo in G; congruence).
  unfold frames. destruct src as [s|b|vs].
  - rewrite G1, G2. destruct (String.eqb s "e").
    + destruct (lastopt (times l)); cbn [option_map]; [|discriminate]. intros E. match type of E with Val ?x = _ => assert (Q : ms = x) by congruence end. rewrite Q. constructor; auto. apply rot_rotation; auto.
    + destruct (String.eqb s "z"); [intros E; match type of E with Val ?x = _ => assert (Q : ms = x) by congruence end; rewrite Q; constructor; auto; apply eq2top_rotation|].
      destruct (String.eqb s "r"); [|discriminate]. intros E; inversion E; constructor; auto. split; [intros; rewrite !mv_ident; auto|unfold ident, det; ring].
  - destruct (Rlt_dec _ _); [discriminate|]. intros E; inversion E; constructor; auto.
  - intros E; inversion E. apply Forall_forall. intros m I. apply in_map_iff in I. destruct I as [v [<- _]]. destruct (eq2radec v). apply eq2top_rotation.
Qed.
Lemma eq2top_seen a d bl : mv (eq2top_m (- a) d) bl = seen_from a d bl.
Proof. destruct bl as [[x y] z]. unfold seen_from, eq2top_m, east, north, towards. rewrite sin_neg, cos_neg. cbn. vec_eq; ring. Qed.
End S.
