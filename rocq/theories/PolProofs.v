From Coq Require Import Reals Lra String.
From Verif Require Import Base CleanModel ImgModel GeoModel GeoProofs ArrModel PolModel PolSpec.
Ltac Zify.zify_post_hook ::= idtac.
Open Scope R_scope.
Local Notation length := List.length.

Lemma polyval_poly c x : polyval c x = poly c x.
Proof.
  unfold polyval. assert (G : forall c y, fold_left (fun y c => y * x + c) c y = y * x ^ (length c) + poly c x).
  { induction c0 as [|a r IH]; intros y; cbn [fold_left length poly]; [cbn; ring|]. rewrite IH. cbn [pow]. ring. }
  rewrite G. ring.
Qed.
Lemma bcast_mapmap {A D} (h : A -> A -> D) {X} (f g : X -> A) fs : bcast h (map f fs) (map g fs) = Val (map (fun x => h (f x) (g x)) fs).
Proof.
  unfold bcast. rewrite !map_length, Nat.eqb_refl. f_equal. induction fs as [|x fs IH]; cbn [map zip_with]; auto. rewrite IH. auto.
Qed.
Lemma plook_map {A B} (g : string * A -> B) d p : plook (map (fun x => (fst x, g x)) d) p =
  obind (plook d p) (fun x => Val (g (p, x))).
Proof.
  induction d as [|[q x] d IH]; cbn [map plook]; auto. cbn [fst]. destruct (String.eqb q p) eqn:E; auto.
  apply String.eqb_eq in E. subst. auto.
Qed.
Lemma phsoff_current fs a p : two_feeds fs a -> current a -> In p ["x"; "y"]%string -> plook (pa_phsoff a) p = Val (map (phase a p) fs).
Proof.
  intros [F [K _]] C I. destruct (K p I) as [[c E] _].
  assert (P : pa_phsoff a = update_phsoff a).
  { unfold current, pupdate in C. destruct (update_gain a); [|discriminate]. cbn [obind] in C. injection C. intros E1.
    assert (H := f_equal pa_phsoff E1). auto. }
  rewrite P. unfold update_phsoff. rewrite (plook_map (fun x => map (polyval (snd x)) (pa_afreqs a))), E. cbn [obind snd]. rewrite F. f_equal.
  apply map_ext. intros f. unfold phase. rewrite E. apply polyval_poly.
Qed.
Lemma omap_look {A B} (g : string -> A -> out B) d r : omap (fun x => obind (g (fst x) (snd x)) (fun y => Val (fst x, y))) d = Val r ->
  forall p, plook r p = obind (plook d p) (fun x => g p x).
Proof.
  revert r. induction d as [|[q x] d IH]; cbn [omap fst snd]; intros r H p; [injection H as <-; auto|].
  destruct (g q x) as [y|] eqn:G; [|discriminate]. cbn [obind] in H.
  destruct (omap _ d) as [s|]; [|discriminate]. cbn [obind] in H. injection H as <-. cbn [plook].
  destruct (String.eqb q p) eqn:E; [|apply IH; auto]. apply String.eqb_eq in E. subst. cbn [obind]. auto.
Qed.
Lemma omap_same {A B} (f g : A -> out B) l : (forall x, f x = g x) -> omap f l = omap g l.
Proof. intros H. induction l as [|x l IH]; cbn [omap]; auto. rewrite H, IH. auto. Qed.
Definition gain_fun (a : pant) (p : string) (re : list R) : out (list C) :=
  obind (plook (pa_bpi a) p) (fun bi => obind (plook (pa_amp a) p) (fun g => Val (map (fun f => cscale g (polyval re f, polyval bi f)) (pa_afreqs a)))).
Lemma update_gain_shape a : update_gain a = omap (fun x => obind (gain_fun a (fst x) (snd x)) (fun y => Val (fst x, y))) (pa_bpr a).
Proof.
  unfold update_gain. apply omap_same. intros [p x]. unfold gain_fun. cbn [fst snd]. destruct (plook (pa_bpi a) p); auto. cbn [obind].
  destruct (plook (pa_amp a) p); auto.
Qed.
Lemma gain_current fs a p : two_feeds fs a -> current a -> In p ["x"; "y"]%string -> plook (pa_gain a) p = Val (map (gain a p) fs).
Proof.
  intros [F [K _]] Cu I. destruct (K p I) as [_ [[re E1] [[im E2] [g E3]]]].
  assert (P : update_gain a = Val (pa_gain a)).
  { unfold current, pupdate in Cu. destruct (update_gain a); [|discriminate]. cbn [obind] in Cu. injection Cu. intros H.
    assert (H2 := f_equal pa_gain H). cbn [pa_gain] in H2. rewrite H2. auto. }
  rewrite update_gain_shape in P. rewrite (omap_look _ _ _ P), E1. cbn [obind]. unfold gain_fun. rewrite E2, E3. cbn [obind]. rewrite F. f_equal.
  apply map_ext. intros f. unfold gain. rewrite E1, E2, E3. unfold cscale. cbn [fst snd]. rewrite !polyval_poly. auto.
Qed.
Lemma gain_missing fs a p : two_feeds fs a -> current a -> ~ In p ["x"; "y"]%string -> plook (pa_gain a) p = Exc KeyError.
Proof.
  intros [F [_ K]] Cu N.
  assert (P : update_gain a = Val (pa_gain a)).
  { unfold current, pupdate in Cu. destruct (update_gain a); [|discriminate]. cbn [obind] in Cu. injection Cu. intros H.
    assert (H2 := f_equal pa_gain H). cbn [pa_gain] in H2. rewrite H2. auto. }
  rewrite update_gain_shape in P. rewrite (omap_look _ _ _ P).
  assert (M : plook (pa_bpr a) p = Exc KeyError); [|rewrite M; auto].
  clear P F. revert K. induction (pa_bpr a) as [|[q x] d IH]; intros K; cbn [plook]; auto.
  destruct (String.eqb q p) eqn:E; [|apply IH; intros; apply K with x0; right; auto].
  apply String.eqb_eq in E. subst. exfalso. apply N. destruct (K p x) as [->| ->]; cbn; auto.
Qed.
Lemma omap_total {A B} (f : A -> out B) l : (forall x, In x l -> exists y, f x = Val y) -> exists r, omap f l = Val r.
Proof.
  induction l as [|x l IH]; intros H; cbn [omap]; [eauto|]. destruct (H x) as [y E]; [left; auto|]. rewrite E. cbn [obind].
  destruct IH as [r E2]; [intros; apply H; right; auto|]. rewrite E2. cbn [obind]. eauto.
Qed.
Lemma update_current fs a : two_feeds fs a -> exists b, pupdate a = Val b /\ current b /\ two_feeds fs b /\
  (forall p f, phase b p f = phase a p f) /\ (forall p f, gain b p f = gain a p f).
Proof.
  intros T. assert (T0 := T). destruct T as [F [K1 K2]].
  assert (G : exists g, update_gain a = Val g).
  { rewrite update_gain_shape. apply omap_total. intros [p x] I.
    assert (J : In p ["x"; "y"]%string) by (destruct (K2 p x I) as [->| ->]; cbn; auto).
    destruct (K1 p J) as [_ [_ [[im E2] [g E3]]]]. unfold gain_fun. cbn [fst snd]. rewrite E2, E3. cbn. eauto. }
  destruct G as [g E].
  exists (PAnt (pa_afreqs a) (pa_phspoly a) (pa_bpr a) (pa_bpi a) (pa_amp a) (update_phsoff a) g (pa_respx a) (pa_respy a)).
  split; [unfold pupdate; rewrite E; auto|]. split.
  { unfold current, pupdate. assert (E2 : forall x y z, update_gain (PAnt (pa_afreqs a) (pa_phspoly a) (pa_bpr a) (pa_bpi a) (pa_amp a) x y z (pa_respy a)) = update_gain a) by reflexivity.
    rewrite E2, E. cbn [obind]. unfold update_phsoff. cbn. auto. }
  split; [exact T0|]. split; reflexivity.
Qed.

Lemma lin_feeds p q pol : linear p q pol -> In p ["x"; "y"]%string /\ In q ["x"; "y"]%string.
Proof. intros [H|[H|[H|[H|[]]]]]; injection H as <- <- <-; cbn; auto. Qed.
Lemma lin_chars p q pol : linear p q pol -> first_char pol = p /\ last_char pol = q /\ existsb (String.eqb pol) ["xx"; "yy"; "xy"; "yx"]%string = true.
Proof. intros [H|[H|[H|[H|[]]]]]; injection H as <- <- <-; cbn; auto. Qed.
Lemma get_nth {A} (l : list A) i x : nth_error l i = Some x -> get l i = Val x.
Proof. unfold get. intros ->. auto. Qed.

Section Pair.
Variables (fs : list R) (r : parr) (i j : nat) (ai aj : pant).
Hypothesis Hi : nth_error (pr_ants r) i = Some ai.
Hypothesis Hj : nth_error (pr_ants r) j = Some aj.
Hypothesis Ti : two_feeds fs ai.
Hypothesis Tj : two_feeds fs aj.
Hypothesis Ci : current ai.
Hypothesis Cj : current aj.

Lemma linear_passband p q pol : linear p q pol -> pr_pol r = Some pol ->
  ppassband r i j = Val (map (fun f => times (gain aj q f) (conjugate (gain ai p f))) fs).
Proof.
  intros L P. destruct (lin_feeds _ _ _ L) as [I1 I2]. destruct (lin_chars _ _ _ L) as [E1 [E2 _]].
  unfold ppassband, pget_active_pol. rewrite P. cbn [obind]. rewrite (get_nth _ _ _ Hj). cbn [obind]. unfold ant_passband.
  rewrite E2, (gain_current fs aj q) by auto. cbn [obind]. rewrite (get_nth _ _ _ Hi). cbn [obind].
  rewrite E1, (gain_current fs ai p) by auto. cbn [obind]. rewrite map_map, bcast_mapmap. auto.
Qed.
Lemma stokes_passband pol : In pol ["I"; "Q"; "U"; "V"]%string -> pr_pol r = Some pol -> ppassband r i j = Exc KeyError.
Proof.
  intros L P. unfold ppassband, pget_active_pol. rewrite P. cbn [obind]. rewrite (get_nth _ _ _ Hj). cbn [obind]. unfold ant_passband.
  rewrite (gain_missing fs); auto. destruct L as [<-|[<-|[<-|[<-|[]]]]]; intros [H|[H|[]]]; discriminate.
Qed.
Lemma linear_offset p q pol : linear p q pol -> pr_pol r = Some pol ->
  pget_phs_offset r i j = Val (map (fun f => phase aj q f - phase ai p f) fs).
Proof.
  intros L P. destruct (lin_feeds _ _ _ L) as [I1 I2]. destruct (lin_chars _ _ _ L) as [E1 [E2 E3]].
  unfold pget_phs_offset, pget_active_pol. rewrite P. cbn [obind]. rewrite E3, E1, E2.
  rewrite (get_nth _ _ _ Hj), (get_nth _ _ _ Hi). cbn [obind].
  rewrite (phsoff_current fs aj q), (phsoff_current fs ai p) by auto. cbn [obind]. apply bcast_mapmap.
Qed.
Lemma stokes_offset pol s1 s2 a b c d : pr_pol r = Some pol ->
  In (pol, (s1, s2), (a, b, c, d)) [("I", (1, 1), ("y", "y", "x", "x")); ("Q", (1, -1), ("y", "y", "x", "x"));
    ("U", (1, 1), ("y", "x", "x", "y")); ("V", (1, -1), ("y", "x", "x", "y"))]%string ->
  pget_phs_offset r i j = Val (map (fun f => s1 * (phase aj a f - phase ai b f) + s2 * (phase aj c f - phase ai d f)) fs).
Proof.
  intros P L. unfold pget_phs_offset, pget_active_pol. rewrite P. cbn [obind].
  rewrite (get_nth _ _ _ Hj), (get_nth _ _ _ Hi). cbn [obind].
  destruct L as [H|[H|[H|[H|[]]]]]; injection H as <- <- <- <- <- <- <-; cbn [existsb String.eqb Ascii.eqb Bool.eqb orb];
    rewrite !(phsoff_current fs aj), !(phsoff_current fs ai) by (auto; cbn; auto); cbn [obind]; rewrite !bcast_mapmap; cbn [obind];
    rewrite !bcast_mapmap; f_equal; apply map_ext; intros f; ring.
Qed.
End Pair.

Lemma par_ang_position ha dec lat : let z := direction 0 lat in let q := par_ang ha dec lat in
  exists r, 0 <= r /\ inner z (east (- ha)) = r * sin q /\ inner z (north (- ha) dec) = r * cos q /\ - PI < q <= PI /\
    r * r + inner z (direction (- ha) dec) * inner z (direction (- ha) dec) = 1.
Proof.
  cbv zeta. unfold par_ang. set (u := cos lat * sin ha). set (d := sin lat * cos dec - cos lat * sin dec * cos ha).
  exists (sqrt (d * d + u * u)). destruct (polar_atan2 d u) as [E1 E2]. cbv zeta in E1, E2. rewrite E1, E2.
  split; [apply sqrt_pos|]. unfold direction, east, north, inner. rewrite cos_0, sin_0, cos_neg, sin_neg.
  split; [unfold u; ring|]. split; [unfold d; ring|]. split; [apply atan2_range|].
  rewrite sqrt_sqrt by nra. unfold u, d. clear.
  pose proof (sin2_cos2 ha) as A. pose proof (sin2_cos2 dec) as B. pose proof (sin2_cos2 lat) as D. unfold Rsqr in *.
  set (sh := sin ha) in *. set (ch := cos ha) in *. set (sd := sin dec) in *. set (cd := cos dec) in *. set (sl := sin lat) in *. set (cl := cos lat) in *.
  clearbody sh ch sd cd sl cl.
  replace (_ + _) with ((cl*cl*(sh*sh) + (sl*sl + cl*cl*(ch*ch)) * (sd*sd+cd*cd))) by ring. rewrite B.
  replace (_ + _) with (sl*sl + cl*cl*(sh*sh+ch*ch)) by ring. rewrite A. lra.
Qed.

Lemma quad_mean x y : 0 <= x -> 0 <= y -> Rmin x y <= sqrt (x * y) /\ sqrt (x * y) <= sqrt (/ 2 * (x * x) + / 2 * (y * y)) /\
  sqrt (/ 2 * (x * x) + / 2 * (y * y)) <= Rmax x y /\ (sqrt (x * y) = sqrt (/ 2 * (x * x) + / 2 * (y * y)) -> x = y).
Proof.
  intros X Y. assert (0 <= x * y) by (apply Rmult_le_pos; auto).
  assert (Q : x * y <= / 2 * (x * x) + / 2 * (y * y)) by (pose proof (Rle_0_sqr (x - y)); unfold Rsqr in *; lra). split; [|split; [|split]].
  - rewrite <- (sqrt_square (Rmin x y)) by (unfold Rmin; destruct (Rle_dec x y); auto). apply sqrt_le_1_alt.
    unfold Rmin. destruct (Rle_dec x y); [apply Rmult_le_compat_l|apply Rmult_le_compat_r]; lra.
  - apply sqrt_le_1_alt. auto.
  - assert (M : 0 <= Rmax x y) by (unfold Rmax; destruct (Rle_dec x y); auto). rewrite <- (sqrt_square (Rmax x y)) by auto. apply sqrt_le_1_alt.
    unfold Rmax. destruct (Rle_dec x y); [assert (x * x <= y * y) by (apply Rmult_le_compat; lra)|assert (y * y <= x * x) by (apply Rmult_le_compat; lra)]; lra.
  - intros E. apply sqrt_inj in E; [|auto|lra]. assert (Z : (x - y) * (x - y) = 0) by lra. destruct (Rmult_integral _ _ Z); lra.
Qed.

Lemma write_read_pol names : forall v, read_pol (fold_left write_pol names v) =
  match filter (fun n => existsb (String.eqb n) (map fst str2pol)) names with
  | [] => read_pol v
  | l => Val (last l EmptyString)
  end.
Proof.
  assert (G : forall n k v, code_of str2pol n = Some k -> read_pol (write_pol v n) = Val n).
  { intros n k v E. unfold write_pol. rewrite E. unfold read_pol. revert E. unfold str2pol. cbn [code_of].
    repeat (match goal with |- (if String.eqb ?a n then _ else _) = _ -> _ => destruct (String.eqb a n) eqn:?X;
      [apply String.eqb_eq in X; subst n; intros H; injection H as <-; reflexivity|clear X] end). discriminate. }
  assert (M : forall n, existsb (String.eqb n) (map fst str2pol) = true <-> exists k, code_of str2pol n = Some k).
  { intros n. generalize str2pol. clear. induction l as [|[q k] l IH]; cbn [existsb map code_of fst].
    - split; [discriminate|intros [? ?]; discriminate].
    - rewrite (String.eqb_sym n q). destruct (String.eqb q n); cbn [orb]; [split; eauto|auto]. }
  induction names as [|n names IH] using rev_ind; intros v; [reflexivity|].
  rewrite fold_left_app. cbn [fold_left]. rewrite filter_app. cbn [filter].
  destruct (existsb (String.eqb n) (map fst str2pol)) eqn:E.
  - destruct (proj1 (M n) E) as [k K]. rewrite (G _ _ _ K).
    destruct (filter _ names ++ [n]) eqn:D; [destruct (filter _ names); discriminate|]. rewrite <- D, last_last. auto.
  - rewrite app_nil_r, <- IH. unfold write_pol at 1. destruct (code_of str2pol n) eqn:K; auto.
    assert (X : existsb (String.eqb n) (map fst str2pol) = true) by (apply M; eauto). congruence.
Qed.
