From Coq Require Import Reals Lra String.
From Verif Require Import Base CleanModel ImgModel GeoModel GeoSpec GeoProofs ArrModel ArrSpec ArrProofs.
Ltac Zify.zify_post_hook ::= idtac.
Open Scope R_scope.
Local Notation length := List.length.
Notation lift h o := (obind o (fun l => Val (map h l))).
Lemma zip_map {A B D A' B' D'} (f : A -> B -> D) (g : A' -> B' -> D') p q h : (forall x y, g (p x) (q y) = h (f x y)) ->
  forall a b, zip_with g (map p a) (map q b) = map h (zip_with f a b).
Proof. intros H. induction a as [|x a IH]; intros [|y b]; cbn [map zip_with]; auto. rewrite H, IH. auto. Qed.
Lemma bcast_map {A B D A' B' D'} (f : A -> B -> D) (g : A' -> B' -> D') p q h : (forall x y, g (p x) (q y) = h (f x y)) ->
  forall a b, bcast g (map p a) (map q b) = lift h (bcast f a b).
Proof.
  intros H a b. unfold bcast. rewrite !map_length. destruct (Nat.eqb (length a) (length b)) eqn:E; [cbn; rewrite (zip_map f) with (h := h); auto|].
  destruct a as [|x [|x' a]], b as [|y [|y' b]]; cbn [map length Nat.eqb lift obind] in *; try discriminate; auto; repeat f_equal; rewrite ?map_map; auto;
    apply map_ext; auto.
Qed.
Lemma bcast_swap {A B D D'} (f : A -> B -> D) (g : B -> A -> D') h : (forall x y, g y x = h (f x y)) -> forall a b, bcast g b a = lift h (bcast f a b).
Proof.
  intros H a b. unfold bcast. rewrite (Nat.eqb_sym (length b)). destruct (Nat.eqb (length a) (length b)) eqn:E.
  - cbn [obind]. f_equal. clear E. revert b. induction a as [|x a IH]; intros [|y b]; cbn [zip_with map]; auto. rewrite H, IH. auto.
  - destruct a as [|x [|x' a]], b as [|y [|y' b]]; cbn [map length Nat.eqb lift obind] in *; try discriminate; auto; repeat f_equal; rewrite ?map_map; auto;
    apply map_ext; auto.
Qed.
Lemma omap_lift {A B A' B'} (f : A -> out B) (g : A' -> out B') p h : (forall x, g (p x) = obind (f x) (fun y => Val (h y))) ->
  forall l, omap g (map p l) = lift h (omap f l).
Proof.
  intros H. induction l as [|x l IH]; cbn [map omap]; auto. rewrite H, IH. destruct (f x); cbn; auto. destruct (omap f l); cbn; auto.
Qed.
Lemma omap_val {A B} (f : A -> out B) l m : omap f l = Val m <-> Forall2 (fun x y => f x = Val y) l m.
Proof.
  revert m. induction l as [|x l IH]; intros m; cbn [omap].
  - split; [intros E; inversion E; auto|intros E; inversion E; auto].
  - destruct (f x) eqn:E; cbn [obind].
    + destruct (omap f l) eqn:F; cbn [obind].
      * split; [intros Q; inversion Q; subst; constructor; auto; apply IH; auto|intros Q; inversion Q; subst]. assert (a = y) by congruence. subst. f_equal. f_equal.
        apply IH in H3. congruence.
      * split; [discriminate|intros Q; inversion Q; subst]. apply IH in H3. discriminate.
    + split; [discriminate|intros Q; inversion Q; subst]. congruence.
Qed.
Section S.
Context (sid j1 : R -> R).
Lemma baseline_swap r i j src : get_baseline sid r j i src = lift (vscale (-1)) (get_baseline sid r i j src).
Proof.
  rewrite !baseline_frames. destruct (nth_error (r_ants r) i), (nth_error (r_ants r) j); auto. destruct (frames sid r src); cbn; auto. rewrite map_map.
  f_equal. apply map_ext. intros m. rewrite <- mv_scale. f_equal. unfold separation. destruct (pos_of r i) as [[? ?] ?], (pos_of r j) as [[? ?] ?]. cbn. vec_eq; ring.
Qed.
Lemma uvw_swap r i j src : gen_uvw sid r j i src = lift (map (vscale (-1))) (gen_uvw sid r i j src).
Proof.
  unfold gen_uvw. rewrite baseline_swap. destruct (get_baseline sid r i j src); cbn [obind]; auto. destruct (get_afreqs r); cbn [obind]; auto. cbn [obind].
  rewrite !map_map. f_equal. apply map_ext. intros [[x y] z]. cbn [vscale]. rewrite map_map. apply map_ext. intros f. cbn. vec_eq; ring.
Qed.
Lemma offset_swap r i j : get_phs_offset r j i = lift Ropp (get_phs_offset r i j).
Proof.
  unfold get_phs_offset, get. destruct (nth_error (r_ants r) i) as [a|], (nth_error (r_ants r) j) as [b|]; cbn [obind]; auto.
  apply (bcast_swap Rminus). intros; ring.
Qed.
Lemma refract_neg r uvw mf ion : refract r (map (map (vscale (-1))) uvw) mf ion = lift (map Ropp) (refract r uvw mf ion).
Proof.
  unfold refract. rewrite map_length. destruct (spread _ (fst ion)); cbn [obind]; auto. destruct (spread _ (snd ion)); cbn [obind]; auto.
  destruct (spread _ mf); cbn [obind]; auto. destruct (get_afreqs r) as [fs|]; cbn [obind]; auto. f_equal.
  generalize (combine a (combine a0 a1)). clear. induction uvw as [|row uvw IH]; intros [|[dra [ddec m]] l]; cbn [map zip_with]; auto. rewrite IH. f_equal.
  clear IH. revert fs. clear. induction row as [|[[u v] w] row IH]; intros [|f fs]; cbn [map zip_with]; auto. rewrite IH. f_equal. unfold Rdiv. cbn [vscale]. ring.
Qed.
Lemma resolve_neg uvw shp : resolve_src j1 (map (map (vscale (-1))) uvw) shp = resolve_src j1 uvw shp.
Proof.
  unfold resolve_src. rewrite map_length. destruct shp as [[a1 a2] th]. destruct (spread _ a1); cbn [obind]; auto. destruct (spread _ a2); cbn [obind]; auto.
  destruct (spread _ th); cbn [obind]; auto. f_equal. generalize (combine a (combine a0 a3)). clear.
  induction uvw as [|row uvw IH]; intros [|[p [q t]] l]; cbn [map zip_with]; auto. rewrite IH. f_equal. rewrite map_map. apply map_ext. intros [[u v] w]. cbn [vscale].
  replace ((p * (-1 * u * cos t - -1 * v * sin t)) ^ 2) with ((p * (u * cos t - v * sin t)) ^ 2) by ring.
  replace ((q * (-1 * u * sin t + -1 * v * cos t)) ^ 2) with ((q * (u * sin t + v * cos t)) ^ 2) by ring. auto.
Qed.
Lemma third_neg v : third (vscale (-1) v) = - third v.
Proof. destruct v as [[? ?] ?]. cbn. ring. Qed.
Lemma cexp_neg x : cexp_turn (- x) = conj (cexp_turn x).
Proof. unfold cexp_turn, conj. cbn [fst snd]. replace (2 * PI * - x) with (- (2 * PI * x)) by ring. rewrite cos_neg, sin_neg. auto. Qed.
Lemma gen_phs_swap r src i j mf ion shp rs :
  gen_phs sid j1 r src j i mf ion shp rs = lift (map conj) (gen_phs sid j1 r src i j mf ion shp rs).
Proof.
  unfold gen_phs. cbv zeta. set (ion' := match ion with Some _ => _ | None => _ end). set (shp' := match shp with Some _ => _ | None => _ end). clearbody ion' shp'.
  rewrite uvw_swap. destruct (gen_uvw sid r i j src) as [uvw|]; cbn [obind]; auto.
  assert (W : map (map third) (map (map (vscale (-1))) uvw) = map (map Ropp) (map (map third) uvw)).
  { rewrite !map_map. apply map_ext. intros row. rewrite !map_map. apply map_ext. apply third_neg. }
  rewrite W. set (w := map (map third) uvw). clearbody w.
  assert (Q : match ion' with None => Val (map (map Ropp) w) | Some q => obind (refract r (map (map (vscale (-1))) uvw) mf q) (fun dw => Val (zip_with (zip_with Rplus) (map (map Ropp) w) dw)) end =
              lift (map Ropp) (match ion' with None => Val w | Some q => obind (refract r uvw mf q) (fun dw => Val (zip_with (zip_with Rplus) w dw)) end)).
  { destruct ion'; auto. rewrite refract_neg. destruct (refract _ _ _ _); cbn [obind]; auto. f_equal. apply zip_map. intros x y. apply zip_map. intros; ring. }
  rewrite Q. clear Q W. destruct (match ion' with None => Val w | Some q => _ end) as [w'|]; cbn [obind]; auto.
  rewrite offset_swap. destruct (get_phs_offset r i j) as [o|]; cbn [obind]; auto.
  rewrite (omap_lift (fun row => bcast Rplus row o) (fun row => bcast Rplus row (map Ropp o)) (map Ropp) (map Ropp)).
  2:{ intros x. rewrite (bcast_map Rplus Rplus Ropp Ropp Ropp); auto. intros; ring. }
  destruct (omap _ w') as [ph|]; cbn [obind]; auto.
  assert (P : map (map cexp_turn) (map (map Ropp) ph) = map (map conj) (map (map cexp_turn) ph)).
  { rewrite !map_map. apply map_ext. intros row. rewrite !map_map. apply map_ext. apply cexp_neg. }
  rewrite P. destruct rs; auto. destruct shp' as [s|]; auto. rewrite resolve_neg. destruct (resolve_src j1 uvw s) as [a|]; cbn [obind]; auto.
  set (phs := map (map cexp_turn) ph). clearbody phs.
  replace (combine (map (map conj) phs) a) with (map (fun p => (map conj (fst p), snd p)) (combine phs a)).
  2:{ clear. revert a. induction phs as [|x phs IH]; intros [|y a]; cbn [map combine]; auto. rewrite IH. auto. }
  rewrite (omap_lift (fun p => bcast (fun z k => cscale k z) (fst p) (snd p)) _ _ (map conj)); auto.
  intros [x y]. cbn [fst snd]. rewrite <- (map_id y) at 1. apply (bcast_map (fun z k => cscale k z)). intros z k. unfold cscale, conj. cbn. f_equal. ring.
Qed.
Lemma modulus_turn x : modulus2 (cexp_turn x) = 1.
Proof. unfold modulus2, cexp_turn. cbn [fst snd]. pose proof (sc1 (2 * PI * x)). lra. Qed.
Lemma gen_phs_modulus r src i j mf ion shp P : gen_phs sid j1 r src i j mf ion shp false = Val P -> Forall (Forall (fun z => modulus2 z = 1)) P.
Proof.
  unfold gen_phs. cbv zeta. intros H. obinv H. inversion H. apply Forall_forall. intros row I. apply in_map_iff in I. destruct I as [x [<- _]].
  apply Forall_forall. intros z I. apply in_map_iff in I. destruct I as [y [<- _]]. apply modulus_turn.
Qed.
Lemma cquot_cmul z p : modulus2 p = 1 -> cquot (cmul z p) p = z /\ cmul (cquot z p) p = z.
Proof.
  intros M. destruct z as [a b], p as [c d]. unfold modulus2 in M. unfold cquot, cmul, cnorm2. cbn [fst snd] in *. rewrite M. split; f_equal.
  - transitivity (a * (c * c + d * d)); [field|rewrite M; ring].
  - transitivity (b * (c * c + d * d)); [field|rewrite M; ring].
  - transitivity (a * (c * c + d * d)); [field|rewrite M; ring].
  - transitivity (b * (c * c + d * d)); [field|rewrite M; ring].
Qed.
Lemma bcast_undo (f g : C -> C -> C) d ph d' : Forall (fun p => forall z, g (f z p) p = z) ph -> bcast f d ph = Val d' -> length d' = length d -> bcast g d' ph = Val d.
Proof.
  intros H. unfold bcast at 1. destruct (Nat.eqb (length d) (length ph)) eqn:E.
  - apply Nat.eqb_eq in E. intros Q L. assert (D : d' = zip_with f d ph) by congruence. subst d'. unfold bcast. rewrite L. apply Nat.eqb_eq in E. rewrite E. f_equal. apply Nat.eqb_eq in E.
    clear L Q. revert d E. induction H as [|p ph Hp H IH]; intros [|z d]; cbn [length zip_with]; intros E; try discriminate; auto. rewrite Hp, IH; auto.
  - intros Q L. destruct d as [|z [|z' d]].
    + destruct ph as [|p [|p' ph]]; try discriminate. inversion Q; subst d'. cbn. auto.
    + inversion Q; subst d'. rewrite map_length in L. cbn in L, E. rewrite L in E. discriminate.
    + destruct ph as [|p [|p' ph]]; try discriminate. inversion H; subst. assert (D : d' = map (fun x => f x p) (z :: z' :: d)) by congruence. subst d'. cbn [map]. unfold bcast. cbn [length Nat.eqb].
      cbn [map]. rewrite map_map, !H2. do 3 f_equal. rewrite <- (map_id d) at 2. apply map_ext. auto.
Qed.
End S.
