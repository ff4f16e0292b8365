From Coq Require Import Reals Lra String.
From Verif Require Import Base CleanModel ImgModel GeoModel GeoSpec GeoProofs ArrModel ArrSpec ArrProofs ArrProofs2.
Ltac Zify.zify_post_hook ::= idtac.
Open Scope R_scope.
Local Notation length := List.length.
Lemma zip_with_map_l {A B D E} (f : A -> B -> D) (g : E -> A) l m : zip_with f (map g l) m = zip_with (fun x y => f (g x) y) l m.
Proof. revert m. induction l as [|x l IH]; intros [|y m]; cbn; auto. rewrite IH. auto. Qed.
Lemma zip_with_map_r {A B D E} (f : A -> B -> D) (g : E -> B) l m : zip_with f l (map g m) = zip_with (fun x y => f x (g y)) l m.
Proof. revert m. induction l as [|x l IH]; intros [|y m]; cbn; auto. rewrite IH. auto. Qed.
Lemma zip_with_self {A D} (f : A -> A -> D) l : zip_with f l l = map (fun x => f x x) l.
Proof. induction l; cbn; congruence. Qed.
Lemma zip_with_ext {A B D} (f g : A -> B -> D) l m : (forall x y, f x y = g x y) -> zip_with f l m = zip_with g l m.
Proof. intros H. revert m. induction l as [|x l IH]; intros [|y m]; cbn; auto. rewrite H, IH. auto. Qed.
Lemma zip_with_length {A B D} (f : A -> B -> D) l m : length (zip_with f l m) = Nat.min (length l) (length m).
Proof. revert m. induction l as [|x l IH]; intros [|y m]; cbn; auto. Qed.
Lemma zip_zip {A B D E} (f : D -> E -> D) (g : A -> B -> D) (h : A -> B -> E) l m : zip_with f (zip_with g l m) (zip_with h l m) = zip_with (fun x y => f (g x y) (h x y)) l m.
Proof. revert m. induction l as [|x l IH]; intros [|y m]; cbn; auto. rewrite IH. auto. Qed.
Lemma bcast_eq {A B D} (f : A -> B -> D) a b : length a = length b -> bcast f a b = Val (zip_with f a b).
Proof. intros E. unfold bcast. rewrite E, Nat.eqb_refl. auto. Qed.
Section S.
Context (sid j1 : R -> R).
Lemma in_step_afreqs r fs : in_step r fs -> get_afreqs r = Val fs.
Proof.
  intros [N H]. unfold get_afreqs, get. destruct (r_ants r) as [|a l]; [congruence|]. cbn [nth_error obind].
  destruct (H a (or_introl eq_refl)) as [[b [E F]] _]. rewrite E. cbn. congruence.
Qed.
Lemma in_step_offset r fs i j : in_step r fs -> (i < length (r_ants r))%nat -> (j < length (r_ants r))%nat -> get_phs_offset r i j = Val (map (offset_at r i j) fs).
Proof.
  intros [_ H] A B. apply nth_error_Some in A, B. unfold get_phs_offset, offset_at, get.
  destruct (nth_error (r_ants r) i) as [a|] eqn:E; [|contradiction]. destruct (nth_error (r_ants r) j) as [b|] eqn:F; [|contradiction]. cbn [obind].
  destruct (H a (nth_error_In _ _ E)) as [_ [Pa _]]. destruct (H b (nth_error_In _ _ F)) as [_ [Pb _]]. rewrite Pa, Pb.
  rewrite bcast_eq by (rewrite !map_length; auto). rewrite zip_with_map_l, zip_with_map_r, zip_with_self. auto.
Qed.
(* the refraction of each of n sources: none is (0, 0) *)
Definition refr (src : srcarg) (ion : option (sa * sa)) (mf : sa) (n : nat) : out (list (R * (R * R))) :=
  match (match ion, src with None, SBody b => Some (sc2 (s_ionref b)) | _, _ => ion end) with
  | None => Val (repeat (0, (0, 0)) n)
  | Some q => obind (spread n (fst q)) (fun a => obind (spread n (snd q)) (fun b => obind (spread n mf) (fun m => Val (combine a (combine b m)))))
  end.
Definition phase_rows (r : arr) (i j : nat) (fs : list R) (bls : list vec) (ps : list (R * (R * R))) : list (list C) :=
  zip_with (fun bl p => map (fun f => cexp_turn (turns bl (fst p) (fst (snd p)) (snd (snd p)) f + offset_at r i j f)) fs) bls ps.
Lemma zip_repeat {A B D} (f : A -> B -> D) l x : zip_with f l (repeat x (length l)) = map (fun a => f a x) l.
Proof. induction l; cbn; congruence. Qed.
Lemma gen_phs_step r fs src i j mf ion shp : in_step r fs ->
  gen_phs sid j1 r src i j mf ion shp false = obind (get_baseline sid r i j src) (fun bls => obind (refr src ion mf (length bls)) (fun ps => Val (phase_rows r i j fs bls ps))).
Proof.
  intros H. unfold gen_phs, gen_uvw, refr. cbv zeta. set (ion' := match ion with Some _ => _ | None => _ end). clearbody ion'.
  destruct (get_baseline sid r i j src) as [bls|] eqn:E; cbn [obind]; auto. rewrite (in_step_afreqs _ _ H). cbn [obind].
  apply baseline_val in E. destruct E as [A [B _]]. rewrite (in_step_offset r fs i j) by auto.
  match goal with |- context [map (map third) ?u] => replace (map (map third) u) with (map (fun bl => map (fun f => third bl * f) fs) bls) end.
  2:{ rewrite map_map. apply map_ext. intros [[x y] z]. rewrite map_map. auto. }
  assert (K : forall (w : vec -> (R * (R * R)) -> R -> R) ps, obind (omap (fun row => bcast Rplus row (map (offset_at r i j) fs)) (zip_with (fun bl p => map (w bl p) fs) bls ps)) (fun ph => Val (map (map cexp_turn) ph)) =
                            Val (zip_with (fun bl p => map (fun f => cexp_turn (w bl p f + offset_at r i j f)) fs) bls ps)).
  { intros w. induction bls as [|bl bls IH]; intros ps; cbn [zip_with omap obind map]; auto. destruct ps as [|p ps]; cbn [zip_with omap obind map]; auto.
    rewrite bcast_eq by (rewrite !map_length; auto). cbn [obind]. specialize (IH ps). destruct (omap _ _); cbn [obind map] in *; [|discriminate].
    rewrite zip_with_map_l, zip_with_map_r, zip_with_self, map_map. f_equal. f_equal. congruence. }
  destruct ion' as [q|].
  - unfold refract. rewrite map_length. destruct (spread _ (fst q)) as [a|] eqn:Ea; cbn [obind]; auto. destruct (spread _ (snd q)) as [b|] eqn:Eb; cbn [obind]; auto.
    destruct (spread _ mf) as [m|] eqn:Em; cbn [obind]; auto. rewrite (in_step_afreqs _ _ H). cbn [obind].
    unfold phase_rows. rewrite <- K with (w := fun bl p f => turns bl (fst p) (fst (snd p)) (snd (snd p)) f).
    f_equal. f_equal. generalize (combine a (combine b m)). clear.
    induction bls as [|[[x y] z] bls IH]; intros [|[dra [ddec m]] ps]; cbn [map zip_with]; auto. rewrite IH. f_equal. cbn [third].
    clear. induction fs as [|f fs IH]; cbn [map zip_with]; auto. rewrite IH. reflexivity.
  - cbn [obind]. unfold phase_rows. rewrite <- K with (w := fun bl p f => turns bl (fst p) (fst (snd p)) (snd (snd p)) f). f_equal. f_equal.
    rewrite zip_repeat. apply map_ext. intros [[x y] z]. apply map_ext. intros f. cbn [fst snd turns third]. unfold Rdiv. ring.
Qed.
Lemma turns_add a b dra ddec m f : turns (vadd a b) dra ddec m f = turns a dra ddec m f + turns b dra ddec m f.
Proof. destruct a as [[? ?] ?], b as [[? ?] ?]. cbn. unfold Rdiv. ring. Qed.
Lemma cexp_add x y : cexp_turn (x + y) = cmul (cexp_turn x) (cexp_turn y).
Proof. unfold cexp_turn, cmul. cbn [fst snd]. rewrite Rmult_plus_distr_l, cos_plus, sin_plus. f_equal; ring. Qed.
Lemma offset_add r i j k f : (j < length (r_ants r))%nat -> (i < length (r_ants r))%nat -> (k < length (r_ants r))%nat ->
  offset_at r i k f = offset_at r i j f + offset_at r j k f.
Proof.
  intros A B D. apply nth_error_Some in A, B, D. unfold offset_at. destruct (nth_error (r_ants r) i); [|contradiction]. destruct (nth_error (r_ants r) j); [|contradiction].
  destruct (nth_error (r_ants r) k); [|contradiction]. ring.
Qed.
Lemma gen_phs_closure r fs src i j k mf ion shp P Q : in_step r fs ->
  gen_phs sid j1 r src i j mf ion shp false = Val P -> gen_phs sid j1 r src j k mf ion shp false = Val Q ->
  gen_phs sid j1 r src i k mf ion shp false = Val (zip_with (zip_with cmul) P Q).
Proof.
  intros H. rewrite !(gen_phs_step r fs) by auto. intros E F. obinv E. obinv F. apply baseline_val in Heqo. destruct Heqo as [A [B [ms [Fr E1]]]].
  apply baseline_val in Heqo1. destruct Heqo1 as [_ [D [ns [Fr' E2]]]]. assert (ns = ms) by congruence. subst ns.
  assert (G : get_baseline sid r i k src = Val (map (fun m => mv m (separation r i k)) ms)) by (apply baseline_val; eauto).
  rewrite G. cbn [obind]. rewrite map_length. subst a a1. rewrite map_length in *. assert (a2 = a0) by congruence. subst a2. rewrite Heqo0. cbn [obind]. f_equal.
  assert (E' : P = phase_rows r i j fs (map (fun m => mv m (separation r i j)) ms) a0) by congruence.
  assert (F' : Q = phase_rows r j k fs (map (fun m => mv m (separation r j k)) ms) a0) by congruence. subst P Q.
  unfold phase_rows. rewrite !zip_with_map_l, zip_zip. apply zip_with_ext. intros m [dra [ddec q]]. cbn [fst snd]. rewrite zip_with_map_l, zip_with_map_r, zip_with_self. apply map_ext. intros f.
  rewrite <- cexp_add. f_equal. rewrite (offset_add r i j k) by auto.
  replace (separation r i k) with (vadd (separation r i j) (separation r j k)). { rewrite mv_add, turns_add. ring. }
  unfold separation. destruct (pos_of r i) as [[? ?] ?], (pos_of r j) as [[? ?] ?], (pos_of r k) as [[? ?] ?]. cbn. vec_eq; ring.
Qed.
End S.
