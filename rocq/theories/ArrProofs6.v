From Coq Require Import Reals Lra String.
From Verif Require Import Base CleanModel ImgModel GeoModel GeoSpec GeoProofs ArrModel ArrSpec ArrProofs ArrProofs2 ArrProofs3 ArrProps ArrProofs5.
Ltac Zify.zify_post_hook ::= idtac.
Open Scope R_scope.
Local Notation length := List.length.
(* tables of beam responses *)
Definition bm_ok (r : arr) (s : simc) (bm : bmcache) : Prop :=
  forall c e p x, find Nat.eqb bm c = Some e -> find xy_eqb e p = Some x -> ant_response r c (c_top s) p = Val x.
Lemma find_store {K A} (eqb : K -> K -> bool) (H : forall a b, eqb a b = true <-> a = b) (l : list (K * A)) k x k' :
  find eqb (store eqb l k x) k' = if eqb k' k then Some x else find eqb l k'.
Proof.
  induction l as [|[a y] l IH]; cbn [store find]; auto.
  destruct (eqb k a) eqn:E; cbn [find].
  - apply H in E. subst a. destruct (eqb k' k) eqn:F; auto.
  - rewrite IH. destruct (eqb k' a) eqn:F; auto. apply H in F. subst a. destruct (eqb k' k) eqn:G; auto. apply H in G. subst k'. rewrite (proj2 (H k k) eq_refl) in E. discriminate.
Qed.
Lemma xy_eq a b : xy_eqb a b = true <-> a = b.
Proof. destruct a, b; cbn; split; congruence. Qed.
Lemma resp_cache r x c t p : ant_response (with_cache r x) c t p = ant_response r c t p.
Proof. reflexivity. Qed.
Definition has (bm : bmcache) c p x := exists e, find Nat.eqb bm c = Some e /\ find xy_eqb e p = Some x.
Lemma bm_fill_ok r s bm c p x : r_cache r = CDict (Some s) bm -> bm_ok r s bm -> ant_response r c (c_top s) p = Val x ->
  exists bm', bm_fill r c p = (with_cache r (CDict (Some s) bm'), Val tt) /\ bm_ok r s bm' /\ has bm' c p x /\ forall c' p' y, has bm c' p' y -> has bm' c' p' y.
Proof.
  intros E B X. unfold bm_fill. rewrite E.
  set (bm1 := match find Nat.eqb bm c with None => _ | Some _ => _ end).
  assert (B1 : bm_ok r s bm1 /\ (forall c' p' y, has bm c' p' y -> has bm1 c' p' y) /\ exists e, find Nat.eqb bm1 c = Some e).
  { unfold bm1. destruct (find Nat.eqb bm c) eqn:F; [split; [auto|split; eauto]|]. split; [|split].
    - intros c' e p' y. rewrite (find_store _ Nat.eqb_eq). destruct (Nat.eqb c' c); eauto. intros Z. injection Z as <-. discriminate.
    - intros c' p' y [e [H1 H2]]. exists e. split; auto. rewrite (find_store _ Nat.eqb_eq). destruct (Nat.eqb_spec c' c); auto. subst. congruence.
    - exists []. rewrite (find_store _ Nat.eqb_eq), Nat.eqb_refl. auto. }
  clearbody bm1. destruct B1 as [B1 [M [e F]]]. rewrite F. destruct (find xy_eqb e p) as [y|] eqn:G.
  - exists bm1. split; auto. split; auto. split; auto. exists e. split; auto. rewrite G. f_equal. specialize (B1 c e p y F G). congruence.
  - rewrite resp_cache, X. eexists. split; [reflexivity|]. split; [|split].
    + intros c' e' p' y. rewrite (find_store _ Nat.eqb_eq). destruct (Nat.eqb_spec c' c) as [->|]; eauto. intros Z. injection Z as <-.
      rewrite (find_store _ xy_eq). destruct (xy_eqb p' p) eqn:Q; eauto. apply xy_eq in Q. subst. congruence.
    + eexists. split. { rewrite (find_store _ Nat.eqb_eq), Nat.eqb_refl. reflexivity. } rewrite (find_store _ xy_eq), (proj2 (xy_eq p p) eq_refl). auto.
    + intros c' p' y H. apply M in H. destruct H as [e' [H1 H2]]. unfold has. rewrite (find_store _ Nat.eqb_eq). destruct (Nat.eqb_spec c' c) as [->|]; eauto.
      eexists. split; [reflexivity|]. rewrite (find_store _ xy_eq). assert (e' = e) by congruence. subst e'. destruct (xy_eqb p' p) eqn:Q; auto. apply xy_eq in Q. congruence.
Qed.
Lemma has_cached r s bm c p x : r_cache r = CDict s bm -> has bm c p x -> cached r c p = Val x.
Proof. intros E [e [F G]]. unfold cached. rewrite E, F, G. auto. Qed.
Lemma ant_of_get r i : (i < length (r_ants r))%nat -> get (r_ants r) i = Val (ant_of r i).
Proof. intros L. unfold get, ant_of. rewrite (nth_error_nth' (r_ants r) (ant_of r i) L). f_equal. apply nth_indep. auto. Qed.
Lemma ant_of_in r i : (i < length (r_ants r))%nat -> In (ant_of r i) (r_ants r).
Proof. intros L. apply nth_In. auto. Qed.
Lemma response_step r fs i p tops : in_step r fs -> (i < length (r_ants r))%nat -> ant_response r i tops p = Val (map (fun t => map (fun f => beam_at r i p f t) fs) tops).
Proof.
  intros [_ H] L. unfold ant_response. rewrite ant_of_get by auto. cbn [obind]. destruct (H _ (ant_of_in r i L)) as [[b [E F]] _].
  unfold beam_at, get. rewrite E. cbn [obind]. rewrite F. auto.
Qed.
Lemma passband_step r fs i j : in_step r fs -> (i < length (r_ants r))%nat -> (j < length (r_ants r))%nat ->
  passband r i j = Val (map (fun f => cmul (gain_at (ant_of r j) f) (conj (gain_at (ant_of r i) f))) fs).
Proof.
  intros [_ H] A B. unfold passband. rewrite !ant_of_get by auto. cbn [obind]. destruct (H _ (ant_of_in r i A)) as [_ [_ Gi]]. destruct (H _ (ant_of_in r j B)) as [_ [_ Gj]].
  rewrite Gi, Gj. rewrite bcast_eq by (rewrite !map_length; auto). rewrite !zip_with_map_r, zip_with_map_l, zip_with_self. auto.
Qed.
Lemma rows_map {X A B D} (f : A -> B -> D) (g : X -> list A) (h : X -> list B) l : (forall x, In x l -> length (g x) = length (h x)) ->
  rows f (map g l) (map h l) = Val (map (fun x => zip_with f (g x) (h x)) l).
Proof.
  intros H. unfold rows. rewrite bcast_eq by (rewrite !map_length; auto). cbn [obind]. rewrite zip_with_map_r, zip_with_map_l, zip_with_self.
  induction l as [|x l IH]; cbn [map omap]; auto. cbn [fst snd]. rewrite bcast_eq by (apply H; left; auto). cbn [obind]. rewrite IH by (intros; apply H; right; auto). auto.
Qed.
Lemma rows_one {X A B D} (f : A -> B -> D) (g : list A) (h : X -> list B) l : (forall x, In x l -> length g = length (h x)) ->
  rows f [g] (map h l) = Val (map (fun x => zip_with f g (h x)) l).
Proof.
  intros H. rewrite <- (rows_map f (fun _ => g) h l H). unfold rows. f_equal. rewrite (bcast_eq _ (map _ l)) by (rewrite !map_length; auto).
  unfold bcast. destruct (Nat.eqb_spec (length [g]) (length (map h l))) as [E|E].
  - destruct l as [|x [|y l]]; cbn in *; congruence.
  - rewrite zip_with_map_r, zip_with_map_l, zip_with_self, map_map. auto.
Qed.
Lemma sum_rows_nth F k l : Forall (fun row => length row = F) l -> (k < F)%nat -> length (sum_rows F l) = F /\ nth k (sum_rows F l) czero = csum (map (fun row => nth k row czero) l).
Proof.
  intros H L. induction H as [|row l E H IH]; cbn [sum_rows map].
  - split. apply repeat_length. cbn. apply nth_repeat.
  - destruct IH as [I1 I2]. split. rewrite zip_with_length, I1, E. apply Nat.min_id.
    unfold csum in *. cbn [fold_right]. rewrite <- I2. rewrite <- E in L. revert L I1. rewrite <- E. clear. generalize (sum_rows (length row) l). intros s L I. revert s k L I.
    induction row as [|x row IH]; intros [|y s] k L I; cbn in *; try lia. destruct k; auto. apply IH; lia.
Qed.
Section S.
Context (sid j1 : R -> R).
Definition eq2uvw (r : arr) i j (q : source) fs := map (fun f => vscale f (bl_to sid r i j q)) fs.
Lemma baseline_q r i j qs : (i < length (r_ants r))%nat -> (j < length (r_ants r))%nat -> get_baseline sid r i j (SVecs (map q_v qs)) = Val (map (bl_to sid r i j) qs).
Proof.
  intros A B. unfold get_baseline. rewrite !ant_of_get by auto. cbn [obind]. f_equal. rewrite map_map. apply map_ext. intros q. unfold bl_to.
  destruct (eq2radec (q_v q)) as [ra dec]. rewrite (sep_sub r i j).
  - rewrite <- eq2top_seen. f_equal. f_equal. ring.
  - apply get_val, ant_of_get. auto.
  - apply get_val, ant_of_get. auto.
Qed.
Lemma uvw_q r fs i j qs : in_step r fs -> (i < length (r_ants r))%nat -> (j < length (r_ants r))%nat ->
  gen_uvw sid r i j (SVecs (map q_v qs)) = Val (map (fun q => eq2uvw r i j q fs) qs).
Proof.
  intros H A B. unfold gen_uvw. rewrite baseline_q by auto. cbn [obind]. rewrite (in_step_afreqs _ _ H). cbn [obind]. f_equal. rewrite map_map. apply map_ext. intros q.
  unfold eq2uvw. destruct (bl_to sid r i j q) as [[x y] z]. apply map_ext. intros f. cbn. f_equal; [f_equal|]; ring.
Qed.
Lemma combine_map {X A B} (f : X -> A) (g : X -> B) l : combine (map f l) (map g l) = map (fun x => (f x, g x)) l.
Proof. induction l; cbn; congruence. Qed.
Lemma gen_phs_resolve r src i j mf ion shp : gen_phs sid j1 r src i j mf ion (Some shp) true =
  obind (gen_phs sid j1 r src i j mf ion (Some shp) false) (fun P => obind (gen_uvw sid r i j src) (fun uvw => obind (resolve_src j1 uvw shp) (fun a =>
    omap (fun p => bcast (fun z k => cscale k z) (fst p) (snd p)) (combine P a)))).
Proof.
  unfold gen_phs. cbv zeta. destruct (gen_uvw sid r i j src) as [uvw|]; cbn [obind]; auto.
  destruct ion as [q|], src; cbn [obind]; try (destruct (refract _ _ _ _); cbn [obind]; auto); destruct (get_phs_offset r i j); cbn [obind]; auto; destruct (omap _ _); cbn [obind]; auto.
Qed.
Definition fringe r i j q f := let '(u, v, w) := vscale f (bl_to sid r i j q) in
  cscale (disk j1 q u v) (cexp_turn (turns (bl_to sid r i j q) (q_dra q) (q_ddec q) (q_mf q) f + offset_at r i j f)).
Lemma gen_phs_q r fs i j qs mf ion shp jys eqs : in_step r fs -> (i < length (r_ants r))%nat -> (j < length (r_ants r))%nat -> given eqs jys mf ion shp qs ->
  gen_phs sid j1 r (SVecs eqs) i j mf (Some ion) (Some shp) true = Val (map (fun q => map (fringe r i j q) fs) qs).
Proof.
  intros H A B [-> [_ [G3 [G4 [G5 [G6 [G7 G8]]]]]]]. rewrite gen_phs_resolve, (gen_phs_step sid j1 r fs) by auto. rewrite baseline_q by auto. cbn [obind]. rewrite map_length.
  unfold refr. rewrite G3, G4, G5. cbn [obind]. rewrite (uvw_q _ fs) by auto. cbn [obind]. unfold resolve_src. destruct shp as [[a1 a2] th]. cbn [fst snd] in *. rewrite map_length, G6, G7, G8. cbn [obind].
  rewrite !combine_map. unfold phase_rows. rewrite !zip_with_map_r, !zip_with_map_l, !zip_with_self. rewrite combine_map. cbn [fst snd].
  clear. induction qs as [|q qs IH]; cbn [map omap]; auto. rewrite IH. cbn [obind fst snd]. unfold eq2uvw at 1. rewrite map_map. rewrite bcast_eq by (rewrite !map_length; auto). cbn [obind].
  rewrite zip_with_map_r, zip_with_map_l, zip_with_self. f_equal. f_equal. apply map_ext. intros f. unfold fringe, disk. destruct (vscale f (bl_to sid r i j q)) as [[u v] w]. auto.
Qed.
Lemma sim_formula r fs s bm m qs i j p1 p2 : in_step r fs -> (i < length (r_ants r))%nat -> (j < length (r_ants r))%nat ->
  r_pol r = Some (p1, p2) -> r_cache r = CDict (Some s) bm -> bm_ok r s bm -> holds m s qs -> qs <> [] -> (forall q, In q qs -> length (q_jys q) = length fs) ->
  exists vis bm', sim sid j1 r i j = (with_cache r (CDict (Some s) bm'), Val vis) /\ bm_ok r s bm' /\ length vis = length fs /\
  forall k, (k < length fs)%nat -> nth k vis czero = visibility sid j1 r m p1 p2 i j qs fs k.
Proof.
  intros H A B P Ec Bo [G T] N J. unfold sim. rewrite Ec.
  assert (Ge := G). destruct Ge as [Geq [Gj _]]. rewrite Geq. rewrite (uvw_q r fs) by auto. rewrite (passband_step r fs) by auto.
  unfold bm_response. rewrite P.
  destruct (bm_fill_ok r s bm i p1 _ Ec Bo (response_step r fs i p1 _ H A)) as [bm1 [E1 [B1 [H1 _]]]]. rewrite E1.
  destruct (bm_fill_ok (with_cache r (CDict (Some s) bm1)) s bm1 j p2 _ eq_refl B1 (response_step (with_cache r _) fs j p2 _ H B)) as [bm2 [E2 [B2 [H2 M2]]]]. rewrite E2.
  set (r2 := with_cache (with_cache r (CDict (Some s) bm1)) (CDict (Some s) bm2)).
  assert (R2 : r2 = with_cache r (CDict (Some s) bm2)) by reflexivity.
  rewrite (has_cached r2 (Some s) bm2 j p2 _ eq_refl H2). cbn [obind]. rewrite (has_cached r2 (Some s) bm2 i p1 _ eq_refl (M2 _ _ _ H1)). cbn [obind].
  rewrite T, !map_map. rewrite rows_map by (intros; rewrite !map_length; auto). cbn [obind].
  rewrite <- Geq. rewrite (gen_phs_q r2 fs i j qs _ _ _ (c_jys s)) by auto. cbn [obind]. rewrite !map_length, Gj, map_length, Nat.eqb_refl. cbn [andb].
  match goal with |- context [forallb ?f ?l] => replace (forallb f l) with true end.
  2:{ symmetry. apply forallb_forall. intros [a b] I. rewrite map_map, combine_map in I. apply in_map_iff in I. destruct I as [q [Z I]]. inversion Z. cbn [fst snd]. rewrite !map_length, J by auto. apply Nat.eqb_refl. }
  rewrite rows_one. 2:{ intros q I. rewrite zip_with_length, !map_length, Nat.min_id. auto. } cbn [obind].
  rewrite rows_map. 2:{ intros q I. rewrite !zip_with_length, !map_length, !Nat.min_id. symmetry. auto. } cbn [obind].
  rewrite map_map. rewrite rows_map. 2:{ intros q I. rewrite !zip_with_length, !map_length, J, !Nat.min_id; auto. } cbn [obind].
  match goal with |- context [Val (sum_rows ?x (map ?y qs))] => set (F := x) ; set (h := y) end.
  assert (Fh : Forall (fun row => length row = length fs) (map h qs)).
  { apply Forall_forall. intros row I. apply in_map_iff in I. destruct I as [q [<- I]]. unfold h. rewrite !zip_with_length, !map_length, J, !Nat.min_id; auto. }
  assert (EF : F = length fs). { unfold F. destruct qs as [|q qs]; [congruence|]. cbn [map hd]. inversion Fh. auto. }
  rewrite EF. exists (sum_rows (length fs) (map h qs)), bm2. rewrite R2. split; auto. split; auto. split.
  - clear - Fh. induction Fh as [|row l E Fh IH]; cbn [sum_rows]. apply repeat_length. rewrite zip_with_length, E, IH. apply Nat.min_id.
  - intros k L. rewrite (proj2 (sum_rows_nth _ k _ Fh L)). unfold visibility. f_equal. rewrite map_map. apply map_ext_in. intros q I. unfold h.
    specialize (J q I). clear - J L. unfold contribution.
    assert (Z : forall (a b c d : R -> C) (js : list R) l k, length js = length l -> (k < length l)%nat ->
      nth k (zip_with cmul (zip_with (fun z x => cscale x z) (zip_with cmul (map a l) (zip_with cmul (map b l) (map cconjugate (map c l)))) js) (map cconjugate (map d l))) czero =
      cmul (cscale (nth k js 0) (cmul (a (nth k l 0)) (cmul (b (nth k l 0)) (conj (c (nth k l 0)))))) (conj (d (nth k l 0)))).
    { clear. intros a b c d js l. revert js. induction l as [|x l IH]; intros [|y js] k E L; cbn [map zip_with length nth] in *; try lia. destruct k; [reflexivity|]. apply IH; lia. }
    rewrite Z by auto. unfold fringe. change (bl_to sid r2 i j q) with (bl_to sid r i j q). destruct (vscale (nth k fs 0) (bl_to sid r i j q)) as [[u v] w].
    change (offset_at r2 i j) with (offset_at r i j). f_equal. unfold conj, cscale. cbn [fst snd]. f_equal. ring.
Qed.
Lemma sim_width r fs s bm m qs i j p1 p2 : in_step r fs -> (i < length (r_ants r))%nat -> (j < length (r_ants r))%nat ->
  r_pol r = Some (p1, p2) -> r_cache r = CDict (Some s) bm -> bm_ok r s bm -> holds m s qs -> (exists q, In q qs /\ length (q_jys q) <> length fs) ->
  snd (sim sid j1 r i j) = Exc ValueError.
Proof.
  intros H A B P Ec Bo [G T] (q & Iq & J). unfold sim. rewrite Ec.
  assert (Ge := G). destruct Ge as [Geq [Gj _]]. rewrite Geq. rewrite (uvw_q r fs) by auto. rewrite (passband_step r fs) by auto.
  unfold bm_response. rewrite P.
  destruct (bm_fill_ok r s bm i p1 _ Ec Bo (response_step r fs i p1 _ H A)) as [bm1 [E1 [B1 [H1 _]]]]. rewrite E1.
  destruct (bm_fill_ok (with_cache r (CDict (Some s) bm1)) s bm1 j p2 _ eq_refl B1 (response_step (with_cache r _) fs j p2 _ H B)) as [bm2 [E2 [B2 [H2 M2]]]]. rewrite E2.
  set (r2 := with_cache (with_cache r (CDict (Some s) bm1)) (CDict (Some s) bm2)).
  assert (R2 : r2 = with_cache r (CDict (Some s) bm2)) by reflexivity.
  rewrite (has_cached r2 (Some s) bm2 j p2 _ eq_refl H2). cbn [obind]. rewrite (has_cached r2 (Some s) bm2 i p1 _ eq_refl (M2 _ _ _ H1)). cbn [obind].
  rewrite T, !map_map. rewrite rows_map by (intros; rewrite !map_length; auto). cbn [obind].
  rewrite <- Geq. rewrite (gen_phs_q r2 fs i j qs _ _ _ (c_jys s)) by auto. cbn [obind]. rewrite !map_length, Gj, map_length, Nat.eqb_refl. cbn [andb].
  match goal with |- context [forallb ?f ?l] => replace (forallb f l) with false end; auto.
  symmetry. apply Bool.not_true_is_false. intros Z. rewrite forallb_forall in Z. apply J.
  rewrite map_map, combine_map in Z. specialize (Z _ (in_map _ _ _ Iq)). cbn [fst snd] in Z. rewrite !map_length in Z. apply Nat.eqb_eq in Z. auto.
Qed.
End S.
