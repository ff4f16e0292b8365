From Coq Require Import Reals Lra String.
From Verif Require Import Base CleanModel ImgModel GeoModel GeoSpec GeoProofs ArrModel ArrSpec ArrProofs ArrProofs2 ArrProofs3 ArrProps.
Ltac Zify.zify_post_hook ::= idtac.
Open Scope R_scope.
Local Notation length := List.length.
Notation up m := (is_up m).
(* filtering *)
Lemma compress_map {A B} (f : A -> bool) (g : A -> B) l : compress (map f l) (map g l) = Val (map g (filter f l)).
Proof. induction l as [|x l IH]; cbn [map compress filter]; auto. destruct (f x); auto. rewrite IH. auto. Qed.
Lemma spread_compress {A} (f : A -> bool) (g : A -> R) l x : spread (length l) x = Val (map g l) ->
  exists y, compress_sa (map f l) x = Val y /\ spread (length (filter f l)) y = Val (map g (filter f l)).
Proof.
  destruct x as [v|v]; cbn [spread compress_sa].
  - intros E. exists (Sc v). split; auto. cbn [spread]. f_equal. injection E as E. induction l as [|a l IH]; cbn [filter length repeat map] in *; auto.
    injection E as E1 E2. destruct (f a); cbn [length repeat map]; [rewrite IH by auto; congruence|auto].
  - destruct (Nat.eqb_spec (length v) (length l)); [|discriminate]. intros E. injection E as ->. rewrite compress_map. cbn [obind]. eexists. split; [reflexivity|].
    cbn [spread]. rewrite map_length, Nat.eqb_refl. auto.
Qed.
Lemma all_down m qs : forallb negb (map (fun t => Rltb 0 (third t)) (map (mv m) (map q_v qs))) = true <-> filter (up m) qs = [].
Proof.
  induction qs as [|q qs IH]; cbn [map forallb filter]; [tauto|]. unfold is_up at 1. destruct (Rltb 0 _); cbn [negb andb]; [|exact IH]. split; discriminate.
Qed.
Lemma sim_cache_given r m qs eqs jys mf ion shp : r_eq2top r = Some m -> given eqs jys mf ion shp qs ->
  exists c, sim_cache r eqs jys mf ion shp = (with_cache r c, Val tt) /\
  match filter (up m) qs with [] => c = CDict None [] | ks => exists s, c = CDict (Some s) [] /\ holds m s ks end.
Proof.
  intros E [G1 [G2 [G3 [G4 [G5 [G6 [G7 G8]]]]]]]. unfold sim_cache. rewrite E. cbv zeta. subst eqs jys.
  destruct (forallb negb _) eqn:Fb.
  - apply all_down in Fb. rewrite Fb. eexists. split; auto.
  - assert (N : filter (up m) qs <> []) by (intros Z; apply all_down in Z; congruence).
    destruct shp as [[a1 a2] th], ion as [dra ddec]. cbn [fst snd] in *.
    replace (map (fun t => Rltb 0 (third t)) (map (mv m) (map q_v qs))) with (map (up m) qs) by (rewrite !map_map; auto).
    destruct (spread_compress (up m) _ _ _ G3) as [x3 [C3 S3]]. destruct (spread_compress (up m) _ _ _ G4) as [x4 [C4 S4]]. destruct (spread_compress (up m) _ _ _ G5) as [x5 [C5 S5]].
    destruct (spread_compress (up m) _ _ _ G6) as [x6 [C6 S6]]. destruct (spread_compress (up m) _ _ _ G7) as [x7 [C7 S7]]. destruct (spread_compress (up m) _ _ _ G8) as [x8 [C8 S8]].
    rewrite compress_map. cbn [obind]. rewrite C3. cbn [obind]. rewrite C6. cbn [obind]. rewrite C7. cbn [obind]. rewrite C8. cbn [obind]. rewrite C4. cbn [obind]. rewrite C5. cbn [obind].
    rewrite map_map, compress_map. cbn [obind]. rewrite compress_map. cbn [obind]. eexists. split; [reflexivity|].
    destruct (filter (up m) qs) as [|k ks] eqn:K; [congruence|]. eexists. split; [reflexivity|]. split; [|reflexivity]. unfold given. cbn [c_eqs c_jys c_mfreq c_iref c_shp fst snd]. tauto.
Qed.
Lemma up_altitude m q : is_up m q = true <-> mv m (q_v q) <> (0, 0, 0) /\ 0 < snd (top2azalt (mv m (q_v q))).
Proof.
  unfold is_up, Rltb. set (t := mv m (q_v q)). destruct (Rlt_dec 0 (third t)) as [L|L].
  - split; auto. intros _. assert (N : t <> (0, 0, 0)) by (intros Z; rewrite Z in L; cbn in L; lra). split; auto.
    pose proof (xyz_thphi t) as X. pose proof (norm_pos t N) as P. unfold top2azalt. destruct (xyz2thphi t) as [th phi] eqn:Q. apply thphi_range in Q. cbn [snd].
    unfold thphi2xyz in X. rewrite <- X in L. cbn in L. assert (0 < cos th) by nra.
    destruct (Rlt_dec th (PI / 2)); [lra|]. assert (cos th <= 0); [|lra]. apply cos_le_0; lra.
  - split; [discriminate|]. intros [N A]. exfalso. apply L. pose proof (xyz_thphi t) as X. pose proof (norm_pos t N) as P. unfold top2azalt in A.
    destruct (xyz2thphi t) as [th phi] eqn:Q. apply thphi_range in Q. cbn [snd] in A. assert (C : 0 < cos th) by (apply cos_gt_0; lra).
    unfold thphi2xyz in X. rewrite <- X. cbn. nra.
Qed.
