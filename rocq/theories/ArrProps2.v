(* C27: phasing to a source. *)
From Coq Require Import Reals Lra String.
From Verif Require Import Base CleanModel ImgModel GeoModel GeoSpec GeoProofs ArrModel ArrSpec ArrProofs ArrProofs2 ArrProofs3 ArrProps.
Ltac Zify.zify_post_hook ::= idtac.
Open Scope R_scope.
Local Notation length := List.length.
Section Sky.
Variable sid j1 : R -> R.
(* What the phase is: for every source and every active frequency exp(-2 pi i t), t being the number of turns
   made by the baseline, by refraction and by the antennas' own phases. *)
Theorem C27_phase : forall r fs src i j bls shp, in_step r fs -> get_baseline sid r i j src = Val bls ->
  (forall dra ddec mf, gen_phs sid j1 r src i j (Sc mf) (Some (Sc dra, Sc ddec)) shp false =
     Val (map (fun bl => map (fun f => cexp_turn (turns bl dra ddec mf f + offset_at r i j f)) fs) bls)) /\
  (forall mf, (forall b, src <> SBody b) -> gen_phs sid j1 r src i j mf None shp false =
     Val (map (fun bl => map (fun f => cexp_turn (third bl * f + offset_at r i j f)) fs) bls)) /\
  (forall b mf, src = SBody b -> gen_phs sid j1 r src i j (Sc mf) None shp false =
     Val (map (fun bl => map (fun f => cexp_turn (turns bl (fst (s_ionref b)) (snd (s_ionref b)) mf f + offset_at r i j f)) fs) bls)).
Proof.
  intros r fs src i j bls shp H E.
  assert (S : forall dra ddec mf, obind (spread (length bls) (Sc dra)) (fun a => obind (spread (length bls) (Sc ddec)) (fun b => obind (spread (length bls) (Sc mf)) (fun m => Val (combine a (combine b m))))) =
              Val (repeat (dra, (ddec, mf)) (length bls))).
  { intros. cbn [spread obind]. f_equal. generalize (length bls). induction n; cbn; congruence. }
  split; [|split]; intros; rewrite (gen_phs_step sid j1 r fs) by auto; rewrite E; cbn [obind]; unfold refr.
  - replace (match Some (Sc dra, Sc ddec), src with None, SBody b => Some (sc2 (s_ionref b)) | _, _ => Some (Sc dra, Sc ddec) end) with (Some (Sc dra, Sc ddec)) by (destruct src; auto).
    cbn [fst snd]. rewrite S. cbn [obind]. unfold phase_rows. rewrite zip_repeat. auto.
  - match goal with |- context [match src with SStr _ => _ | _ => _ end] => destruct src as [s|b|l]; [|destruct (H0 b); auto|] end; cbn iota.
    all: cbn [obind]; unfold phase_rows; rewrite zip_repeat; f_equal; apply map_ext; intros [[x y] z]; apply map_ext; intros f; f_equal; f_equal; cbn; unfold Rdiv; ring.
  - subst src. unfold sc2. cbn [fst snd]. rewrite S. cbn [obind]. unfold phase_rows. rewrite zip_repeat. auto.
Qed.
(* always of modulus 1 *)
Theorem C27_modulus : forall r src i j mf ion shp P, gen_phs sid j1 r src i j mf ion shp false = Val P -> Forall (Forall (fun z => modulus2 z = 1)) P.
Proof. apply gen_phs_modulus. Qed.
(* the other way round: the conjugate (or the same exception), with or without resolution effects *)
Theorem C27_conjugate : forall r src i j mf ion shp rs,
  gen_phs sid j1 r src j i mf ion shp rs = match gen_phs sid j1 r src i j mf ion shp rs with Val P => Val (map (map conj) P) | Exc e => Exc e end.
Proof. intros. rewrite gen_phs_swap. destruct (gen_phs _ _ _ _ i j _ _ _ _); auto. Qed.
(* phases close around triangles *)
Theorem C27_closure : forall r fs src i j k mf ion shp P Q, in_step r fs ->
  gen_phs sid j1 r src i j mf ion shp false = Val P -> gen_phs sid j1 r src j k mf ion shp false = Val Q ->
  gen_phs sid j1 r src i k mf ion shp false = Val (zip_with (zip_with cmul) P Q).
Proof. intros. apply gen_phs_closure with fs j; auto. Qed.
(* Phasing to a source and back gives the data again, and so does the reverse. *)
Theorem C27_there_and_back : forall r d src i j mf ion d', length d' = length d ->
  (phs2src sid j1 r d src i j mf ion = Val [d'] -> unphs2src sid j1 r d' src i j mf ion = Val [d]) /\
  (unphs2src sid j1 r d src i j mf ion = Val [d'] -> phs2src sid j1 r d' src i j mf ion = Val [d]).
Proof.
  intros r d src i j mf ion d' L. unfold phs2src, unphs2src.
  destruct (gen_phs sid j1 r src i j mf ion None false) as [P|] eqn:EP; cbn [obind]; [|split; discriminate].
  pose proof (gen_phs_modulus _ _ _ _ _ _ _ _ _ _ EP) as M.
  split; intros E; destruct P as [|p P]; try discriminate; apply omap_val in E; inversion E as [|? ? ? ? E1 E2]; subst; inversion E2; subst; inversion M as [|? ? M1 M2]; subst; cbn [omap].
  - rewrite (bcast_undo cmul cquot d p d'); auto. eapply Forall_impl; [|exact M1]. intros q Hq z. apply cquot_cmul. auto.
  - rewrite (bcast_undo cquot cmul d p d'); auto. eapply Forall_impl; [|exact M1]. intros q Hq z. apply cquot_cmul. auto.
Qed.
(* ... and phasing works whenever there is one datum for each active frequency. *)
Theorem C27_phasing : forall r fs d src i j bl, in_step r fs -> get_baseline sid r i j src = Val [bl] -> (forall b, src <> SBody b) -> length d = length fs ->
  phs2src sid j1 r d src i j (Sc (150 / 1000)) None = Val [zip_with (fun z f => cmul z (cexp_turn (third bl * f + offset_at r i j f))) d fs].
Proof.
  intros r fs d src i j bl H E N L. unfold phs2src. destruct (C27_phase r fs src i j [bl] None H E) as [_ [P _]]. rewrite P by auto. cbn [obind map omap].
  rewrite bcast_eq by (rewrite map_length; auto). cbn [obind]. rewrite zip_with_map_r. auto.
Qed.
End Sky.
(* A body's refraction was measured at its own frequency, but is scaled from 150 MHz unless told otherwise. *)
Definition two_ants := [ant_at (0, 0, 0); ant_at (0, 1, 0)].
Definition two := set_jultime (fun _ => 0) (new_arr 0 0 [unit_beam] two_ants) 0.
Definition src3 : body := compute (fun _ => 0) (fun _ _ _ => 1) two
  {| s_ra := 0; s_dec := 0; s_alt := 0; s_map := ident; s_ionref := (100 / 9, 0); s_shape := (0, 0, 0); s_mfreq := 3 / 10 |}.
Lemma two_in_step : in_step two [1].
Proof.
  split; [discriminate|]. intros a [<-|[<-|[]]]; (split; [exists unit_beam; auto|]); split; cbn; unfold gain_at; cbn; repeat f_equal; ring.
Qed.
Theorem C27_mfreq_refuted : exists sid j1 r src i j fs b, in_step r fs /\ src = SBody b /\
  (exists P, gen_phs sid j1 r src i j (Sc (s_mfreq b)) None None false = Val P) /\
  gen_phs sid j1 r src i j (Sc (150 / 1000)) None None false <> gen_phs sid j1 r src i j (Sc (s_mfreq b)) None None false.
Proof.
  exists (fun _ => 0), (fun _ => 0), two, (SBody src3), 0%nat, 1%nat, [1], src3. pose proof two_in_step as S. split; auto. split; auto.
  assert (B : get_baseline (fun _ => 0) two 0 1 (SBody src3) = Val [(1, 0, 0)]).
  { unfold get_baseline. cbn. destruct (Rlt_dec 1 0); [lra|]. unfold lst. cbn. rewrite Rminus_0_r, sin_0, cos_0. repeat f_equal; ring. }
  pose proof (C27_phase (fun _ => 0) (fun _ => 0) two [1] (SBody src3) 0 1 _ None S B) as [_ [_ P]].
  rewrite !(P src3 _ eq_refl). split; [eexists; reflexivity|]. intros E. cbn [map] in E. cbn [src3 compute s_ionref s_mfreq fst snd turns] in E.
  assert (O : offset_at two 0 1 1 = 0) by (unfold offset_at; cbn; ring). rewrite O in E.
  replace (0 * 1 + (100 / 9 * (1 * 1) + 0 * (0 * 1)) * (150 / 1000) ^ 2 / 1 ^ 2 + 0) with (/ 4) in E by field.
  replace (0 * 1 + (100 / 9 * (1 * 1) + 0 * (0 * 1)) * (3 / 10) ^ 2 / 1 ^ 2 + 0) with 1 in E by field.
  unfold cexp_turn in E. replace (2 * PI * / 4) with (PI / 2) in E by field. rewrite Rmult_1_r, cos_PI2, cos_2PI in E. inversion E. lra.
Qed.
Example C27_case : in_step two [1] /\ exists d, phs2src (fun _ => 0) (fun _ => 0) two [(3, 4)] (SStr "z") 0 1 (Sc (150 / 1000)) None = Val [d].
Proof.
  split; [apply two_in_step|]. eexists. eapply C27_phasing; [apply two_in_step| |discriminate|reflexivity]. reflexivity.
Qed.
Print Assumptions C27_phase. Print Assumptions C27_modulus. Print Assumptions C27_conjugate. Print Assumptions C27_closure. Print Assumptions C27_there_and_back.
Print Assumptions C27_phasing. Print Assumptions C27_mfreq_refuted.
