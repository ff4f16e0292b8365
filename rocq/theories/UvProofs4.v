From Verif Require Import Base.
From Coq Require Import String.
From Verif Require Import UvModel UvSpec AppModel AppSpec UvProofs UvProofs2 UvProofs3.
Ltac Zify.zify_post_hook ::= idtac.
Open Scope Z_scope.

Section Host.
Variable feq8 feq4 : list Z -> list Z -> bool.
Variable add1000 addf1000 : list Z -> list Z.
Variable junk : list Z.
Variable corrty : ty.
Hypothesis corrty_ok : corrty = TReal \/ corrty = TInt2.
Hypothesis sym8 : forall a b, feq8 a b = true -> feq8 b a = true.
Hypothesis sym4 : forall a b, feq4 a b = true -> feq4 b a = true.
Hypothesis trans8 : forall a b c, feq8 a b = true -> feq8 b c = true -> feq8 a c = true.
Hypothesis trans4 : forall a b c, feq4 a b = true -> feq4 b c = true -> feq4 a c = true.
Hypothesis add_len : forall a, List.length (add1000 a) = 8%nat.

Notation SI := (SI feq8 feq4 corrty).
Notation sameP := (sameP feq8 feq4).
Notation uvwrite := (uvwrite feq8 feq4 add1000 addf1000 junk corrty).
Notation urun := (urun feq8 feq4 add1000 addf1000 junk corrty).
Notation valid := (valid feq8 feq4 add1000 addf1000 corrty).
Notation srun := (srun feq8 feq4 add1000 addf1000 junk).
Notation valid_s := (valid_s feq8 feq4 add1000 addf1000 corrty).

Lemma look_put e n t bs m : bs <> [] ->
  look (env_put e n t bs) m = if String.eqb n m then Some (t, bs) else look e m.
Proof. intros H. destruct bs; [congruence|reflexivity]. Qed.

Lemma put_spec prev e set w L n t bs :
  SI prev e set w L -> good_put n t bs ->
  (forall t' b, look e n = Some (t', b) -> t' = t) ->
  exists w' seg, uvputvr w t n bs = Ok w' /\ no_eor seg /\ extends w w' /\ w_flags w' = w_flags w /\
    SI prev (env_put e n t bs) (match bs with [] => set | _ => (n, bs) :: set end) w' (L ++ seg).
Proof.
  intros S (G1 & G2 & G3 & G4 & G5 & G6 & G7 & G8 & G9) Hty.
  assert (D : {bs = []} + {bs <> []}) by (destruct bs; [left; reflexivity|right; discriminate]).
  destruct D as [->|Hne].
  { exists w, []. unfold uvputvr. change (zlen (@nil Z)) with 0. rewrite Z.div_0_l by (destruct t; cbn; lia). cbn [Z.leb Z.compare].
    split; [auto|]. split; [intros []|]. split; [apply extends_refl|]. split; [auto|].
    rewrite app_nil_r. exact S. }
  assert (Hl : 0 < zlen bs) by (destruct bs; [congruence|unfold zlen; cbn [List.length]; lia]).
  assert (Hset : (match bs with [] => set | _ => (n, bs) :: set end) = (n, bs) :: set) by (destruct bs; [congruence|auto]).
  rewrite Hset.
  destruct (put_steps w L t n bs (S_wi _ _ _ _ _ _ _ _ S) G1) as (w' & seg & E & ST & N & F & P & B & T & B' & _ & BK & BF & BL & _).
  { rewrite (S_has _ _ _ _ _ _ _ _ S) by auto. destruct (look e n) as [[t' b]|] eqn:Lk; [right|left; auto].
    cbn. f_equal. eapply Hty; eauto. }
  { lia. } { auto. }
  exists w', seg. destruct ST as (ST1 & ST2 & ST3). split; [auto|]. split; [auto|]. split; [auto|]. split; [auto|].
  assert (Rn : rty corrty n t).
  { unfold rty. repeat match goal with |- _ /\ _ => split end; intros X; auto; try (apply G5 in X; tauto);
    try (apply G6 in X; tauto); try (apply G7 in X; tauto). contradiction. }
  constructor.
  - exact ST1.
  - intros m Hm. rewrite T, look_put by auto. destruct (String.eqb n m); auto. apply (S_has _ _ _ _ _ _ _ _ S); auto.
  - rewrite T. replace (String.eqb n "corr") with false by (symmetry; apply String.eqb_neq; auto).
    apply (S_hasc _ _ _ _ _ _ _ _ S).
  - intros m t' b. rewrite look_put by auto. destruct (String.eqb n m) eqn:Q.
    + apply String.eqb_eq in Q; subst m. intros X; inversion X; subst; auto.
    + apply (S_ty _ _ _ _ _ _ _ _ S).
  - intros m t' b. rewrite look_put by auto. rewrite P. destruct (String.eqb n m) eqn:Q.
    + apply String.eqb_eq in Q; subst m. intros X; inversion X; subst t' b. exists bs.
      split; [auto|]. split; [auto|]. split; [apply sameP_refl|].
      intros [-> |[-> | ->]]; [apply (G5 eq_refl)|apply (G6 eq_refl)|apply (G7 eq_refl)].
    + apply String.eqb_neq in Q. intros X. destruct (S_val _ _ _ _ _ _ _ _ S _ _ _ X) as (c & C1 & C2 & C3 & C4).
      exists c. split; [auto|]. split; [|auto]. intros [Y|[Y|Y]]; auto; contradiction.
  - rewrite N. apply (S_init _ _ _ _ _ _ _ _ S).
  - intros Hf. destruct (S_first _ _ _ _ _ _ _ _ S Hf) as (A1 & A3).
    split; [rewrite BL by auto; auto|]. intros m Hm. destruct (A3 m Hm) as [A4 A5]. cbn [map fst]. split.
    + intros Hin. rewrite B by (intros <-; apply Hin; left; auto).
      apply A4; auto. intros X; apply Hin; right; auto.
    + intros Hin. destruct (string_dec n m) as [<-|Q].
      * destruct (in_dec string_dec n (map fst set)) as [I|I].
        -- destruct (A5 I) as (f & b & X1 & X2). destruct (BK _ _ X1) as (f' & b' & X3 & [X4|X4]); subst b'.
           ++ exists f', b. split; [exact X3|right; auto].
           ++ exists f', bs. split; [exact X3|left; auto].
        -- destruct BF as (f' & X); [exact (A4 I)|].
           exists f', bs. split; [exact X|left; auto].
      * destruct Hin as [Y|Hin]; [contradiction|]. destruct (A5 Hin) as (f & b & X1 & X2).
        exists f, b. split; [rewrite B by auto; auto|right; auto].
  - intros q Hf. destruct (S_later _ _ _ _ _ _ _ _ S q Hf) as (A1 & (b & A2) & A2' & A3).
    split; [|split; [|split]].
    + destruct A1 as (b0 & A1). exists b0. rewrite B by auto. auto.
    + exists b. rewrite look_put by auto. replace (String.eqb n "corr") with false by (symmetry; apply String.eqb_neq; auto). auto.
    + rewrite BL by auto. auto.
    + intros m Hm. destruct (A3 m Hm) as (A4 & b1 & A5 & A7 & A6). rewrite look_put by auto. rewrite P.
      split; [destruct (String.eqb n m); [discriminate|auto]|]. exists b1.
      destruct (String.eqb n m) eqn:Q.
      * apply String.eqb_eq in Q; subst m. split; [apply B'; auto|]. split; [exact A7|]. intros X; exfalso; apply X; left; auto.
      * apply String.eqb_neq in Q. split; [rewrite B by auto; auto|]. split; [exact A7|]. intros X. apply A6. intros Y; apply X; right; auto.
Qed.

(* a point of the stream shows a record and the variables that go with it *)
Record Match (N : list string) (tys : list ty) (l : lmap) (p : pmap) (x : urec) (e : env) : Prop := {
  M_some : forall n t b, look e n = Some (t, b) ->
    exists i c, nth_error N i = Some n /\ nth_error tys i = Some t /\ p i = Some c /\ l i = Some (zlen c) /\
      0 < zlen c /\ (~ preamble_name n -> c = b) /\ sameP n b c /\ (preamble_name n -> List.length c = pre_len n);
  M_none : forall n i, look e n = None -> nth_error N i = Some n -> p i = None /\ l i = None;
  M_corr : look e "corr" = Some (corrty, r_corr x);
  M_coord : look e "coord" = Some (TDble, uvw x);
  M_time : look e "time" = Some (TDble, r_t x);
  M_bl : look e "baseline" = Some (TReal, r_bl x);
  M_ts : corrty = TInt2 -> look e "tscale" = Some (TReal, r_tscale x) }.

Inductive Segs (nsize : Z) (N : list string) (tys : list ty) : lmap -> pmap -> list srec -> list (urec * env) -> Prop :=
| Segs_nil l p L : no_eor L -> Segs nsize N tys l p L []
| Segs_cons l p seg rest x e ds ic :
    no_eor seg -> good_rec corrty nsize x -> Match N tys (lplay l seg) (pplay p seg) x e ->
    nth_error N ic = Some "corr"%string -> touched seg ic ->
    Segs nsize N tys (lplay l seg) (pplay p seg) rest ds ->
    Segs nsize N tys l p (seg ++ SEor :: rest) ((x, e) :: ds).

Lemma getp_inv w L n t c : WI w L -> getp w L n = Some (t, c) ->
  exists i, nth_error (wnames w) i = Some n /\ nth_error (wtys w) i = Some t /\ PP L i = Some c /\
    LL L i = Some (zlen c) /\ 0 < zlen c.
Proof.
  intros H. unfold getp. destruct (fnd n (wnames w)) as [i|] eqn:F; [|discriminate].
  destruct (nth_error (wtys w) i) eqn:T; [|discriminate]. destruct (PP L i) eqn:P; [|discriminate].
  intros X; inversion X; subst. exists i. apply find_some in F.
  unfold wtys in T. rewrite nth_error_map in T. destruct (nth_error (w_vars w) i) as [v|] eqn:V; [|discriminate].
  destruct (W_len _ _ H _ _ V) as [(A & B & C)|(b & A & B & C & D)]; [congruence|].
  rewrite P in A; inversion A; subst b. unfold wtys. rewrite nth_error_map, V. auto.
Qed.

Lemma has_none_fnd w n : has w n = None -> fnd n (wnames w) = None.
Proof.
  unfold has. destruct (fnd n (wnames w)) eqn:F; auto. intros X. apply nth_error_None in X.
  apply fnd_lt in F. unfold wtys in X. rewrite map_length in X. lia.
Qed.

Lemma SI_Match prev e set w L x w' : SI prev e set w L ->
  extends w w' -> NoDup (wnames w') -> set = [] ->
  look e "corr" = Some (corrty, r_corr x) -> look e "coord" = Some (TDble, uvw x) ->
  look e "time" = Some (TDble, r_t x) -> look e "baseline" = Some (TReal, r_bl x) ->
  (corrty = TInt2 -> look e "tscale" = Some (TReal, r_tscale x)) ->
  Match (wnames w') (wtys w') (LL L) (PP L) x e.
Proof.
  intros S (mn & mt & EN & ET) ND -> H1 H2 H3 H4 H5.
  pose proof (S_wi _ _ _ _ _ _ _ _ S) as W.
  constructor; auto.
  - intros n t b Lk. destruct (S_val _ _ _ _ _ _ _ _ S _ _ _ Lk) as (c & C1 & C2 & C3 & C4).
    destruct (getp_inv _ _ _ _ _ W C1) as (i & I1 & I2 & I3 & I4 & I5). exists i, c.
    rewrite EN, ET. rewrite !nth_error_app1 by (apply nth_error_Some; congruence).
    repeat (split; [solve [auto]|]). auto.
  - intros n i Lk Hi. destruct (Nat.lt_ge_cases i (List.length (w_vars w))) as [I|I].
    + exfalso. rewrite EN in Hi. rewrite nth_error_app1 in Hi by now rewrite wnames_len.
      assert (n <> "corr"%string) by (intros ->; congruence).
      assert (has w n = None) by (rewrite (S_has _ _ _ _ _ _ _ _ S), Lk; auto).
      apply has_none_fnd in H0. apply find_none in H0. apply H0. eapply nth_error_In; eauto.
    + destruct (W_dom _ _ W i I). auto.
Qed.

(* ---------- reopening ---------- *)
Lemma corr_ty_has w t : has w "corr" = Some t -> corr_ty w = t.
Proof.
  unfold has, corr_ty, wfind. rewrite fnd_w. destruct (fnd "corr" (wnames w)); [|discriminate].
  unfold wtys. rewrite nth_error_map. destruct (nth_error (w_vars w) n); [|discriminate]. cbn. congruence.
Qed.

Lemma append_spec prev e set w L mode : SI prev e set w L -> look e "coord" <> None ->
  exists w', uv_append mode w = Ok w' /\ SI None e [] w' L /\ extends w w' /\ w_flags w' = w_flags w.
Proof.
  intros S Hc. pose proof (S_wi _ _ _ _ _ _ _ _ S) as W.
  set (vs := map reopened (w_vars w)).
  set (w' := Wr vs (mroundup (w_off w) 8) (w_file w) false (w_flags w)).
  assert (N' : wnames w' = wnames w) by (unfold wnames, w', vs; cbn [w_vars]; rewrite map_map; reflexivity).
  assert (T' : wtys w' = wtys w) by (unfold wtys, w', vs; cbn [w_vars]; rewrite map_map; reflexivity).
  assert (WF : forall n, wfind vs n = match fnd n (wnames w) with
                 | Some i => option_map reopened (nth_error (w_vars w) i) | None => None end).
  { intros n. unfold wfind. change vs with (w_vars w'). rewrite fnd_w, N'.
    destruct (fnd n (wnames w)); auto. unfold w', vs; cbn [w_vars]. apply nth_error_map. }
  assert (WT : forall n, option_map w_ty (wfind vs n) = has w n).
  { intros n. rewrite WF. unfold has. destruct (fnd n (wnames w)); auto. unfold wtys. rewrite nth_error_map.
    destruct (nth_error (w_vars w) n0); reflexivity. }
  assert (PRE : forall n t b, look e n = Some (t, b) -> n <> "corr"%string -> has w n = Some t /\ rty corrty n t).
  { intros n t b Lk Hn. rewrite (S_has _ _ _ _ _ _ _ _ S), Lk by auto. split; [auto|]. eapply (S_ty _ _ _ _ _ _ _ _ S); eauto. }
  assert (P1 : preamble_ok vs = true).
  { unfold preamble_ok, pre_number.
    assert (PN : forall n, n = "time"%string \/ n = "baseline"%string ->
      match wfind vs n with None => true
      | Some v => match w_ty v with TInt | TReal | TDble => true | _ => false end end = true).
    { intros n Hn. pose proof (WT n) as X. destruct (wfind vs n) as [v|]; auto. cbn in X.
      assert (NC : n <> "corr"%string) by (destruct Hn; subst; discriminate).
      pose proof (S_has _ _ _ _ _ _ _ _ S n NC) as Y. destruct (look e n) as [[t b]|] eqn:Lk; [|cbn in Y; congruence].
      destruct (PRE _ _ _ Lk NC) as (Z1 & Z2 & Z3 & Z4 & _). rewrite Z1 in X. inversion X as [X1]. rewrite X1.
      destruct Hn as [Hn|Hn]; [rewrite (Z3 Hn)|rewrite (Z4 Hn)]; reflexivity. }
    rewrite (PN "time"%string), (PN "baseline"%string) by auto.
    pose proof (WT "coord"%string) as X. destruct (look e "coord") as [[t b]|] eqn:Lk; [|congruence].
    destruct (PRE _ _ _ Lk) as (Z1 & Z2 & _); [discriminate|]. rewrite Z1 in X.
    destruct (wfind vs "coord") as [v|]; [|discriminate]. cbn in X. inversion X as [X1]. rewrite X1, (Z2 eq_refl). reflexivity. }
  assert (M : exists i, mkvar vs "corr" mode = Ok (i, vs)).
  { unfold mkvar. pose proof (S_hasc _ _ _ _ _ _ _ _ S) as HC. unfold has in HC.
    change vs with (w_vars w') at 1. rewrite fnd_w, N'. destruct (fnd "corr" (wnames w)) as [i|]; [eauto|discriminate]. }
  destruct M as [i M].
  exists w'. split; [unfold uv_append; fold vs; rewrite P1; cbn [negb]; rewrite M; reflexivity|].
  assert (OFF : mroundup (w_off w) 8 = w_off w).
  { destruct (enc_len _ 0 _ _ ltac:(lia) eq_refl (W_enc _ _ W)) as [_ H8].
    unfold mroundup. pose proof (Z.div_mod (w_off w) 8 ltac:(lia)).
    replace (w_off w + 8 - 1) with (7 + (w_off w / 8) * 8) by lia. rewrite Z.div_add by lia.
    change (7 / 8) with 0. lia. }
  assert (V' : forall j v, nth_error (w_vars w') j = Some v -> exists u, nth_error (w_vars w) j = Some u /\ v = reopened u).
  { intros j v Hv. unfold w', vs in Hv; cbn [w_vars] in Hv. rewrite nth_error_map in Hv.
    destruct (nth_error (w_vars w) j) as [u|]; [|discriminate]. inversion Hv; subst. eauto. }
  assert (W' : WI w' L).
  { constructor.
    - cbn [w' w_file w_off]. rewrite OFF. apply (W_enc _ _ W).
    - rewrite N'. apply (W_nodup _ _ W).
    - rewrite T'. apply (W_wf _ _ W).
    - intros j Hj. apply (W_dom _ _ W). unfold w', vs in Hj; cbn [w_vars] in Hj. now rewrite map_length in Hj.
    - intros j v Hv. destruct (V' _ _ Hv) as (u & Hu & ->). cbn [reopened w_len].
      destruct (W_len _ _ W _ _ Hu) as [(A & B)|(b & A & B & C & D)]; [left; auto|right; exists b; auto].
    - intros j v Hv _. destruct (V' _ _ Hv) as (u & Hu & ->). left; reflexivity.
    - intros j v Hv _ _. destruct (V' _ _ Hv) as (u & Hu & ->). reflexivity. }
  assert (GP : forall n, getp w' L n = getp w L n) by (intros n; unfold getp; now rewrite N', T').
  assert (HS : forall n, has w' n = has w n) by (intros n; unfold has; now rewrite N', T').
  split; [|split; [exists [], []; now rewrite !app_nil_r|reflexivity]].
  constructor.
  - exact W'.
  - intros n Hn. rewrite HS. apply (S_has _ _ _ _ _ _ _ _ S); auto.
  - rewrite HS. apply (S_hasc _ _ _ _ _ _ _ _ S).
  - apply (S_ty _ _ _ _ _ _ _ _ S).
  - intros n t b Lk. rewrite GP. destruct (S_val _ _ _ _ _ _ _ _ S _ _ _ Lk) as (c & C1 & C2 & C3 & C4).
    exists c. split; [auto|]. split; [|auto]. intros [X|[]]; auto.
  - reflexivity.
  - intros _. split.
    + unfold getl. rewrite N'. destruct (fnd "corr" (wnames w)) as [j|]; auto.
      destruct (nth_error (w_vars w') j) as [v|] eqn:Hv; auto. destruct (V' _ _ Hv) as (u & _ & ->). reflexivity.
    + intros n Hn. split; [|intros []]. intros _. unfold getb. rewrite N'.
      destruct (fnd n (wnames w)) as [j|]; auto.
      destruct (nth_error (w_vars w') j) as [v|] eqn:Hv; auto. destruct (V' _ _ Hv) as (u & _ & ->). right; reflexivity.
  - discriminate.
Qed.

Lemma run_spec_s ops : forall prev e set w L nsize,
  SI prev e set w L -> valid_s nsize prev e set ops ->
  exists w' T, srun w ops = Ok w' /\ (forall uo, ops = map Op uo -> urun w uo = Ok w') /\ WI w' (L ++ T) /\ extends w w' /\
    w_flags w' = w_flags w ++ List.concat (map (fun p => r_fl (fst p)) (dataset_s corrty e (prevn prev) ops)) /\
    (exists prev' e' set', SI prev' e' set' w' (L ++ T) /\
        map fst e' = names_s corrty e (prevn prev) ops) /\
    forall Ld P, L = Ld ++ P -> no_eor P ->
      Segs nsize (wnames w') (wtys w') (LL Ld) (PP Ld) (P ++ T) (dataset_s corrty e (prevn prev) ops) /\
      ((exists ops0 x, ops = ops0 ++ [Op (URec x)]) -> exists T0, T = T0 ++ [SEor]) /\ (ops = [] -> T = []).
Proof.
  induction ops as [|o ops IH]; intros prev e set w L nsize S V.
  - exists w, []. cbn. split; [auto|]. split; [intros [|? ?] X; [reflexivity|discriminate]|]. rewrite app_nil_r. split; [apply (S_wi _ _ _ _ _ _ _ _ S)|].
    split; [apply extends_refl|]. split; [now rewrite app_nil_r|]. split; [do 3 eexists; split; [exact S|auto]|].
    intros Ld P -> HP. split; [constructor; now rewrite app_nil_r|]. split; [|auto].
    intros (ops0 & x & H). destruct ops0; discriminate.
  - destruct o as [[n t bs|x]|mode].
    + destruct V as (V1 & V2 & V3).
      destruct (put_spec _ _ _ _ _ _ _ _ S V1 V2) as (w1 & seg & E & NE & X & F & S1).
      destruct (IH _ _ _ _ _ _ S1 V3) as (w' & T & E' & U' & W' & X' & F' & A' & SG).
      exists w', (seg ++ T). cbn. rewrite E. cbn. split; [auto|].
      split; [intros [|o uo] X0; [discriminate|]; cbn in X0; injection X0 as <- X1; cbn; rewrite E; cbn; now apply U'|].
      rewrite app_assoc.
      split; [auto|]. split; [eapply extends_trans; eauto|]. split; [rewrite F', F; auto|].
      split; [auto|]. intros Ld P -> HP. rewrite app_assoc.
      destruct (SG Ld (P ++ seg)) as (G1 & G2 & G3); [now rewrite app_assoc|now apply no_eor_app|].
      split; [exact G1|]. split; [|discriminate].
      intros (ops0 & x & H). destruct ops0 as [|o0 ops0]; [discriminate|]. cbn in H. injection H as _ H1.
      destruct G2 as [T0 ->]; [exists ops0, x; auto|]. exists (seg ++ T0). now rewrite app_assoc.
    + destruct V as (V1 & V2 & V3).
      destruct (uvwrite_spec feq8 feq4 add1000 addf1000 junk corrty corrty_ok sym8 sym4 trans8 trans4
                  _ _ _ _ _ _ _ S V1 V2) as (w1 & seg & E & NE & X & F & S1 & (ic & I1 & I2)).
      { intros b. unfold d0. rewrite firstn_app, add_len. cbn [Nat.sub]. rewrite firstn_O, app_nil_r.
        rewrite firstn_all2; auto. rewrite add_len; lia. }
      destruct (IH _ _ _ _ _ _ S1 V3) as (w' & T & E' & U' & W' & X' & F' & A' & SG).
      exists w', (seg ++ SEor :: T). cbn [AppModel.srun AppModel.sstep UvModel.ustep].
      rewrite (corr_ty_has _ _ (S_hasc _ _ _ _ _ _ _ _ S)), E. cbn [bind]. split; [auto|].
      split; [intros [|o uo] X0; [discriminate|]; cbn [map] in X0; injection X0 as <- X1; cbn [UvModel.urun UvModel.ustep]; rewrite E; cbn [bind]; now apply U'|].
      replace (L ++ seg ++ SEor :: T) with ((L ++ seg ++ [SEor]) ++ T) by (rewrite <- !app_assoc; reflexivity).
      split; [auto|]. split; [eapply extends_trans; eauto|].
      cbn [dataset_s map List.concat fst]. split; [rewrite F', F, app_assoc; auto|]. split; [auto|].
      intros Ld P -> HP.
      replace (P ++ seg ++ SEor :: T) with ((P ++ seg) ++ SEor :: T) by now rewrite <- app_assoc.
      destruct (SG ((Ld ++ P) ++ seg ++ [SEor]) []) as (G1 & G2 & G3); [now rewrite app_nil_r|intros []|].
      split; [|split; [|discriminate]].
      2:{ intros (ops0 & y & H). destruct ops0 as [|o0 ops0]; cbn in H; injection H as H0 H1.
          - rewrite G3 by auto. exists seg. reflexivity.
          - destruct G2 as [T0 ->]; [exists ops0, y; auto|]. exists (seg ++ SEor :: T0). now rewrite <- app_assoc. }
      apply Segs_cons with (ic := ic).
      * now apply no_eor_app.
      * exact V1.
      * rewrite <- lplay_app, <- pplay_app.
        replace (LL (Ld ++ P ++ seg)) with (LL ((Ld ++ P) ++ seg ++ [SEor])) by (rewrite !lplay_app; reflexivity).
        replace (PP (Ld ++ P ++ seg)) with (PP ((Ld ++ P) ++ seg ++ [SEor])) by (rewrite !pplay_app; reflexivity).
        eapply SI_Match; [exact S1|exact X'|apply (W_nodup _ _ W')|auto| | | | |].
        -- rewrite look_rec by auto. reflexivity.
        -- rewrite look_rec by auto. reflexivity.
        -- rewrite look_rec by auto. reflexivity.
        -- rewrite look_rec by auto. reflexivity.
        -- intros CT. rewrite look_rec by auto. rewrite CT. reflexivity.
      * destruct X' as (mn & mt & EN & _). rewrite EN. apply find_some in I1.
        rewrite nth_error_app1; auto. apply nth_error_Some; congruence.
      * exists (SData ic corrty (r_corr x)). split; [apply in_or_app; right; auto|auto].
      * rewrite <- lplay_app, <- pplay_app.
        replace (LL (Ld ++ P ++ seg)) with (LL ((Ld ++ P) ++ seg ++ [SEor])) by (rewrite !lplay_app; reflexivity).
        replace (PP (Ld ++ P ++ seg)) with (PP ((Ld ++ P) ++ seg ++ [SEor])) by (rewrite !pplay_app; reflexivity).
        exact G1.
    + destruct V as (V1 & V2).
      destruct (append_spec _ _ _ _ _ mode S V1) as (w1 & E & S1 & X & F).
      destruct (IH _ _ _ _ _ _ S1 V2) as (w' & T & E' & U' & W' & X' & F' & A' & SG).
      exists w', T. cbn. rewrite E. cbn. split; [auto|].
      split; [intros [|o uo] X0; discriminate|]. split; [auto|]. split; [eapply extends_trans; eauto|].
      split; [rewrite F', F; auto|]. split; [auto|]. intros Ld P HL HP.
      destruct (SG Ld P HL HP) as (G1 & G2 & G3). split; [exact G1|]. split; [|discriminate].
      intros (ops0 & x & H). destruct ops0 as [|o0 ops0]; [discriminate|]. cbn in H. injection H as _ H1.
      apply G2. exists ops0, x; auto.
Qed.

Lemma valid_map nsize ops : forall prev e set, valid nsize prev e set ops ->
  valid_s nsize prev e set (map Op ops).
Proof. clear corrty_ok sym8 sym4 trans8 trans4 add_len. induction ops as [|[n t bs|x] ops IH]; intros prev e set V; cbn in *; auto; intuition. Qed.
Lemma dataset_map ops : forall e p, dataset_s corrty e p (map Op ops) = dataset corrty e p ops.
Proof. clear corrty_ok sym8 sym4 trans8 trans4 add_len. induction ops as [|[n t bs|x] ops IH]; intros; cbn; auto. now rewrite IH. Qed.
Lemma names_map ops : forall e p, names_s corrty e p (map Op ops) = names corrty e p ops.
Proof. clear corrty_ok sym8 sym4 trans8 trans4 add_len. induction ops as [|[n t bs|x] ops IH]; intros; cbn; auto. Qed.


Lemma SI_new f0 : SI None [] [] (uv_new corrty f0) [].
Proof.
  assert (V : forall i v, nth_error (w_vars (uv_new corrty f0)) i = Some v -> v = WV "corr" corrty 0 None false 0).
  { intros [|[|i]] v H; cbn in H; congruence. }
  constructor.
  - constructor; cbn [uv_new w_file w_off].
    + reflexivity.
    + repeat constructor. intros [].
    + exact I.
    + intros; split; reflexivity.
    + intros i v H. rewrite (V _ _ H). left. cbn. auto.
    + intros i v H _. rewrite (V _ _ H). left; reflexivity.
    + intros i v H _ _. now rewrite (V _ _ H).
  - intros n Hn. unfold has, wnames, wtys. cbn [uv_new w_vars map w_name w_ty find_name]. destruct (String.eqb_spec "corr" n); [congruence|reflexivity].
  - reflexivity.
  - discriminate.
  - discriminate.
  - reflexivity.
  - intros _. split; [reflexivity|]. intros n Hn. split; [|intros []]. intros _. left.
    destruct Hn as [->|[->| ->]]; reflexivity.
  - discriminate.
Qed.
End Host.
