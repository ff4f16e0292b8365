From Verif Require Import Base.
From Coq Require Import String.
From Verif Require Import UvModel UvSpec UvProofs UvProofs2 UvProofs3 UvProofs4 UvProofs5 PipeModel PipeSpec PipeProofs PipeProofs2.
Ltac Zify.zify_post_hook ::= idtac.
Open Scope Z_scope.
Local Notation length := List.length.

(* ---------- names are short ---------- *)
Lemma names_short feq8 feq4 add1000 addf1000 oc nsize ops : forall prev e set,
  valid feq8 feq4 add1000 addf1000 oc nsize prev e set ops ->
  (forall n, In n (map fst e) -> (String.length n <= 8)%nat) ->
  forall n, In n (names oc e (prevn prev) ops) -> (String.length n <= 8)%nat.
Proof.
  induction ops as [|[m t b|x] ops IH]; intros prev e set V H n Hn; cbn [valid names] in *; auto.
  - destruct V as (G & _ & V). eapply IH; [exact V| |exact Hn].
    intros n' Hn'. destruct b; [auto|]. destruct Hn' as [<-|Hn']; [apply G|auto].
  - destruct V as (_ & _ & V). eapply (IH (Some x)); [exact V| |exact Hn].
    intros n' Hn'.
    assert (K : In n' (map fst e) \/ In n' ["corr"; "coord"; "time"; "baseline"; "nchan"; "tscale"]%string).
    { unfold env_rec in Hn'. cbn [map fst In] in Hn'. destruct Hn' as [<-|[<-|[<-|[<-|Hn']]]]; try (right; cbn; tauto).
      destruct oc; try (destruct Hn' as [<-|Hn']; [right; cbn; tauto|]); destruct (r_n x =? prevn prev); auto;
        destruct Hn' as [<-|Hn']; auto; right; cbn; tauto. }
    destruct K as [K|K]; [auto|]. cbn in K. destruct K as [<-|[<-|[<-|[<-|[<-|[<-|[]]]]]]]; cbn; lia.
Qed.

(* ---------- a variable stays set ---------- *)
Lemma look_rec_mono oc e pn x n : look e n <> None -> look (env_rec oc e pn x) n <> None.
Proof.
  assert (S : forall m y e0, look e0 n <> None -> look ((m, y) :: e0) n <> None).
  { intros m y e0 H. cbn. destruct (String.eqb m n); [discriminate|exact H]. }
  intros H. unfold env_rec. do 4 apply S. destruct oc; try apply S; destruct (r_n x =? pn); auto.
Qed.

Lemma dataset_mono oc ops n : forall e pn d, In d (dataset oc e pn ops) -> look e n <> None -> look (snd d) n <> None.
Proof.
  induction ops as [|[m t b|x] ops IH]; intros e pn d Hd H; cbn [dataset] in Hd; [destruct Hd| |].
  - eapply IH; [exact Hd|]. rewrite look_eput. destruct b; auto. destruct (String.eqb m n); [discriminate|exact H].
  - destruct Hd as [<-|Hd]; [apply look_rec_mono; exact H|]. eapply IH; [exact Hd|]. apply look_rec_mono; exact H.
Qed.

Lemma dataset_first oc ops n : forall e pn d0, nth_error (dataset oc e pn ops) 0 = Some d0 -> look (snd d0) n <> None ->
  forall d, In d (dataset oc e pn ops) -> look (snd d) n <> None.
Proof.
  induction ops as [|[m t b|x] ops IH]; intros e pn d0 H0 H d Hd; cbn [dataset] in *; [destruct Hd| |].
  - eapply IH; eauto.
  - cbn in H0. inversion H0; subst d0. cbn [snd] in H. destruct Hd as [<-|Hd]; [exact H|]. eapply dataset_mono; eauto.
Qed.


(* ---------- the history before copying ---------- *)
Section Sess.
Variable feq8 feq4 : list Z -> list Z -> bool.
Variable sc : ty.
Hypothesis sc_ok : sc = TReal \/ sc = TInt2.
Variable nsize : Z.
Variable N : list string.
Variable tys : list ty.
Notation RS := (RS feq8 feq4 sc nsize N tys).
Notation Match := (Match feq8 feq4 sc N tys).

Lemma after_match k : forall ds r l p L, RS r l p L ds -> goodl tys l -> (S k <= length ds)%nat ->
  exists l' p' x e, In (x, e) ds /\ rel N tys (rd_vars (after nsize (S k) r)) l' p' /\ Match l' p' x e /\ goodl tys l'.
Proof.
  induction k as [|k IH]; intros ds r l p L Q G K; (destruct ds as [|[x e] ds]; [cbn in K; lia|]);
    destruct (read_rec feq8 feq4 sc sc_ok nsize N tys r l p L x e ds Q)
      as (r' & l' & p' & L' & a & E & Q' & _ & (seg & EL & El & Ep & M & _) & _);
    (assert (G' : goodl tys l')
       by (pose proof (Q_wf _ _ _ _ _ _ _ _ _ _ _ Q) as WF; rewrite EL in WF; apply wf_app in WF as [WF _];
           rewrite El; apply lplay_good; auto)).
  - exists l', p', x, e. cbn [after]. rewrite E. cbn [fst]. split; [left; reflexivity|].
    split; [apply (Q_rel _ _ _ _ _ _ _ _ _ _ _ Q')|]. auto.
  - destruct (IH ds r' l' p' L' Q' G') as (l2 & p2 & x2 & e2 & K1 & K2 & K3 & K4); [cbn in K; lia|].
    exists l2, p2, x2, e2. split; [right; exact K1|]. split; [|auto].
    change (after nsize (S (S k)) r) with (after nsize (S k) (fst (uvread nsize r))). rewrite E. exact K2.
Qed.

(* every variable set at the first record holds a good value of some record *)
Definition J (ds : list (urec * env)) (r : reader) : Prop :=
  forall n, (forall d, In d ds -> look (snd d) n <> None) ->
  exists i v c d t b, nth_error N i = Some n /\ nth_error tys i = Some t /\ nth_error (rd_vars r) i = Some v /\ v_buf v = Some c /\
    In d ds /\ look (snd d) n = Some (t, b) /\ (~ preamble_name n -> c = b) /\ (preamble_name n -> length c = pre_len n) /\
    0 < zlen c < 2147483648 /\ zlen c mod ext t = 0.

Lemma J_match ds r l p x e : In (x, e) ds -> rel N tys (rd_vars r) l p -> Match l p x e -> goodl tys l -> J ds r.
Proof.
  intros HD R M G n HN. destruct (look e n) as [[t b]|] eqn:LK; [|exfalso; exact (HN _ HD LK)].
  destruct (M_some _ _ _ _ _ _ _ _ _ M _ _ _ LK) as (i & c & C1 & C2 & C3 & C4 & C5 & C6 & C7 & C8).
  destruct (rel_nth _ _ _ _ _ _ _ R C2) as (v & V1 & V2). destruct (G _ _ C4) as (t' & T1 & T2 & T3).
  assert (t' = t) by congruence. subst t'.
  exists i, v, c, (x, e), t, b. split; [exact C1|]. split; [exact C2|]. split; [exact V1|].
  split; [apply (R_buf _ _ _ _ _ R _ _ _ C3 V1)|]. split; [exact HD|]. split; [exact LK|]. split; [exact C6|]. split; [exact C8|].
  split; [exact T2|exact T3].
Qed.

Lemma J_rewind ds r : J ds r -> J ds (uvrewind r).
Proof.
  intros H n HN. destruct (H n HN) as (i & v & c & d & t & b & H1 & H2 & H3 & H4 & H5).
  exists i, (RV (v_name v) (v_ty v) (v_flen v) (v_buf v) 0), c, d, t, b. split; [exact H1|]. split; [exact H2|].
  split; [cbn; rewrite nth_error_map, H3; reflexivity|]. split; [exact H4|exact H5].
Qed.

Definition sess (r : reader) (k : nat) : reader := uvrewind (after nsize k r).

Lemma fold_reads k : forall r, fold_left rstep (repeat (RRead nsize) k) r = after nsize k r.
Proof. induction k; intros r; cbn; auto. Qed.

Lemma fold_sess ks : forall r,
  fold_left rstep (List.concat (map (fun k => repeat (RRead nsize) k ++ [RRewind]) ks)) r = fold_left sess ks r.
Proof.
  induction ks as [|k ks IH]; intros r; cbn; auto. rewrite !fold_left_app, fold_reads. cbn. apply IH.
Qed.

Definition ready (w : writer) (r : reader) : Prop :=
  map v_name (rd_vars r) = wnames w /\ map v_ty (rd_vars r) = wtys w /\ rd_off r = 0 /\
  rd_file r = w_file w /\ rd_max r = w_off w /\ rd_callno r = 0 /\
  (forall i v, nth_error (rd_vars r) i = Some v -> v_call v = 0) /\ rd_flags r = w_flags w /\ rd_foff r = 0.

Lemma ready_sess w r k : ready w r -> ready w (sess r k).
Proof.
  intros (A1 & A2 & A3 & A4 & A5 & A6 & A7 & A8 & A9). destruct (after_frame nsize k r) as (F1 & F2 & F3 & F4 & F5).
  unfold ready, sess, uvrewind. cbn. rewrite !map_map. cbn [v_name v_ty].
  split; [etransitivity; [exact F1|exact A1]|]. split; [etransitivity; [exact F2|exact A2]|]. split; [auto|]. split; [congruence|]. split; [congruence|]. split; [auto|].
  split; [|split; [congruence|auto]]. intros i v Hv. rewrite nth_error_map in Hv.
  destruct (nth_error (rd_vars (after nsize k r)) i); inversion Hv; reflexivity.
Qed.

Lemma ready_open w : ready w (uv_open w).
Proof.
  unfold ready, uv_open. cbn. rewrite !map_map. repeat (split; [reflexivity|]). split; [|auto].
  intros i v Hv. rewrite nth_error_map in Hv. destruct (nth_error (w_vars w) i); inversion Hv; reflexivity.
Qed.

Lemma sess_J w L ds ks : (forall r, ready w r -> RS r none none L ds) -> (1 <= length ds)%nat ->
  Forall (fun k => (k <= length ds)%nat) ks ->
  let r := fold_left sess (1%nat :: ks) (uv_open w) in ready w r /\ J ds r.
Proof.
  intros HR HL HK r.
  assert (ST : forall r k, ready w r -> (S k <= length ds)%nat -> ready w (sess r (S k)) /\ J ds (sess r (S k))).
  { intros r1 k R1 K1. split; [apply ready_sess; exact R1|].
    destruct (after_match k ds r1 none none L (HR r1 R1) (goodl_none tys) K1) as (l' & p' & x & e & M1 & M2 & M3 & M4).
    apply J_rewind. eapply J_match; eauto. }
  assert (H1 : ready w (sess (uv_open w) 1) /\ J ds (sess (uv_open w) 1)) by (apply ST; [apply ready_open|exact HL]).
  subst r. cbn [fold_left]. revert H1. generalize (sess (uv_open w) 1). induction HK as [|k ks Hk HK IH]; intros r1 H1; cbn [fold_left]; auto.
  apply IH. destruct H1 as [R1 J1]. destruct k as [|k]; [|apply ST; auto].
  split; [apply ready_sess; exact R1|]. apply J_rewind. exact J1.
Qed.
End Sess.

(* ---------- init_from_uv ---------- *)
Lemma eputs_at ps n t b : NoDup (map pname ps) -> In (n, t, b) ps ->
  forall e, look (eputs e ps) n = match b with [] => look e n | _ => Some (t, b) end.
Proof.
  induction ps as [|p ps IH]; intros ND H e; [destruct H|]. unfold eputs in *. cbn [fold_left map] in *.
  inversion ND as [|? ? N1 N2]; subst. destruct H as [->|H].
  - cbn [pname pty fst snd] in *. fold (eputs (env_put e n t b) ps). rewrite eputs_out by exact N1.
    rewrite look_eput. destruct b; [auto|]. now rewrite String.eqb_refl.
  - rewrite IH by auto. rewrite look_eput. destruct b; auto. destruct (snd p); auto.
    destruct (String.eqb_spec (pname p) n) as [X|X]; auto. exfalso. apply N1. rewrite X. apply in_map_iff. exists (n, t, []). auto.
Qed.

Section Init.
Variable feq8 feq4 : list Z -> list Z -> bool.
Variable add1000 addf1000 : list Z -> list Z.
Variable junk : list Z.
Variable oc : ty.
Notation urun := (urun feq8 feq4 add1000 addf1000 junk oc).

Lemma init_ops r ov ex T (P : string -> list Z -> Prop) ks : NoDup ks ->
  (forall k, In k ks -> ~ In k ex -> k <> "corr"%string -> exists v, rfind r k = Some v /\ v_ty v = T k /\
     (getov ov k = None -> exists b b', v_buf v = Some b /\ reput (T k) b = Ok b' /\ P k b')) ->
  exists ps tr, (forall w tr0, init_from_uv r ks ov ex w tr0 = bind (urun w (map toput ps)) (fun w' => Ok (w', tr0 ++ tr))) /\
    (forall n, In n tr <-> tracked ks ov ex n) /\
    (forall n t b, In (n, t, b) ps -> In n ks /\ ~ In n ex /\ n <> "corr"%string /\ t = T n /\
       (getov ov n = Some b \/ (getov ov n = None /\ P n b))) /\
    (forall n b, In n ks -> ~ In n ex -> n <> "corr"%string -> getov ov n = Some b -> In (n, T n, b) ps) /\
    NoDup (map pname ps).
Proof.
  induction ks as [|k ks IH]; intros ND H.
  - exists [], []. split; [intros w tr0; cbn; now rewrite app_nil_r|]. split; [unfold tracked; cbn; tauto|].
    split; [intros ? ? ? []|]. split; [intros ? ? []|]. constructor.
  - inversion ND as [|? ? N1 N2]; subst.
    destruct IH as (ps & tr & I1 & I2 & I3 & I4 & I5); [exact N2|intros k' Hk'; apply H; right; exact Hk'|].
    assert (NP : ~ In k (map pname ps)).
    { intros X. apply in_map_iff in X as ([[n t] b] & X1 & X2). cbn in X1; subst n. apply I3 in X2. tauto. }
    assert (SKIP : forall c, (forall w tr0, init_from_uv r (k :: ks) ov ex w tr0 = c w tr0) -> (forall w tr0, c w tr0 = init_from_uv r ks ov ex w tr0) ->
       In k ex \/ k = "corr"%string ->
       exists ps tr, (forall w tr0, init_from_uv r (k :: ks) ov ex w tr0 = bind (urun w (map toput ps)) (fun w' => Ok (w', tr0 ++ tr))) /\
    (forall n, In n tr <-> tracked (k :: ks) ov ex n) /\
    (forall n t b, In (n, t, b) ps -> In n (k :: ks) /\ ~ In n ex /\ n <> "corr"%string /\ t = T n /\
       (getov ov n = Some b \/ (getov ov n = None /\ P n b))) /\
    (forall n b, In n (k :: ks) -> ~ In n ex -> n <> "corr"%string -> getov ov n = Some b -> In (n, T n, b) ps) /\
    NoDup (map pname ps)).
    { intros c E1 E2 HX. exists ps, tr. split; [intros w tr0; rewrite E1, E2; apply I1|]. split; [|split; [|split; [|exact I5]]].
      - intros n. rewrite I2. unfold tracked. cbn [In]. split; [tauto|]. intros ([<-|A] & B); tauto.
      - intros n t b X. apply I3 in X. cbn [In]. tauto.
      - intros n b [<-|A] B C D; [tauto|]. apply I4; auto. }
    cbn [init_from_uv] in *. destruct (mem k ex) eqn:ME.
    { eapply SKIP; [reflexivity|reflexivity|]. left. apply mem_In; exact ME. }
    destruct (String.eqb_spec k "corr") as [KC|KC].
    { eapply SKIP; [reflexivity|reflexivity|]. right; exact KC. }
    clear SKIP. assert (NE : ~ In k ex) by (rewrite <- mem_In; congruence).
    destruct (H k (or_introl eq_refl) NE KC) as (v & V1 & V2 & V3). rewrite V1, V2.
    destruct (getov ov k) as [b|] eqn:OV.
    + exists ((k, T k, b) :: ps), tr. split; [|split; [|split; [|split]]].
      * intros w tr0. cbn [map toput fst snd UvModel.urun ustep]. destruct (uvputvr w (T k) k b); cbn [bind]; [apply I1|reflexivity].
      * intros n. rewrite I2. unfold tracked. cbn [In]. split; [tauto|]. intros ([<-|A] & B & C & D); [congruence|tauto].
      * intros n t b' [X|X]; [inversion X; subst; cbn [In]; auto 8|]. apply I3 in X. cbn [In]. tauto.
      * intros n b' [<-|A] B C D; [left; congruence|]. right. apply I4; auto.
      * cbn [map pname fst]. constructor; auto.
    + destruct (V3 eq_refl) as (b & b' & B1 & B2 & B3). rewrite B1, B2. cbn [bind].
      exists ((k, T k, b') :: ps), (k :: tr). split; [|split; [|split; [|split]]].
      * intros w tr0. cbn [map toput fst snd UvModel.urun ustep]. destruct (uvputvr w (T k) k b') as [w'|]; cbn [bind]; [|reflexivity].
        rewrite I1. destruct (urun w' (map toput ps)); cbn [bind]; [|reflexivity]. now rewrite <- app_assoc.
      * intros n. cbn [In]. rewrite I2. unfold tracked. cbn [In]. split; [intros [<-|A]; tauto|]. intros ([<-|A] & B & C & D); tauto.
      * intros n t b0 [X|X]; [inversion X; subst; cbn [In]; auto 8|]. apply I3 in X. cbn [In]. tauto.
      * intros n b0 [<-|A] B C D; [congruence|]. right. apply I4; auto.
      * cbn [map pname fst]. constructor; auto.
Qed.
End Init.
